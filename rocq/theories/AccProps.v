(** C13: first pass of the usage analysis. *)
From Coq Require Import List Bool Arith ZArith Lia.
Import ListNotations.
From Verif Require Import FsmModel FsmLayout FsmEmit FsmRegion FsmStates FsmArms FsmRun AccModel AccBfs AccDom AccTemp AccPart AccLoop.

(** A path of blocks during a cycle, starting in the state [h]: following the graph, without entering a state. *)
Inductive path (g : graph) (h : nat) : list nat -> Prop :=
| path_h : path g h [h]
| path_next l b c : path g h (b :: l) -> In c (succs g b) -> b_state (g c) = false -> path g h (c :: b :: l).

(** The variable is assigned in a block; it is read in a block by an instruction or by the test ending the block, and not assigned earlier in the block. *)
Definition assigns (b : blk) (x : var) : Prop := exists e, In (IAssign x e) (b_ins b).
Definition test_of (b : blk) : list var := match b_end b with EIf e _ _ _ _ _ _ _ | ESwitch e _ _ | EWhile e _ _ => evars e | _ => [] end.
Definition reads_first (b : blk) (x : var) : Prop :=
  (exists l1 y e l2, b_ins b = l1 ++ IAssign y e :: l2 /\ In x (evars e) /\ forall e', ~ In (IAssign x e') l1) \/
  (In x (test_of b) /\ ~ assigns b x).

Lemma wrote_assigns b x : wrote (blk_access b) x -> assigns b x.
Proof.
  intros [a [H1 H2]]. unfold blk_access in H1. apply in_app_or in H1. destruct H1 as [H1|H1].
  - apply in_map_iff in H1. destruct H1 as [[y e|] [ <- H1]]; cbn in H2; [destruct H2 as [ ->|[]]; now exists e|destruct H2].
  - destruct (b_end b); cbn in H1; try tauto; destruct H1 as [ <-|[]]; destruct H2.
Qed.
Lemma reads_first_early b x : reads_first b x -> early x (blk_access b).
Proof.
  unfold blk_access. intros [[l1 [y [e [l2 [E [H1 H2]]]]]]|[H1 H2]].
  - rewrite E, map_app, <- app_assoc. clear E. induction l1 as [|[z f|] l1 IH]; cbn [map app ins_access].
    + now apply early_here.
    + apply early_next; [cbn; intros [ ->|[]]; apply (H2 f); now left|]. apply IH. intros e' K. apply (H2 e'). now right.
    + apply early_next; [intros []|]. apply IH. intros e' K. apply (H2 e'). now right.
  - assert (K : forall l, (forall e, ~ In (IAssign x e) l) -> early x (map ins_access l ++
        match b_end b with EIf e _ _ _ _ _ _ _ | ESwitch e _ _ | EWhile e _ _ => [(evars e, [])] | _ => [] end)).
    { induction l as [|[z f|] l IH]; intros N; cbn [map app ins_access].
      - unfold test_of in H1. destruct (b_end b); cbn in H1; try tauto; now apply early_here.
      - apply early_next; [cbn; intros [ ->|[]]; apply (N f); now left|]. apply IH. intros e' K. apply (N e'). now right.
      - apply early_next; [intros []|]. apply IH. intros e' K. apply (N e'). now right. }
    apply K. intros e He. apply H2. now exists e.
Qed.

Lemma succs_edge g b c : In c (succs g b) -> edge g b c.
Proof.
  unfold succs, edge. destruct (b_end (g b)) as [ |[x|]| |e cs af| | | | ]; cbn [In children]; try tauto.
  - intros [ <-|[]]. now left.
  - intros [ <-|[ <-|[]]]; tauto.
  - intros [ <-|H]; apply in_or_app; [right; now left|left; apply in_map_iff in H; destruct H as [z [ <- H]]; apply in_map_iff; now exists z].
  - intros [ <-|[ <-|[]]]; tauto.
Qed.
Lemma path_clean g h x b l : path g h (b :: l) -> (forall b', In b' l -> ~ assigns (g b') x) -> clean g (fun b => blk_access (g b)) h x b.
Proof.
  remember (b :: l) as L eqn:E. intros Pa. revert b l E. induction Pa as [|l0 b0 c0 Pa IH Hc Sc]; intros b l E Nw; injection E as <- <-.
  - apply clean_h.
  - apply (clean_step g _ h x b0).
    + apply (IH b0 l0 eq_refl). intros b' Hb'. apply Nw. now right.
    + intros W. apply (Nw b0); [now left|now apply wrote_assigns].
    + now apply succs_edge.
    + exact Sc.
Qed.
Lemma scan_in l : forall aw t, incl (a_in t) (a_rd t) -> incl (a_in (snd (scan l aw t))) (a_rd (snd (scan l aw t))).
Proof.
  induction l as [|[rd wr] l IH]; intros aw t H; cbn [scan]; [exact H|]. apply IH. cbn [a_in a_rd]. intros x Hx. apply in_app_or in Hx. apply in_or_app.
  destruct Hx as [Hx|Hx]; [left; now apply filter_In in Hx|right; now apply H].
Qed.
Lemma explore_in g acc : forall f vis q t t', explore g acc f vis q t = Some t' -> incl (a_in t) (a_rd t) -> incl (a_in t') (a_rd t').
Proof.
  induction f as [|f IH]; intros vis [|[c w] q] t t'; cbn [explore]; try discriminate; try (intros [= <-]; auto; fail).
  destruct c as [b|]; [|apply IH]. destruct (b_state (g b)); [apply IH|].
  pose proof (scan_in (acc b) w t) as SI. destruct (scan (acc b) w t) as [aw' t1]. cbn [snd] in SI. intros H K. eapply IH; [exact H|auto].
Qed.
Lemma access_heads_rd g acc f : forall hs t t', access_heads g acc f hs t = Some t' -> incl (a_in t) (a_rd t) -> incl (a_in t') (a_rd t').
Proof.
  induction hs as [|h hs IH]; intros t t'; cbn [access_heads]; [intros [= <-]; auto|]. unfold obind, access_head.
  pose proof (scan_in (acc h) [] t) as SI. destruct (scan (acc h) [] t) as [aw' t1]. cbn [snd] in SI.
  destruct (explore g acc f [] _ t1) as [t2|] eqn:E; [|discriminate]. intros H K. eapply IH; [exact H|]. eapply explore_in; eauto.
Qed.
Lemma body_access_rd fuel unit p t0 t : body_access fuel unit p t0 = Some t -> incl (a_in t0) (a_rd t0) -> incl (a_in t) (a_rd t).
Proof.
  unfold body_access, obind. destruct (gather_body fuel unit p) as [s|]; [|discriminate]. destruct (generate_states fuel s) as [[g r]|]; [|discriminate].
  apply access_heads_rd.
Qed.

(** For every algorithm, every state, every path during a cycle: a variable read at the end of the path and assigned nowhere before on the path is
    recorded as read on entry. Partial: assignments of whole variables (see the refutations below), no subroutine calls, no pipelines. *)
Theorem C13_reads_found_partial : forall fuel unit p s g r t0 t h i x l b,
  nojumps (gotoss p) p = true ->
  gather_body fuel unit p = Some s -> generate_states fuel s = Some (g, r) -> body_access fuel unit p t0 = Some t ->
  r_sid r h = Some i -> path g h (b :: l) -> (forall b', In b' l -> ~ assigns (g b') x) -> reads_first (g b) x ->
  In x (a_in t).
Proof.
  intros fuel unit p s g r t0 t h i x l b NJ GB GS AC Hi Pa Nw Rd. destruct (states_ok fuel unit p s g r GB GS NJ) as [c [ic O]].
  eapply (reads_found fuel unit p NJ t0 t AC s g r c ic h i x b O GB GS Hi); [now apply (path_clean g h x b l)|now apply reads_first_early].
Qed.
Print Assumptions C13_reads_found_partial.

(** Such a variable does not become a temporary. *)
Theorem C13_reads_keep_register_partial : forall fuel unit p s g r t0 t h i x l b table,
  nojumps (gotoss p) p = true ->
  gather_body fuel unit p = Some s -> generate_states fuel s = Some (g, r) -> body_access fuel unit p t0 = Some t -> incl (a_in t0) (a_rd t0) ->
  r_sid r h = Some i -> path g h (b :: l) -> (forall b', In b' l -> ~ assigns (g b') x) -> reads_first (g b) x ->
  determine_usage table t x = UFlip \/ determine_usage table t x = UConst.
Proof.
  intros fuel unit p s g r t0 t h i x l b table NJ GB GS AC T0 Hi Pa Nw Rd.
  assert (A : In x (a_in t)) by (eapply C13_reads_found_partial; eassumption). pose proof (body_access_rd _ _ _ _ _ AC T0 x A) as B.
  unfold determine_usage. apply memb_In in A, B. rewrite A, B. destruct (memb x (a_wr t)); [left; now rewrite andb_false_r|now right].
Qed.
Print Assumptions C13_reads_keep_register_partial.

(** Hence a temporary never carries a value across cycles: for every algorithm and every run, whatever the values given to the temporaries at the
    beginning of the cycles, the machine goes through the same states with the same values of all the other variables.
    [inp], [inp2]: what happens between two cycles (inputs, and in the second run temporaries get any value); [pre]: always_before block. *)
Theorem C13_temporaries_carry_nothing_partial : forall fuel unit deps0 p m t0 t table (inp inp2 pre : nat -> store -> store),
  compile fuel unit deps0 p = Some m -> body_access fuel unit p t0 = Some t -> incl (a_in t0) (a_rd t0) -> Legal deps0 pre p ->
  let temp := fun x => match determine_usage (table x) t x with UTemp => true | _ => false end in
  (forall n s s2, (forall x, temp x = false -> s x = s2 x) -> forall x, temp x = false -> inp n s x = inp2 n s2 x) ->
  (forall n s s2, (forall x, temp x = false -> s x = s2 x) -> forall x, temp x = false -> pre n s x = pre n s2 x) ->
  (forall d x, In d (waitss p) -> In x (evars d) -> temp x = false) ->
  forall n s, exists D D2 i, runs m inp pre n s = Some (D, i) /\ runs m inp2 pre n s = Some (D2, i) /\ forall x, temp x = false -> D x = D2 x.
Proof.
  intros fuel unit deps0 p m t0 t table inp inp2 pre CP AC T0 LG temp HI HP WT n s.
  destruct (runs_same fuel unit deps0 p m CP (l_jump _ _ _ LG) (l_cover _ _ _ LG) t0 t AC temp) with (inp := inp) (inp2 := inp2) (pre := pre) (pre2 := pre) (n := n) (s := s) (s2 := s)
    as [D [D2 [i [R1 [R2 [S _]]]]]].
  - intros x Hx Hin. pose proof (body_access_rd _ _ _ _ _ AC T0 x Hin) as B. unfold temp, determine_usage in Hx. apply memb_In in Hin, B. rewrite Hin, B in Hx.
    rewrite andb_false_r in Hx. destruct (memb x (a_wr t)); discriminate.
  - exact WT.
  - intros k a b H x Hx. now apply (HI k a b).
  - intros k a b H x Hx. now apply (HP k a b).
  - intros k a x Hx. now apply (l_pre _ _ _ LG).
  - intros k a x Hx. now apply (l_pre _ _ _ LG).
  - intros x Hx. reflexivity.
  - exists D, D2, i. auto.
Qed.
Print Assumptions C13_temporaries_carry_nothing_partial.

(** Two states, [t] (variable 1) and [u] (variable 2) are temporaries, [k] (variable 0) keeps its value.
    while (1) { t = k + 1; if (t < 5) { k = t; } else { k = 0; }  ++:  u = k + k; o = u; } *)
Definition p13 : list stmt :=
  [ SWhile (EC 1)
      [ SAssign 1 (EB Z.add (EV 0) (EC 1));
        SIfElse (EB (fun a b => if Z.ltb a b then 1%Z else 0%Z) (EV 1) (EC 5)) [ SAssign 0 (EV 1) ] [ SAssign 0 (EC 0) ];
        SStep; SAssign 2 (EB Z.add (EV 0) (EV 0)); SAssign 3 (EV 2) ] ].
Definition s13 : store := fun _ => 0%Z.
(** Inputs of the second run: temporaries are lost at each cycle. *)
Definition lose (x y : var) (v : Z) : nat -> store -> store := fun _ s z => if Nat.eqb z x || Nat.eqb z y then v else s z.
Definition idle13 : nat -> store -> store := fun _ s => s.
Example C13_ex :
  exists m t, compile 100 true [] p13 = Some m /\ body_access 100 true p13 acct0 = Some t /\ Legal [] idle13 p13 /\
    determine_usage false t 1 = UTemp /\ determine_usage false t 2 = UTemp /\ determine_usage false t 0 = UFlip /\
    option_map (fun r => (fst r 0, fst r 3)) (runs m (lose 1 2 77) idle13 6 s13) = Some (3, 4)%Z /\
    option_map (fun r => (fst r 0, fst r 3)) (runs m idle13 idle13 6 s13) = Some (3, 4)%Z.
Proof.
  eexists. eexists. split; [vm_compute; reflexivity|]. split; [vm_compute; reflexivity|]. split; [|vm_compute; auto 10].
  split; [reflexivity|reflexivity|reflexivity|intros d x []].
Qed.
(** The path of [k] in the first state: read at the beginning. *)
Example C13_path_ex : exists s g r t h i, nojumps (gotoss p13) p13 = true /\
  gather_body 100 true p13 = Some s /\ generate_states 100 s = Some (g, r) /\ body_access 100 true p13 acct0 = Some t /\
  r_sid r h = Some i /\ exists b l, l <> [] /\ path g h (b :: l) /\ (forall b', In b' l -> ~ assigns (g b') 0) /\ reads_first (g b) 0.
Proof.
  eexists. eexists. eexists. eexists. exists 2. eexists. split; [reflexivity|]. split; [vm_compute; reflexivity|]. split; [vm_compute; reflexivity|].
  split; [vm_compute; reflexivity|]. split; [vm_compute; reflexivity|]. exists 5, [3; 2]. split; [discriminate|]. split; [|split].
  - apply path_next; [apply path_next; [apply path_h| |reflexivity]| |reflexivity]; vm_compute; auto.
  - intros b' Hb [e He]. destruct Hb as [ <-|[ <-|[]]]; vm_compute in He; exact He.
  - left. exists [], 1. eexists. eexists. split; [vm_compute; reflexivity|]. split; [vm_compute; auto|intros e []].
Qed.

(** * Tables, part-selects and bitfields *)
(** Loops of states where variables are assigned as a whole, tables by element, bitfields are read in variables: with the temporaries reset at
    each cycle, the same values as with every variable a register. *)
Theorem C13_tables_partial : forall out table p init n,
  forallb (forallb (fine_asg table)) p = true ->
  forall x, negb (out x) && is_temp (loop_usage table p x) = false -> hw_run out table p init n x 0%Z = loop_run p n init x 0%Z.
Proof.
  intros out table p init n F.
  set (T := fun x => negb (out x) && is_temp (loop_usage table p x)). destruct (loop_total p) as [t Ht].
  assert (IN : incl (a_in t) (a_rd t)) by (unfold loop_access in Ht; eapply access_heads_rd; [exact Ht|intros y []]).
  assert (K0 : forall x, T x = true -> determine_usage (table x) t x = UTemp).
  { intros x Hx. unfold T in Hx. apply andb_true_iff in Hx. destruct Hx as [_ Hx]. unfold loop_usage, obind in Hx. rewrite Ht in Hx. cbn [is_temp] in Hx.
    destruct (determine_usage (table x) t x); (reflexivity || discriminate). }
  assert (TT : forall x, T x = true -> table x = false).
  { intros x Hx. specialize (K0 x Hx). unfold determine_usage in K0. destruct (memb x (a_rd t)), (memb x (a_wr t)), (table x); try discriminate; reflexivity. }
  assert (TI : forall x, T x = true -> ~ In x (a_in t)).
  { intros x Hx Hin. specialize (K0 x Hx). unfold determine_usage in K0. pose proof (IN x Hin) as B. apply memb_In in Hin, B. rewrite Hin, B, andb_false_r in K0.
    destruct (memb x (a_wr t)); discriminate. }
  assert (M : forall y, T y = false -> eqv table (hw_run out table p init n) (loop_run p n init) y).
  { induction n as [|n IH]; intros y Ty; cbn [hw_run loop_run].
    - unfold eqv. destruct (table y); reflexivity.
    - set (b := n mod length p). destruct (Nat.ltb b (length p)) eqn:Lb; [apply Nat.ltb_lt in Lb|apply Nat.ltb_ge in Lb].
      + apply (asgs_eqv table T TT _ (fun _ => True)); [|intros z Tz _ E; apply (TI z Tz); eapply loop_in; eassumption| |exact Ty].
        * rewrite forallb_forall in F. apply F. now apply nth_In.
        * intros z. destruct (T z) eqn:Tz; [right; auto|left]. specialize (IH z Tz). unfold eqv, drop in *. fold (T z). rewrite Tz. exact IH.
      + rewrite nth_overflow by exact Lb. cbn [asgs]. specialize (IH y Ty). unfold eqv, drop in *. fold (T y). rewrite Ty. exact IH. }
  intros x Hx. apply (eqv0 table), M, Hx.
Qed.
Print Assumptions C13_tables_partial.
(** A table (2) and a bitfield of a temporary (0): { t = k + 1; tbl[t] = k; } ++: { t = tbl[k]; o = Field(t).m; k = k + 1; } *)
Definition l13 : list (list asg) :=
  [ [ (AVar 0, XB Z.add (XAcc (AVar 1)) (XC 1)); (ATab 2 (XAcc (AVar 0)), XB Z.add (XAcc (AVar 1)) (XC 17)) ];
    [ (AVar 0, XAcc (ATab 2 (XAcc (AVar 1)))); (AVar 3, XAcc (ABit (AVar 0) 4 4)); (AVar 1, XB Z.add (XAcc (AVar 1)) (XC 1)) ] ].
Definition out13 (x : var) : bool := Nat.eqb x 3.
Definition tab13 (x : var) : bool := Nat.eqb x 2.
Example C13_tables_ex : forallb (forallb (fine_asg tab13)) l13 = true /\ loop_usage tab13 l13 0 = Some UTemp /\ loop_usage tab13 l13 1 = Some UFlip /\
  hw_run out13 tab13 l13 (fun _ _ => 0%Z) 4 3 0%Z = 1%Z.
Proof. vm_compute. auto. Qed.

(** An assignment to a part of a variable counts as an assignment of the variable: the other bits are lost.
    while (1) { a[k,1] = 1; o = a; k = k + 1; }  *)
Theorem C13_part_write_refuted : exists out table p init n x, out x = true /\
  loop_usage table p 0 = Some UTemp /\ hw_run out table p init n x 0%Z = 2%Z /\ loop_run p n init x 0%Z = 3%Z.
Proof.
  exists out13, tab13, [ [ (APart (AVar 0) (XAcc (AVar 1)) 1, XC 1); (AVar 3, XAcc (AVar 0)); (AVar 1, XB Z.add (XAcc (AVar 1)) (XC 1)) ] ], (fun _ _ => 0%Z), 2, 3.
  vm_compute. auto.
Qed.
(** The index of a table read through a bitfield is not seen as read.  i = 3; ++: o = Field(tbl[i]).m;  *)
Theorem C13_bitfield_read_refuted : exists out table p init n x, out x = true /\
  loop_usage table p 0 = Some UTemp /\ hw_run out table p init n x 0%Z = 0%Z /\ loop_run p n init x 0%Z = 7%Z.
Proof.
  exists out13, tab13, [ [ (AVar 0, XC 3) ]; [ (AVar 3, XAcc (ABit (ATab 2 (XAcc (AVar 0))) 0 4)) ] ],
    (fun x i => if tab13 x && Z.eqb i 3 then 7%Z else 0%Z), 2, 3.
  vm_compute. auto.
Qed.
(** Nor the index of a table assigned through a bitfield or a part-select.  i = 3; ++: tbl[i][0,4] = 7; ++: o = tbl[3];  *)
Theorem C13_index_write_refuted : exists out table init n x, out x = true /\ forall a, a = APart (ATab 2 (XAcc (AVar 0))) (XC 0) 4 \/ a = ABit (ATab 2 (XAcc (AVar 0))) 0 4 ->
  let p := [ [ (AVar 0, XC 3) ]; [ (a, XC 7) ]; [ (AVar 3, XAcc (ATab 2 (XC 3))) ] ] in
  loop_usage table p 0 = Some UTemp /\ hw_run out table p init n x 0%Z = 0%Z /\ loop_run p n init x 0%Z = 7%Z.
Proof.
  exists out13, tab13, (fun _ _ => 0%Z), 3, 3. split; [reflexivity|]. intros a [ ->| ->]; vm_compute; auto.
Qed.
Print Assumptions C13_part_write_refuted.
Print Assumptions C13_bitfield_read_refuted.
Print Assumptions C13_index_write_refuted.
