(** Declarations: the machine with declarations and the machine with assignments do the same. *)
From Coq Require Import List Bool Arith ZArith Lia.
Import ListNotations.
From Verif Require Import FsmModel FsmEmit FsmLayout FsmGather FsmBody FsmRenum FsmRegion FsmJoin FsmStates FsmArms FsmRun FsmSkip InitModel InitRuns InitView InitEmit.

(** * The first run *)
Section First.
  Variable G : graph.
  Variable Lb : nat -> nat -> Prop.
  Lemma first_ins brk l lo hi b i b' i' : trl G Lb brk l lo hi b i b' i' -> b < lo -> forall c, at_run G c b i -> full G b' i' ->
    forall z, b_ins (G b) = snd (hd z (ended c l ++ [lastrun c l])).
  Proof.
    destruct (runs_ok G Lb) as [R _]. destruct (tr_exit G Lb) as [X1 _]. revert lo hi b i b' i'. induction l as [|x l IH]; intros lo hi b i b' i' T L c A F z.
    - inversion T; subst. cbn. eapply run_full; eassumption.
    - inversion T as [|? ? ? ? m ? ? ? b1 i1 ? ? T1 T2]; subst. specialize (R _ _ _ _ _ _ _ _ T1 L c A). cbn [ended lastrun].
      destruct (opens x) as [c'|].
      + destruct R as [R _]. cbn. eapply run_full; eassumption.
      + destruct R as [Eb [El R]]. subst b1 m. exact (IH _ _ _ _ _ _ T2 L _ R F z).
  Qed.
End First.

(** Blocks that are not allocated hold nothing. *)
Lemma out_ins fuel unit p s : gather_body fuel unit p = Some s -> nojumps (gotoss p) p = true -> forall x, g_next s <= x -> b_ins (g_blk s x) = [].
Proof.
  intros GB NJ x L. unfold gather_body in GB. rewrite body_gather in GB. unfold obind in GB.
  destruct (gather_list fuel None (body unit p) 0 gst0) as [[c s0]|] eqn:GL; [|discriminate].
  destruct (resolve (g_lbl s0) (g_fwd s0) (g_blk s0)) as [g1|] eqn:RS; [|discriminate]. injection GB as <-.
  set (T := gotoss (body unit p)).
  assert (NJ' : nojumps T (body unit p) = true).
  { rewrite body_nojump. unfold T. rewrite <- NJ. clear.
    assert (E : forall n, memb n (gotoss (body unit p)) = memb n (gotoss p)).
    { intros n. destruct (memb n (gotoss p)) eqn:M; [apply memb_In; apply body_gotos; now apply memb_In|].
      apply memb_notIn. rewrite body_gotos. now apply memb_notIn. }
    apply (nojumps_ext _ _ E). }
  destruct (gather_list_ok fuel T (body unit p) None 0 gst0 c s0 GL pre0 NJ' (incl_refl _)) as [P TR].
  cbn [g_blk upd_blk g_next] in *. rewrite (resolve_ins _ _ _ _ RS). apply (i_out s0 (p_inv _ _ _ _ _ _ _ P) x L).
Qed.

(** What is fast forwarded from a state is a state, and is not the first block. *)
Lemma ff_loop_state g : (forall x, pos g x) -> forall f l cur y, l <> 0 -> b_state (g l) = true -> ff_loop f g l cur = Some y -> y <> 0 /\ b_state (g y) = true.
Proof.
  intros Z. induction f as [|f IH]; intros l cur y N S H; cbn [ff_loop] in H; [discriminate|].
  destruct (block_empty (g cur)); cbn [negb] in H; [|injection H as <-; auto].
  destruct (b_end (g cur)) as [|[n|]| | | | | |] eqn:E; try (injection H as <-; auto); [|discriminate].
  destruct (b_noskip (g n)); [injection H as <-; auto|]. destruct (b_state (g n)) eqn:Sn; [|now apply (IH l n)].
  apply (IH n n); [|exact Sn|exact H]. intros ->. apply (Z cur). rewrite E. now left.
Qed.
Lemma ff_state g f x y : (forall x, pos g x) -> x <> 0 -> b_state (g x) = true -> fast_forward f g x = Some y -> y <> 0 /\ b_state (g y) = true.
Proof. intros Z N S. unfold fast_forward. destruct (b_noskip (g x)); [intros [= <-]; auto|]. now apply ff_loop_state. Qed.

Scheme walk_mu := Minimality for walk Sort Prop with go_mu := Minimality for go Sort Prop.
Lemma walk_target g J Q : (forall x, pos g x) -> (forall x, plain g x) -> forall b s s', walk g J Q b s s' -> snd s' = 0 \/ exists x, x <> 0 /\ b_state (g x) = true /\ J x (snd s').
Proof.
  intros Z PL. assert (CN : forall b x, In (Some x) (children (b_end (g b))) -> x <> 0) by (intros b x H ->; exact (Z b H)).
  set (T := fun s' : store * nat => snd s' = 0 \/ exists x, x <> 0 /\ b_state (g x) = true /\ J x (snd s')).
  apply (walk_mu g J Q (fun _ _ s' => T s') (fun x _ s' => x <> 0 -> T s')).
  - intros b s E. now left.
  - intros b x s s' E _ IH. apply IH. apply (CN b). rewrite E. now left.
  - intros b e ib fi it eb fe et af s s' E _ IH. apply IH. apply (CN b). rewrite E. destruct (truth _); [now left|right; now left].
  - intros b e cs af s s' E _ IH. apply IH. apply (CN b). rewrite E. cbn. apply in_or_app. destruct (pick _ cs) as [x|] eqn:K; [|right; now left]. left.
    apply pick_in in K. apply in_map_iff in K. destruct K as [z [Z1 Z2]]. apply in_map_iff. exists z. split; [congruence|exact Z2].
  - intros b e it af s s' E _ IH. apply IH. apply (CN b). rewrite E. destruct (truth _); [now left|right; now left].
  - intros b e w n s i E Jx. pose proof (PL b) as P. unfold plain in P. rewrite E in P. destruct P as [P1 P2]. right. cbn [snd].
    exists (if truth (eval Q e) then n else w). split; [|split; [now destruct (truth _)|exact Jx]].
    apply (CN b). rewrite E. destruct (truth _); [right; now left|now left].
  - intros b cc sv cid x rt s i E. pose proof (PL b) as P. unfold plain in P. rewrite E in P. contradiction.
  - intros b cc rets x sv s i E. pose proof (PL b) as P. unfold plain in P. rewrite E in P. contradiction.
  - intros b cc rets s E. pose proof (PL b) as P. unfold plain in P. rewrite E in P. contradiction.
  - intros x s i S Jx N. right. exists x. auto.
  - intros x s s' S _ IH _. exact IH.
Qed.

(** * The chain with declarations *)
Section Init.
  Variable kind : instr -> ikind.
  Hypothesis CK : constants kind.
  Variables (fuel : nat) (unit : bool) (deps0 : list var) (p : list stmt) (m : fsm) (s : gst) (g : graph) (r : rst) (c ic : nat).
  Hypothesis CH : Chain fuel unit deps0 p m s g r.
  Hypothesis NJ : nojumps (gotoss p) p = true.
  Hypothesis CV : covereds p = true.
  Hypothesis O : Good fuel (body unit p) s g r c ic.
  Hypothesis ST : settled kind unit p = true.

  Let GB := h_body _ _ _ _ _ _ _ _ CH.
  Let PL := all_plain fuel unit p s g r c ic O.

  Lemma gen_same : exists ch r1, renumber fuel (g_blk s) = Some r1 /\ prevent r1 (unreachable (g_blk s) r1) (seq 0 (g_next s)) (g_blk s) false = Some (g, ch) /\
    (if ch : bool then renumber fuel g = Some r else r1 = r).
  Proof.
    pose proof (h_gen _ _ _ _ _ _ _ _ CH) as H. unfold generate_states in H. apply obind_some in H. destruct H as [r1 [H1 H]]. apply obind_some in H. destruct H as [[g2 ch] [H2 H]].
    exists ch, r1. split; [exact H1|]. destruct ch.
    - apply obind_some in H. destruct H as [r2 [H3 H]]. injection H as <- <-. auto.
    - injection H as <- <-. auto.
  Qed.
  Lemma same x : b_end (g x) = b_end (g_blk s x) /\ b_ins (g x) = b_ins (g_blk s x) /\ b_noskip (g x) = b_noskip (g_blk s x) /\ (b_state (g_blk s x) = true -> b_state (g x) = true).
  Proof. destruct gen_same as [ch [r1 [_ [P _]]]]. exact (prevent_same _ _ _ _ _ _ _ P x). Qed.

  Lemma block_ok x : b_ins (g x) = [] \/ exists k, starting g k x /\ exists final, okrun kind final (k, b_ins (g x)) = true /\ (x = c -> final = true).
  Proof.
    unfold settled in ST. apply andb_true_iff in ST. destruct ST as [S1 S2]. destruct (block_runs fuel unit p s g r c ic O) as [B1 [B2 B3]].
    destruct (Nat.eq_dec x c) as [E|N]; [subst x|].
    - right. exists (fst (endrun unit p)). split; [exact B3|]. exists true. split; [|reflexivity]. rewrite B2. unfold endrun. now destruct (lastrun (STop, []) (body unit p)).
    - destruct (le_lt_dec (g_next s) x) as [L|L]; [left; destruct (same x) as [_ [ -> _]]; exact (out_ins _ _ _ _ GB NJ x L)|].
      destruct (B1 x N L) as [H|[k [l [H1 [H2 H3]]]]]; [now left|]. right. exists k. split; [exact H3|]. exists false. split; [|congruence].
      rewrite H2. rewrite forallb_forall in S1. now apply S1.
  Qed.
  Lemma okrun_parts final k l : okrun kind final (k, l) = true -> ordered kind l = true /\
    (existsb (is_init kind) l = true -> k <> SOther) /\ (only_expr kind l = true -> k = STop \/ (k = SHard /\ final = false)).
  Proof.
    unfold okrun. cbn [fst snd]. intros H. apply andb_true_iff in H. destruct H as [H H3]. apply andb_true_iff in H. destruct H as [H1 H2]. split; [exact H1|]. split.
    - intros E. rewrite E in H2. intros ->. discriminate.
    - intros E. rewrite E in H3. destruct k; try discriminate; [now left|right]. split; [reflexivity|]. now destruct final.
  Qed.
  Lemma order_ok x : ordered kind (b_ins (g x)) = true.
  Proof. destruct (block_ok x) as [ ->|[k [_ [f [H _]]]]]; [reflexivity|]. now apply okrun_parts in H. Qed.
  Lemma empty_cases l : is_empty kind {| b_ins := l; b_end := ENone; b_state := false; b_noskip := false |} = match l with [] => true | _ => only_expr kind l && negb (existsb (is_init kind) l) end.
  Proof. unfold is_empty, only_expr. cbn. destruct l; [reflexivity|]. now rewrite andb_comm. Qed.
  Lemma is_empty_ins b : is_empty kind b = is_empty kind {| b_ins := b_ins b; b_end := ENone; b_state := false; b_noskip := false |}.
  Proof. reflexivity. Qed.

  Lemma skip_ok x : x <> 0 -> b_noskip (g x) = false -> is_empty kind (g x) = block_empty (g x).
  Proof.
    intros N K. rewrite is_empty_ins, empty_cases. unfold block_empty. destruct (block_ok x) as [ ->|[k [Sk [f [H _]]]]]; [reflexivity|].
    destruct (okrun_parts _ _ _ H) as [_ [_ H3]]. destruct (b_ins (g x)) as [|a l] eqn:E; [reflexivity|]. destruct (only_expr kind (a :: l)) eqn:Oe; [|reflexivity].
    destruct (H3 eq_refl) as [ ->|[ -> _]]; cbn in Sk; congruence.
  Qed.
  Lemma init_ok x : x <> 0 -> existsb (is_init kind) (b_ins (g x)) = true -> b_noskip (g x) = true \/ b_state (g x) = false.
  Proof.
    intros N I. destruct (block_ok x) as [E|[k [Sk [f [H _]]]]]; [rewrite E in I; discriminate|]. destruct (okrun_parts _ _ _ H) as [_ [H2 _]]. specialize (H2 I).
    destruct k; cbn in Sk; [contradiction|now right|now left|contradiction].
  Qed.
  Lemma last_ok y : y <> 0 -> b_state (g y) = true -> y = g_last s -> is_empty kind (g y) = block_empty (g y).
  Proof.
    intros N S E. assert (Ec : y = c) by (destruct (o_last _ _ _ _ _ _ _ O) as [X|X]; congruence).
    rewrite is_empty_ins, empty_cases. unfold block_empty. destruct (block_ok y) as [ ->|[k [Sk [f [H F]]]]]; [reflexivity|].
    destruct (okrun_parts _ _ _ H) as [_ [_ H3]]. destruct (b_ins (g y)) as [|a l] eqn:El; [reflexivity|]. destruct (only_expr kind (a :: l)) eqn:Oe; [|reflexivity].
    destruct (H3 eq_refl) as [ ->|[_ F']]; [cbn in Sk; congruence|rewrite (F Ec) in F'; discriminate].
  Qed.
  Let Z : forall x, pos g x := no_zero fuel unit p s g r c ic GB NJ O.

  (** The same numbering. *)
  Lemma generate_seen : exists gv, generate_states fuel (upd_blk s (viewg kind (g_blk s))) = Some (gv, r) /\ seen kind gv g.
  Proof.
    destruct gen_same as [ch [r1 [H1 [H2 H3]]]]. set (g1 := g_blk s) in *. set (g1v := viewg kind g1). assert (SE : seen kind g1v g1) by (intros x; reflexivity).
    assert (SM : forall x, b_end (g x) = b_end (g1 x) /\ b_ins (g x) = b_ins (g1 x) /\ b_noskip (g x) = b_noskip (g1 x) /\ (b_state (g1 x) = true -> b_state (g x) = true)) by exact same.
    assert (Z1 : forall x, pos g1 x) by (intros x; unfold pos; destruct (SM x) as [ <- _]; apply Z).
    assert (A1 : forall x, x <> 0 -> b_noskip (g1 x) = false -> is_empty kind (g1 x) = block_empty (g1 x)).
    { intros x N K. destruct (SM x) as [_ [I [K2 _]]]. pose proof (skip_ok x N ltac:(congruence)) as E. unfold is_empty, block_empty in *. now rewrite I in E. }
    assert (A2 : forall x, x <> 0 -> existsb (is_init kind) (b_ins (g1 x)) = true -> b_noskip (g1 x) = true \/ b_state (g1 x) = false).
    { intros x N K. destruct (SM x) as [_ [I [K2 S]]]. rewrite <- I in K. destruct (init_ok x N K) as [X|X]; [left; congruence|right]. destruct (b_state (g1 x)); [|reflexivity]. rewrite S in X by reflexivity. discriminate. }
    pose proof (renumber_seen kind g1v g1 SE Z1 A1 A2 fuel r1 H1) as R1.
    destruct (prevent_seen kind r1 (unreachable g1 r1) (unreachable g1v r1) (unreachable_seen kind g1v g1 SE r1) _ g1v g1 false g ch SE H2) as [gv [P1 P2]].
    exists gv. split; [|exact P2]. unfold generate_states. cbn [g_blk g_next upd_blk]. fold g1v. rewrite R1. cbn [obind]. rewrite P1. cbn [obind]. destruct ch.
    - rewrite (renumber_seen kind gv g P2 Z skip_ok init_ok fuel r H3). reflexivity.
    - now subst r1.
  Qed.

  Section Arms.
    Variable gv : graph.
    Hypothesis SE : seen kind gv g.
    Let h := laid kind (g_blk s) gv.
    Definition tops : store -> Prop := holds kind (b_ins (g 0)).

    Lemma laid_ins x : b_ins (h x) = layout kind x (b_ins (g x)).
    Proof. unfold h, laid. cbn. now destruct (same x) as [_ [ -> _]]. Qed.
    Lemma ins_ok x D D' i : eqs D D' -> pre_of tops x D -> eqp (exec_ins (b_ins (g x)) (D, i)) (exec_ins (b_ins (h x)) (D', i)).
    Proof.
      intros E P. rewrite laid_ins. unfold layout, pre_of in *. destruct (Nat.eqb_spec x 0) as [X|X].
      - subst x. eapply eqp_trans; [apply (dropped kind CK _ (order_ok 0) (D, i) P)|]. apply exec_ins_eqp. split; [exact E|reflexivity].
      - eapply eqp_trans; [apply (hoisted kind CK _ (order_ok x) (D, i))|]. apply exec_ins_eqp. split; [exact E|reflexivity].
    Qed.
    Lemma ffi_ok f x i : x <> 0 -> b_state (g x) = true -> ff_index f g r (g_last s) x = Some i -> ff_index f gv r (g_last s) x = Some i.
    Proof.
      unfold ff_index. intros N S H. apply obind_some in H. destruct H as [y [H1 H2]]. rewrite (ff_seen kind gv g SE Z skip_ok init_ok f x y N S H1). cbn [obind].
      destruct (ff_state g f x y Z N S H1) as [Ny Sy]. rewrite (seen_empty kind gv g SE). destruct (Nat.eqb_spec y (g_last s)) as [E|E]; [|now rewrite andb_false_r in *].
      now rewrite (last_ok y Ny Sy E).
    Qed.

    Lemma pushed f ps : forall ps', Forall (fun x => x <> 0) ps -> somes (map (fast_forward f g) (filter (fun x => b_state (g x)) ps)) = Some ps' ->
      somes (map (fast_forward f gv) (filter (fun x => b_state (gv x)) ps)) = Some ps'.
    Proof.
      intros ps' NZ. revert ps'. induction NZ as [|x ps N _ IH]; intros ps' Hp; cbn [filter map] in *; [exact Hp|].
      rewrite (seen_state kind gv g SE). destruct (b_state (g x)) eqn:Sx; [|now apply IH]. cbn [map somes] in *.
      destruct (fast_forward f g x) as [y|] eqn:Fx; [|discriminate]. rewrite (ff_seen kind gv g SE Z skip_ok init_ok f x y N Sx Fx).
      destruct (somes (map (fast_forward f g) (filter (fun x0 => b_state (g x0)) ps))) as [l|]; [|discriminate]. now rewrite (IH l eq_refl).
    Qed.

    Definition arm_sim (a a' : nat * list vst) : Prop := fst a = fst a' /\ exists b e e', r_sid r b = Some (fst a) /\ sim (pre_of tops b) deps0 deps0 (snd a) (snd a') e e'.
    Lemma states_sim : forall f q pr arms, write_states f g r (g_last s) deps0 q pr = Some arms ->
      exists arms', write_states_init f gv h r (g_last s) deps0 q pr = Some arms' /\ Forall2 arm_sim arms arms'.
    Proof.
      induction f as [|f IH]; intros [|b q] pr arms H; cbn [write_states] in H; try discriminate.
      - injection H as <-. exists []. split; [reflexivity|constructor].
      - injection H as <-. exists []. split; [reflexivity|constructor].
      - cbn [write_states_init]. destruct (r_sid r b) as [id|] eqn:S; [|discriminate]. destruct (memb b pr); [now apply IH|].
        apply obind_some in H. destruct H as [[[cd d] ps] [He H]]. apply obind_some in H. destruct H as [ps' [Hp H]]. apply obind_some in H. destruct H as [arms0 [Ha H]]. injection H as <-.
        destruct (emit_sim g h r (ff_index f g r (g_last s)) (ff_index f gv r (g_last s)) tops) with (f := f) (entry := true) (stop := @None nat) (b := b) (d := deps0) (d' := deps0) (c := cd) (e := d) (q := ps)
          as [c' [e' [E1 E2]]]; try assumption.
        + intros x. unfold h, laid. cbn. apply (seen_end kind gv g SE).
        + intros x. unfold h, laid. cbn. apply (seen_state kind gv g SE).
        + apply ffi_ok.
        + apply ins_ok.
        + reflexivity.
        + rewrite E1. cbn [obind]. pose proof (emit_nz g r _ PL Z f true None b deps0 cd d ps (fun _ => eq_refl) He) as NZ.
          pose proof (pushed f ps ps' NZ Hp) as F.
          rewrite F. cbn [obind]. destruct (IH _ _ _ Ha) as [arms' [A1 A2]]. rewrite A1. cbn [obind]. exists ((id, c') :: arms'). split; [reflexivity|].
          constructor; [|exact A2]. split; [reflexivity|]. exists b, d, e'. split; [exact S|exact E2].
    Qed.
  End Arms.

  Theorem init_chain : exists mI, compile_init kind fuel unit deps0 p = Some mI /\ f_entry mI = f_entry m /\ f_max mI = f_max m /\ Forall2 arm_sim (f_arms m) (f_arms mI).
  Proof.
    destruct generate_seen as [gv [G1 SE]]. destruct (states_sim gv SE _ _ _ _ (h_arms _ _ _ _ _ _ _ _ CH)) as [arms [A1 A2]].
    exists {| f_arms := arms; f_entry := f_entry m; f_max := r_max r |}. split; [|split; [reflexivity|split; [symmetry; exact (h_max _ _ _ _ _ _ _ _ CH)|exact A2]]].
    unfold compile_init. rewrite GB. cbn [obind]. rewrite G1. cbn [obind]. rewrite A1. cbn [obind]. now rewrite (h_entry _ _ _ _ _ _ _ _ CH).
  Qed.

  Lemma arm_of_two l l' i code : Forall2 arm_sim l l' -> arm_of i l = Some code -> exists code', arm_of i l' = Some code' /\ arm_sim (i, code) (i, code').
  Proof.
    induction 1 as [|[a x] [a' x'] l l' H _ IH]; cbn [arm_of]; [discriminate|]. pose proof (proj1 H) as E. cbn in E. subst a'. destruct (Nat.eqb_spec a i) as [X|X].
    - subst a. intros [= <-]. exists x'. split; [reflexivity|exact H].
    - exact IH.
  Qed.

  Lemma first_is : b_ins (g 0) = first_run unit p.
  Proof.
    unfold first_run. eapply (first_ins g (LbOf s)); [exact (o_tr _ _ _ _ _ _ _ O)|lia|apply (at_zero g STop 0 eq_refl)|exact (o_full _ _ _ _ _ _ _ O)].
  Qed.

  Variables inp pre : nat -> store -> store.
  Hypothesis LP : forall t st x, ~ In x deps0 -> pre t st x = st x.
  Hypothesis EI : forall t a b, eqs a b -> eqs (inp t a) (inp t b).
  Hypothesis EP : forall t a b, eqs a b -> eqs (pre t a) (pre t b).

  Theorem init_runs mI s0 : compile_init kind fuel unit deps0 p = Some mI -> holds kind (first_run unit p) (pre 0 (inp 0 s0)) ->
    forall n, exists D D' i, runs m inp pre n s0 = Some (D, i) /\ runs mI inp pre n s0 = Some (D', i) /\ eqs D D'.
  Proof.
    intros CI HT. destruct init_chain as [mI' [C1 [C2 [C3 C4]]]]. rewrite CI in C1. injection C1 as <-. pose proof (o_ren _ _ _ _ _ _ _ O) as REN.
    assert (INV : forall n, exists D D' i, runs m inp pre n s0 = Some (D, i) /\ runs mI inp pre n s0 = Some (D', i) /\ eqs D D' /\
      (i = 0 \/ has_arm m i) /\ ((n = 0 /\ i = f_entry m /\ D = s0) \/ i = 0 \/ exists x, x <> 0 /\ r_sid r x = Some i)).
    { induction n as [|n [D [D' [i [R1 [R2 [E [HA T]]]]]]]].
      - exists s0, s0, (f_entry m). split; [reflexivity|]. split; [cbn; now rewrite C2|]. split; [apply eqs_refl|]. split; [right; eapply entry_arm; exact CH|left; auto].
      - cbn [runs]. rewrite R1, R2. unfold obind. set (Q := inp n D). set (Q' := inp n D'). assert (EQ : eqs Q Q') by now apply EI. assert (ED : eqs (pre n Q) (pre n Q')) by now apply EP.
        destruct (Nat.eq_dec i 0) as [I0|I0].
        + subst i. exists (pre n Q), (pre n Q'), 0. split; [reflexivity|]. split; [reflexivity|]. split; [exact ED|]. split; [now left|right; now left].
        + destruct HA as [HA|HA]; [contradiction|].
          assert (AG : forall q, agree q (pre n q) deps0) by (intros q x Hx; now apply LP).
          destruct (cycle_walk _ _ _ _ _ _ _ _ CH NJ CV c ic Q (pre n Q) i O (AG Q) HA I0) as [b [D2 [i2 [B1 [B2 [B3 B4]]]]]].
          destruct HA as [code Hc]. destruct (arm_of_two _ _ _ _ C4 Hc) as [code' [Hc' [_ [b' [e [e' [Sb SI]]]]]]]. cbn [fst snd] in Sb, SI.
          pose proof (n_inj _ _ _ REN _ _ _ B1 Sb). subst b'.
          assert (PR : pre_of tops b (pre n Q)).
          { unfold pre_of. destruct (Nat.eqb_spec b 0) as [X|X]; [|exact I]. subst b. destruct T as [[T1 [T2 T3]]|[T|[x [X1 X2]]]]; [|contradiction|].
            - subst n i D. unfold tops. rewrite first_is. exact HT.
            - exfalso. apply X1. exact (n_inj _ _ _ REN _ _ _ X2 B1). }
          destruct (SI Q Q' (pre n Q) (pre n Q') i EQ ED PR (AG Q) (AG Q')) as [[V1 V2] _].
          unfold cycle in *. destruct (Nat.eqb_spec i 0) as [X|_]; [contradiction|]. rewrite Hc in *. rewrite Hc'. cbn [obind] in *. injection B2 as B2. rewrite B2 in V1, V2. cbn in V1, V2.
          destruct (vexecs Q' code' (pre n Q', i)) as [D3 i3]. cbn in V1, V2. subst i3. exists D2, D3, i2. split; [now rewrite B2|]. split; [reflexivity|]. split; [exact V1|]. split; [exact B4|]. right.
          destruct (walk_target g _ Q Z PL _ _ _ B3) as [X|[x [X1 [X2 X3]]]]; [now left|]. cbn in X3. unfold Jmp, ff_index in X3. apply obind_some in X3. destruct X3 as [y [Y1 Y2]].
          destruct (ff_state g _ x y Z X1 X2 Y1) as [Ny Sy]. destruct (block_empty (g y) && Nat.eqb y (g_last s)); [left; congruence|right; now exists y]. }
    intros n. destruct (INV n) as [D [D' [i [R1 [R2 [E _]]]]]]. exists D, D', i. auto.
  Qed.
End Init.
