(** C53: the operators ^=, v= and vv= of pipelines. *)
From Coq Require Import List Bool Arith ZArith Lia Permutation.
Import ListNotations.
From Verif Require Import FsmModel FsmRun RegProps PipeModel PipeProofs PipeProps PopModel PopProofs PopRun.
From Verif Require OrderModel OrderProofs.
Import OrderProofs(before).

(** * What the stages of a pipeline see, cycle after cycle: [seen m s x] is the value of [x] at the beginning of stage [s] in cycle [m]; the stage is then a sequential program.
    [out m x]: the value of [x] before the pipeline in cycle [m]. [l]: the order in which the stages are evaluated. *)
Fixpoint oexec1 (p : ost) (s : store) : store :=
  match p with
  | OAssign _ x e => upd s x (eval s e)
  | OIf e l1 l2 =>
      let go := fix go (l : list ost) (s : store) := match l with [] => s | p :: r => go r (oexec1 p s) end in
      if truth (eval s e) then go l1 s else go l2 s
  end.
Fixpoint oexec (l : ostage) (s : store) : store := match l with [] => s | p :: r => oexec r (oexec1 p s) end.
Definition result (ps : list ostage) (seen : nat -> nat -> store) (m s : nat) : store := oexec (nth s ps []) (seen m s).
Lemma oexec_erase l s : oexec l s = pexec (erase l) s.
Proof.
  assert (G : forall p s, oexec1 p s = pexec1 (erase1 p) s).
  { intros p. induction p as [o x e|e l1 l2 F1 F2] using ost_ind2; intros t; [reflexivity|]. cbn [erase1]. rewrite pexec_if. cbn [oexec1].
    assert (H : forall l, Forall (fun p => forall s, oexec1 p s = pexec1 (erase1 p) s) l -> forall s,
                (fix go (l : list ost) (s : store) := match l with [] => s | p :: r => go r (oexec1 p s) end) l s = pexec (map erase1 l) s).
    { intros l' F. induction F as [|p r E _ IH]; intros u; cbn [map pexec]; [reflexivity|]. rewrite IH. f_equal. apply E. }
    now rewrite (H l1 F1), (H l2 F2). }
  unfold erase. revert s. induction l as [|p r IH]; intros s; cbn [oexec map pexec]; [reflexivity|]. rewrite IH. f_equal. apply G.
Qed.
(** The sets used by the compiler: variables assigned with an operator, at any depth; variables read. *)
Inductive occurs (o : op) (x : var) : ostage -> Prop :=
| occ_here e r : occurs o x (OAssign o x e :: r)
| occ_then e l1 l2 r : occurs o x l1 -> occurs o x (OIf e l1 l2 :: r)
| occ_else e l1 l2 r : occurs o x l2 -> occurs o x (OIf e l1 l2 :: r)
| occ_next p r : occurs o x r -> occurs o x (p :: r).
Inductive looked_at (x : var) : ostage -> Prop :=
| look_here o y e r : In x (evars e) -> looked_at x (OAssign o y e :: r)
| look_cond e l1 l2 r : In x (evars e) -> looked_at x (OIf e l1 l2 :: r)
| look_then e l1 l2 r : looked_at x l1 -> looked_at x (OIf e l1 l2 :: r)
| look_else e l1 l2 r : looked_at x l2 -> looked_at x (OIf e l1 l2 :: r)
| look_next p r : looked_at x r -> looked_at x (p :: r).
Theorem C53_sets : forall o x p, (In x (with_op o p) <-> occurs o x p) /\ (In x (oreads p) <-> looked_at x p) /\ (In x (oassigns p) <-> exists o', occurs o' x p).
Proof.
  assert (A : forall o x p, In x (with_op o p) <-> occurs o x p).
  { intros o x p. assert (G : forall a r, In x (with_op1 o a) -> occurs o x (a :: r)).
    { intros a. induction a as [o' y e|e l1 l2 F1 F2] using ost_ind2; intros r I.
      - cbn in I. destruct o, o'; cbn in I; try contradiction; destruct I as [<-|[]]; constructor.
      - assert (H : forall l, Forall (fun a => forall r, In x (with_op1 o a) -> occurs o x (a :: r)) l -> In x (flat_map (with_op1 o) l) -> occurs o x l).
        { intros l F. induction F as [|a l E _ IH]; intros J; [destruct J|]. cbn in J. apply in_app_or in J. destruct J as [J|J]; [now apply E|]. now apply occ_next, IH. }
        cbn in I. apply in_app_or in I. destruct I as [I|I]; [apply occ_then|apply occ_else]; now apply H. }
    split.
    - induction p as [|a r IH]; intros I; [destruct I|]. unfold with_op in I. cbn in I. apply in_app_or in I. destruct I as [I|I]; [now apply G|]. apply occ_next, IH, I.
    - intros H. unfold with_op. induction H as [e r|e l1 l2 r H IH|e l1 l2 r H IH|a r H IH]; cbn [flat_map]; apply in_or_app; [left|left|left|now right]; cbn [with_op1].
      + destruct o; now left.
      + apply in_or_app. now left.
      + apply in_or_app. now right. }
  intros o x p. split; [apply A|]. split.
  - assert (G : forall a r, In x (preads1 (erase1 a)) -> looked_at x (a :: r)).
    { intros a. induction a as [o' y e|e l1 l2 F1 F2] using ost_ind2; intros r I; [now apply look_here|].
      assert (H : forall l, Forall (fun a => forall r, In x (preads1 (erase1 a)) -> looked_at x (a :: r)) l -> In x (flat_map preads1 (map erase1 l)) -> looked_at x l).
      { intros l F. induction F as [|a l E _ IH]; intros J; [destruct J|]. cbn in J. apply in_app_or in J. destruct J as [J|J]; [now apply E|]. now apply look_next, IH. }
      cbn in I. rewrite !in_app_iff in I. destruct I as [I|[I|I]]; [now apply look_cond|apply look_then|apply look_else]; now apply H. }
    unfold oreads, preads, erase. split.
    + induction p as [|a r IH]; intros I; [destruct I|]. cbn in I. apply in_app_or in I. destruct I as [I|I]; [now apply G|]. apply look_next, IH, I.
    + intros H. induction H as [o' y e r H|e l1 l2 r H|e l1 l2 r H IH|e l1 l2 r H IH|a r H IH]; cbn [map flat_map]; apply in_or_app; [left|left|left|left|now right]; cbn [erase1 preads1];
        rewrite ?in_app_iff; tauto.
  - rewrite assigns_op. split; intros [o' I]; exists o'; now apply A.
Qed.
Print Assumptions C53_sets.
Record follows (ps : list ostage) (l : list nat) (Q0 : nstore) (out : nat -> store) (seen : nat -> nat -> store) : Prop := {
  (** Assigned with = by a previous stage: the value that this stage had for the item, one cycle before. *)
  f_item : forall m s x, S s < length ps -> arrives ps (S s) x = true -> seen (S m) (S s) x = result ps seen m s x;
  f_first : forall s x, s < length ps -> arrives ps s x = true -> seen 0 s x = Q0 (T x s);
  (** Shown by another stage: the value given by this stage in the same cycle. *)
  f_shown : forall m s s0 x, s < length ps -> oreads_at ps s x -> shows ps l s0 s x -> seen m s x = result ps seen m s0 x;
  (** Otherwise the value outside of the pipeline. *)
  f_other : forall m s x, s < length ps -> oreads_at ps s x -> arrives ps s x = false -> (forall s0, ~ shows ps l s0 s x) -> seen m s x = out m x;
  f_own : forall m s x, s < length ps -> assigns_at ps s x -> (forall k, assigns_at ps k x -> k = s) -> seen m s x = out m x }.

(** An accepted pipeline behaves so, in every cycle, whatever is around and whatever the registers hold at first; and a variable assigned by one stage has, after the pipeline, the
    value given by this stage. Partial: stages of one cycle, [quiet] (see below what happens otherwise), no tables, no outputs. *)
Theorem C53_values_partial : forall ps l vars w Q0, oaccepted ps = Some l -> around w -> oknown ps vars -> quiet ps l w ->
  exists seen, follows ps l Q0 (ooutside ps l vars w Q0) seen /\
    forall m s x, s < length ps -> assigns_at ps s x -> (forall k, assigns_at ps k x -> k = s) -> opipe ps l vars w m (oregs ps l vars w m Q0) (V x) = result ps seen m s x.
Proof.
  intros ps l vars w Q0 HA HW HV HQ. exists (seen ps l vars w Q0). assert (RE : forall m s, result ps (seen ps l vars w Q0) m s = after ps l vars w Q0 m s) by (intros m s; apply oexec_erase).
  split; [constructor|].
  - intros m s x L A. rewrite RE. exact (seen_next ps l vars w Q0 HA HW HV HQ m s x L A).
  - intros s x L A. exact (seen_carried ps l vars w Q0 HA HW 0 s x L A).
  - intros m s s0 x L R S. rewrite RE. exact (seen_shown ps l vars w Q0 HA HW HQ m s s0 x L R S).
  - intros m s x L R A N. exact (seen_outside ps l vars w Q0 HA HW HQ m s x L R A N).
  - intros m s x L A U. exact (seen_own ps l vars w Q0 HA HW m s x (conj A U)).
  - intros m s x L A U. rewrite RE. exact (pipe_own ps l vars w Q0 HA HW HQ m s x L (conj A U)).
Qed.
Print Assumptions C53_values_partial.

(** ^=: the stages before see the value of the same cycle. So do the stages after, when no stage before them needs a value sent backward by them or by a following stage. *)
Theorem C53_backward_partial : forall ps l Q0 out seen m s s0 x, oaccepted ps = Some l -> follows ps l Q0 out seen -> s < length ps -> s0 < length ps -> s <> s0 ->
  In x (with_op Back (nth s0 ps [])) -> ~ In x (with_op Fwd (nth s0 ps [])) -> oreads_at ps s x ->
  (s0 < s -> forall t c y, t < s -> s <= c -> oreads_at ps t y -> ~ In y (with_op Back (nth c ps []))) ->
  seen m s x = result ps seen m s0 x.
Proof.
  intros ps l Q0 out sn m s s0 x HA F L L0 N Bk Nf R H. destruct (accepted_parts ps l HA) as (HC & HO & _). apply (f_shown _ _ _ _ _ F m s s0 x L R).
  destruct (Nat.lt_trichotomy s0 s) as [G|[G|G]]; [|congruence|].
  - split; [exact (order_straight ps l s HO L (H G) s0 G)|]. left. tauto.
  - split; [|right; tauto]. apply (order_before ps l s0 s HO L0 L). exists x. auto.
Qed.
Print Assumptions C53_backward_partial.

(** v=: the stages after see the value of the same cycle, the stages before the one before the pipeline. *)
Theorem C53_forward : forall ps l Q0 out seen m s s0 x, oaccepted ps = Some l -> follows ps l Q0 out seen -> s < length ps -> s0 < length ps ->
  In x (with_op Fwd (nth s0 ps [])) -> oreads_at ps s x ->
  (s0 < s -> seen m s x = result ps seen m s0 x) /\ (s < s0 -> seen m s x = out m x).
Proof.
  intros ps l Q0 out sn m s s0 x HA F L L0 Fw R. destruct (accepted_parts ps l HA) as (HC & HO & _).
  assert (Sp : special_at ps s0 x) by (apply special_in; tauto). split.
  - intros G. apply (f_shown _ _ _ _ _ F m s s0 x L R). split; [|left; tauto]. apply (order_before ps l s0 s HO L0 L). exists x. auto.
  - intros G. apply (f_other _ _ _ _ _ F m s x L R).
    + destruct (arrives ps s x) eqn:A; [|reflexivity]. apply arrives_name in A; [|exact HC]. destruct A as (_ & s' & fw & lr & _ & E & _).
      rewrite (special_name ps s0 x HC Sp) in E. discriminate.
    + intros k Sh. assert (K : special_at ps k x) by (destruct Sh as [_ Sh]; apply special_in; tauto).
      pose proof (special_unique ps s0 k x HC K (special_assigns _ _ Sp)) as E. subst k. destruct Sh as [_ [[A _]|[_ [_ A]]]]; [lia|contradiction].
Qed.
Print Assumptions C53_forward.

(** vv=: the other stages see the value before the pipeline. *)
Theorem C53_after : forall ps l Q0 out seen m s s0 x, oaccepted ps = Some l -> follows ps l Q0 out seen -> s < length ps ->
  In x (with_op After (nth s0 ps [])) -> ~ In x (with_op Back (nth s0 ps [])) -> ~ In x (with_op Fwd (nth s0 ps [])) -> oreads_at ps s x -> seen m s x = out m x.
Proof.
  intros ps l Q0 out sn m s s0 x HA F L Af Nb Nf R. destruct (accepted_parts ps l HA) as (HC & HO & _).
  assert (Sp : special_at ps s0 x) by (apply special_in; tauto). apply (f_other _ _ _ _ _ F m s x L R).
  - destruct (arrives ps s x) eqn:A; [|reflexivity]. apply arrives_name in A; [|exact HC]. destruct A as (_ & s' & fw & lr & _ & E & _).
    rewrite (special_name ps s0 x HC Sp) in E. discriminate.
  - intros k Sh. assert (K : special_at ps k x) by (destruct Sh as [_ Sh]; apply special_in; tauto).
    pose proof (special_unique ps s0 k x HC K (special_assigns _ _ Sp)) as E. subst k. destruct Sh as [_ [[_ A]|[_ [A _]]]]; tauto.
Qed.
Print Assumptions C53_after.

(** The value before the pipeline, when nothing assigns the variable there, is the one at the end of the previous cycle: with the theorems above, what was assigned with ^=, v= or vv=. *)
Theorem C53_next_cycle : forall ps l vars w Q0 seen m s0 x, oaccepted ps = Some l -> around w -> oknown ps vars -> quiet ps l w ->
  (forall m s x, s < length ps -> assigns_at ps s x -> (forall k, assigns_at ps k x -> k = s) -> opipe ps l vars w m (oregs ps l vars w m Q0) (V x) = result ps seen m s x) ->
  In x (special (nth s0 ps [])) -> ~ In (V x) (w_deps w) -> (forall D, w_after w m D (V x) = D (V x)) ->
  ooutside ps l vars w Q0 (S m) x = result ps seen m s0 x.
Proof.
  intros ps l vars w Q0 sn m s0 x HA HW HV HQ H Sp Nd Ha. destruct (accepted_parts ps l HA) as (HC & HO & _).
  unfold ooutside. rewrite (r_deps w HW) by exact Nd. cbn [oregs oedge]. rewrite Ha. apply H.
  - assert (E : nth_error ps s0 = Some (nth s0 ps [])) by exact (nth_in_nil special ps s0 x eq_refl Sp). apply nth_error_Some. congruence.
  - now apply special_assigns.
  - intros k A. exact (special_unique ps k s0 x HC Sp A).
Qed.
Print Assumptions C53_next_cycle.

(** What is reported: a variable assigned with ^=, v= or vv= is so by one stage, which does not assign it with =, and no other stage assigns it. *)
Theorem C53_one_stage : forall ps, checks ps [] [] = true <->
  forall s x, In x (special (nth s ps [])) -> ~ In x (with_op Plain (nth s ps [])) /\ forall k o, In x (with_op o (nth k ps [])) -> k = s.
Proof.
  intros ps. split.
  - intros HC s x Sp. split; [exact (special_plain ps s x HC Sp)|]. intros k o I. apply (special_unique ps k s x HC Sp). apply assigns_op. now exists o.
  - intros H. apply checks_spec. split; [intros p x _ _ []|]. split.
    + intros p x I Sp. apply In_nth_error in I. destruct I as [i E]. rewrite <- (nth_error_nth _ _ [] E) in *. split; [intros []|]. apply (H i x Sp).
    + intros i j p p' x L Ei Ej A A'. rewrite <- (nth_error_nth _ _ [] Ei) in *. rewrite <- (nth_error_nth _ _ [] Ej) in *.
      split; intros Sp; destruct (H _ x Sp) as [_ U].
      * apply assigns_op in A'. destruct A' as [o A']. specialize (U _ _ A'). lia.
      * apply assigns_op in A. destruct A as [o A]. specialize (U _ _ A). lia.
Qed.
Print Assumptions C53_one_stage.

(** Without ^= the stages are evaluated in their order, and [quiet] is: nothing assigned with vv= is assigned before the pipeline and read after. *)
Theorem C53_quiet : forall ps l w, oaccepted ps = Some l -> (forall s, with_op Back (nth s ps []) = []) ->
  (forall s s0 x, s0 < s -> In x (with_op After (nth s0 ps [])) -> oreads_at ps s x -> ~ In (V x) (w_deps w)) -> quiet ps l w.
Proof.
  intros ps l w HA NB HAf s s0 x R A Bf Ar Ar0 Sh. destruct (accepted_parts ps l HA) as (HC & HO & _). destruct (order_perm ps l HO) as [ND HI].
  assert (Is : In s l) by (apply before_prefix in Bf; tauto).
  assert (L : s0 < s).
  { destruct (Nat.lt_trichotomy s0 s) as [G|[G|G]]; [exact G| |].
    - subst s0. apply before_prefix in Bf; [|exact ND]. destruct Bf as [_ Bf]. now apply prefix_not in Bf.
    - exfalso. assert (B2 : before l s s0).
      { apply (order_straight ps l s0 HO); [|intros t c y _ _ _; rewrite NB; intros []|exact G]. apply HI. apply before_prefix in Bf; [|exact ND]. destruct Bf as [_ Bf].
        rewrite (prefix_split l s Is). apply in_or_app. now left. }
      apply before_prefix in Bf, B2; auto. destruct Bf as [_ Bf], B2 as [I0 B2]. destruct (prefix_prefix l s0 s ND Is Bf) as (b & E & _).
      destruct (prefix_prefix l s s0 ND I0 B2) as (b' & E' & _). apply (f_equal (@length nat)) in E, E'. rewrite app_length in E, E'. cbn in E, E'. lia. }
  apply assigns_op in A. destruct A as [o A].
  assert (Sp : o <> Plain -> special_at ps s0 x) by (intros N; exact (op_special ps s0 o x N A)).
  destruct o.
  - exfalso. destruct s as [|s]; [lia|]. cbn [arrives] in Ar.
    assert (C : ocarried ps s x = true).
    { destruct (otrickle_exists ps x s0 (S s)) as (fw & lr & E & L1 & L2); auto; [apply plain_writes; auto|]. apply ocarried_spec; [exact HC|]. exists fw, lr. repeat split; auto; lia. }
    congruence.
  - rewrite NB in A. destruct A.
  - exfalso. apply Sh. split; [exact Bf|]. left. tauto.
  - split; [exact (HAf s s0 x L A R)|]. intros As. pose proof (special_unique ps s s0 x HC (Sp ltac:(discriminate)) As). lia.
Qed.
Print Assumptions C53_quiet.

(** * Examples. tests/pipeline_ops.si: a: 0, b: 1, c: 2, d: 3; what stages 0 and 2 see: 10 to 12 and 20 to 23. *)
Definition ops_ps : list ostage :=
  [ [OAssign Plain 0 (EB Z.add (EV 0) (EC 1)); OAssign Plain 10 (EV 1); OAssign Plain 11 (EV 2); OAssign Plain 12 (EV 3)];
    [OAssign Plain 0 (EB Z.add (EV 0) (EC 100)); OAssign Back 1 (EV 0); OAssign Fwd 2 (EV 0); OAssign After 3 (EV 0)];
    [OAssign Plain 20 (EV 1); OAssign Plain 21 (EV 2); OAssign Plain 22 (EV 3); OAssign Plain 23 (EV 0)] ].
Definition alone : always := {| w_before := fun _ Q => Q; w_deps := []; w_after := fun _ D => D |}.
Lemma alone_around : around alone.
Proof. constructor; cbn; auto. Qed.
Definition ops_vars := [0; 1; 2; 3; 10; 11; 12; 20; 21; 22; 23].
(** [quiet], computed. *)
Definition showsb (ps : list ostage) (s0 s : nat) (x : var) : bool :=
  ((s0 <? s) && (memb x (with_op Back (nth s0 ps [])) || memb x (with_op Fwd (nth s0 ps [])))) ||
  ((s <? s0) && memb x (with_op Back (nth s0 ps [])) && negb (memb x (with_op Fwd (nth s0 ps [])))).
Definition quietb (ps : list ostage) (l : list nat) (w : always) : bool :=
  forallb (fun s => forallb (fun s0 => forallb (fun x =>
    negb (memb x (oassigns (nth s0 ps []))) || arrives ps s x || arrives ps s0 x || showsb ps s0 s x || (negb (nmem (V x) (w_deps w)) && negb (memb x (oassigns (nth s ps [])))))
    (oreads (nth s ps []))) (prefix l s)) l.
Lemma quietb_ok ps l w : oaccepted ps = Some l -> quietb ps l w = true -> quiet ps l w.
Proof.
  intros HA H s s0 x R A Bf Ar Ar0 Sh. destruct (accepted_parts ps l HA) as (HC & HO & _). destruct (order_perm ps l HO) as [ND HI].
  pose proof Bf as Bf'. apply before_prefix in Bf'; [|exact ND]. destruct Bf' as [Is I0]. unfold quietb in H. rewrite forallb_forall in H. specialize (H s Is).
  rewrite forallb_forall in H. specialize (H s0 I0). rewrite forallb_forall in H. specialize (H x R). cbn beta in H.
  rewrite (proj2 (memb_in x _) A), Ar, Ar0 in H. cbn [negb orb] in H. apply orb_true_iff in H. destruct H as [H|H].
  - exfalso. apply Sh. split; [exact Bf|]. unfold showsb in H. rewrite !orb_true_iff, !andb_true_iff, orb_true_iff, !Nat.ltb_lt, not_memb, !memb_in in H. tauto.
  - rewrite andb_true_iff, not_memb in H. destruct H as [H1 H2]. split; [|exact H2]. intros I. apply nmem_in in I. rewrite I in H1. discriminate.
Qed.
Definition oknownb (ps : list ostage) (vars : list var) : bool := forallb (fun p => forallb (fun x => memb x vars) (oassigns p)) ps.
Lemma oknownb_ok ps vars : oknownb ps vars = true -> oknown ps vars.
Proof.
  intros H s x A. unfold oknownb in H. rewrite forallb_forall in H. pose proof (nth_in_nil oassigns ps s x eq_refl A) as E.
  specialize (H _ (nth_error_In _ _ E)). rewrite forallb_forall in H. now apply memb_in, H.
Qed.
(** In cycle 4 as in the documentation: a = 5 then 104, b, c and d seen by stage 0 (104, 103, 103) and by stage 2 (104, 104, 103, and 103 for a). *)
Example C53_ex : oaccepted ops_ps = Some [1; 0; 2] /\ quiet ops_ps [1; 0; 2] alone /\ oknown ops_ps ops_vars /\
  (let D := opipe ops_ps [1; 0; 2] ops_vars alone 4 (oregs ops_ps [1; 0; 2] ops_vars alone 4 (fun _ => 0%Z)) in
   map (fun x => D (V x)) ops_vars = [5; 104; 104; 104; 104; 103; 103; 104; 104; 103; 103]%Z) /\
  shows ops_ps [1; 0; 2] 1 0 1 /\ shows ops_ps [1; 0; 2] 1 2 1 /\ shows ops_ps [1; 0; 2] 1 2 2 /\ ~ shows ops_ps [1; 0; 2] 1 0 2 /\ ~ shows ops_ps [1; 0; 2] 1 2 3.
Proof.
  assert (E : oaccepted ops_ps = Some [1; 0; 2]) by (vm_compute; reflexivity). split; [exact E|].
  split; [apply (quietb_ok _ _ _ E); vm_compute; reflexivity|]. split; [apply oknownb_ok; vm_compute; reflexivity|]. split; [vm_compute; reflexivity|].
  split; [split; [exists [1], [2]; split; [reflexivity|now left]|right; cbn; intuition lia]|].
  split; [split; [exists [1; 0], []; split; [reflexivity|now left]|left; cbn; intuition lia]|].
  split; [split; [exists [1; 0], []; split; [reflexivity|now left]|left; cbn; intuition lia]|].
  split; intros [_ [[L H]|(L & H & _)]]; cbn in H; intuition lia.
Qed.
(** Refused: v= and = in one stage; vv= in two stages; = after ^=. *)
Example C53_one_stage_ex :
  checks [ [OIf (EV 0) [OAssign Fwd 1 (EV 0)] [OAssign Plain 1 (EC 0)]]; [] ] [] [] = false /\
  checks [ [OAssign After 1 (EV 0)]; [OAssign After 1 (EC 2)] ] [] [] = false /\
  checks [ [OAssign Back 1 (EV 0)]; [OAssign Plain 1 (EC 2)] ] [] [] = false /\ checks ops_ps [] [] = true.
Proof. repeat split; vm_compute; reflexivity. Qed.

(** * When it fails *)
(** ^= is not seen by all stages. { } -> { b ^= c + 1; } -> { c ^= i; o = b; }: the second stage has to follow the third one because of c, which then sees the b of the previous cycle.
    The constraints contradict each other; no error is reported. i: 0, b: 1, c: 2, o: 3. *)
Definition back_ps : list ostage := [ []; [OAssign Back 1 (EB Z.add (EV 2) (EC 1))]; [OAssign Back 2 (EV 0); OAssign Plain 3 (EV 1)] ].
Theorem C53_backward_refuted : exists ps l vars w Q0 m s s0 x o, oaccepted ps = Some l /\ around w /\ oknown ps vars /\ quiet ps l w /\
  In x (with_op Back (nth s0 ps [])) /\ ~ In x (with_op Fwd (nth s0 ps [])) /\ oreads_at ps s x /\ In (OAssign Plain o (EV x)) (nth s ps []) /\
  (forall k, assigns_at ps k o -> k = s) /\ s0 < s /\
  opipe ps l vars w m (oregs ps l vars w m Q0) (V o) <> opipe ps l vars w m (oregs ps l vars w m Q0) (V x).
Proof.
  exists back_ps, [0; 2; 1], [0; 1; 2; 3], (feed (fun n => Z.of_nat (10 * n))), (fun _ => 0%Z), 3, 2, 1, 1, 3.
  assert (E : oaccepted back_ps = Some [0; 2; 1]) by (vm_compute; reflexivity). split; [exact E|]. split; [apply feed_around|].
  split; [apply oknownb_ok; vm_compute; reflexivity|]. split; [apply (quietb_ok _ _ _ E); vm_compute; reflexivity|].
  split; [cbn; tauto|]. split; [cbn; tauto|]. split; [cbn; tauto|]. split; [cbn; tauto|]. split; [|split; [lia|vm_compute; discriminate]].
  intros [|[|[|k]]] A; try reflexivity; cbn in A; intuition; try discriminate. destruct k; destruct A.
Qed.
Print Assumptions C53_backward_refuted.

(** vv= is seen in the same cycle by the following stages when the variable is also assigned before the pipeline. { a = i; } -> { d vv= a; } -> { o = d; }, d = 7 before the pipeline:
    the last stage is given the value just assigned, not 7. i: 0, a: 1, d: 2, o: 3. *)
Definition after_ps : list ostage := [ [OAssign Plain 1 (EV 0)]; [OAssign After 2 (EV 1)]; [OAssign Plain 3 (EV 2)] ].
Definition with7 (x : var) (i : nat -> Z) : always := {| w_before := fun n Q => nupd (nupd Q (V 0) (i n)) (V x) 7; w_deps := [V 0; V x]; w_after := fun _ D => D |}.
Lemma with7_around x i : around (with7 x i).
Proof.
  constructor; cbn; intros; try reflexivity.
  - rewrite !nupd_ne; [reflexivity| |]; intros E; apply H; auto.
  - intros [H|[H|[]]]; discriminate.
Qed.
Theorem C53_after_refuted : exists ps l vars w Q0 m s s0 x o, oaccepted ps = Some l /\ around w /\ oknown ps vars /\
  In x (with_op After (nth s0 ps [])) /\ nth s ps [] = [OAssign Plain o (EV x)] /\ (forall k, assigns_at ps k o -> k = s) /\ s0 < s /\
  ooutside ps l vars w Q0 m x = 7%Z /\ opipe ps l vars w m (oregs ps l vars w m Q0) (V o) <> 7%Z /\
  opipe ps l vars w m (oregs ps l vars w m Q0) (V o) = opipe ps l vars w m (oregs ps l vars w m Q0) (V x).
Proof.
  exists after_ps, [0; 1; 2], [0; 1; 2; 3], (with7 2 (fun n => Z.of_nat (10 * n))), (fun _ => 0%Z), 3, 2, 1, 2, 3.
  split; [vm_compute; reflexivity|]. split; [apply with7_around|]. split; [apply oknownb_ok; vm_compute; reflexivity|].
  split; [cbn; tauto|]. split; [reflexivity|]. split; [|split; [lia|split; [vm_compute; reflexivity|split; [vm_compute; discriminate|vm_compute; reflexivity]]]].
  intros [|[|[|k]]] A; try reflexivity; cbn in A; intuition; try discriminate. destruct k; destruct A.
Qed.
Print Assumptions C53_after_refuted.

(** The same for v= and an earlier stage, when ^= puts this stage after: { o = c; p = b; } -> { b ^= i; c v= i; }, c = 7 before the pipeline. b: 1, c: 2, o: 3, p: 4. *)
Definition forward_ps : list ostage := [ [OAssign Plain 3 (EV 2); OAssign Plain 4 (EV 1)]; [OAssign Back 1 (EV 0); OAssign Fwd 2 (EV 0)] ].
Theorem C53_forward_refuted : exists ps l vars w Q0 m s s0 x o, oaccepted ps = Some l /\ around w /\ oknown ps vars /\
  In x (with_op Fwd (nth s0 ps [])) /\ ~ In x (with_op Back (nth s0 ps [])) /\ In (OAssign Plain o (EV x)) (nth s ps []) /\ (forall k, assigns_at ps k o -> k = s) /\ s < s0 /\
  ooutside ps l vars w Q0 m x = 7%Z /\ opipe ps l vars w m (oregs ps l vars w m Q0) (V o) <> 7%Z /\
  opipe ps l vars w m (oregs ps l vars w m Q0) (V o) = opipe ps l vars w m (oregs ps l vars w m Q0) (V x).
Proof.
  exists forward_ps, [1; 0], [0; 1; 2; 3; 4], (with7 2 (fun n => Z.of_nat (10 * n))), (fun _ => 0%Z), 3, 0, 1, 2, 3.
  split; [vm_compute; reflexivity|]. split; [apply with7_around|]. split; [apply oknownb_ok; vm_compute; reflexivity|].
  split; [cbn; tauto|]. split; [cbn; intuition discriminate|]. split; [cbn; tauto|].
  split; [|split; [lia|split; [vm_compute; reflexivity|split; [vm_compute; discriminate|vm_compute; reflexivity]]]].
  intros [|[|k]] A; try reflexivity; cbn in A; intuition; try discriminate. destruct k; destruct A.
Qed.
Print Assumptions C53_forward_refuted.

(** And for =: a stage sees the value assigned with = by a following stage, in the same cycle. { o = x; p = b; } -> { b ^= i; x = i; }, x = 7 before the pipeline. *)
Definition plain_ps : list ostage := [ [OAssign Plain 3 (EV 2); OAssign Plain 4 (EV 1)]; [OAssign Back 1 (EV 0); OAssign Plain 2 (EV 0)] ].
Theorem C53_plain_refuted : exists ps l vars w Q0 m s s0 x o, oaccepted ps = Some l /\ around w /\ oknown ps vars /\
  (forall k, assigns_at ps k x -> k = s0) /\ ~ In x (special (nth s0 ps [])) /\ In (OAssign Plain o (EV x)) (nth s ps []) /\ (forall k, assigns_at ps k o -> k = s) /\ s < s0 /\
  ooutside ps l vars w Q0 m x = 7%Z /\ opipe ps l vars w m (oregs ps l vars w m Q0) (V o) <> 7%Z /\
  opipe ps l vars w m (oregs ps l vars w m Q0) (V o) = opipe ps l vars w m (oregs ps l vars w m Q0) (V x).
Proof.
  exists plain_ps, [1; 0], [0; 1; 2; 3; 4], (with7 2 (fun n => Z.of_nat (10 * n))), (fun _ => 0%Z), 3, 0, 1, 2, 3.
  split; [vm_compute; reflexivity|]. split; [apply with7_around|]. split; [apply oknownb_ok; vm_compute; reflexivity|].
  split; [intros [|[|k]] A; try reflexivity; cbn in A; intuition; try discriminate; destruct k; destruct A|].
  split; [cbn; intuition discriminate|]. split; [cbn; tauto|].
  split; [|split; [lia|split; [vm_compute; reflexivity|split; [vm_compute; discriminate|vm_compute; reflexivity]]]].
  intros [|[|k]] A; try reflexivity; cbn in A; intuition; try discriminate. destruct k; destruct A.
Qed.
Print Assumptions C53_plain_refuted.

(** ^= in one branch and v= in the other, which is accepted: the stages before see none of the two. { o = b; } -> { if (1) { b ^= i; } else { b v= i; } } *)
Definition mixed_ps : list ostage := [ [OAssign Plain 3 (EV 1)]; [OIf (EC 1) [OAssign Back 1 (EV 0)] [OAssign Fwd 1 (EV 0)]] ].
Theorem C53_mixed_refuted : exists ps l vars w Q0 m s s0 x o, oaccepted ps = Some l /\ around w /\ oknown ps vars /\ quiet ps l w /\
  In x (with_op Back (nth s0 ps [])) /\ nth s ps [] = [OAssign Plain o (EV x)] /\ (forall k, assigns_at ps k o -> k = s) /\ s < s0 /\
  opipe ps l vars w m (oregs ps l vars w m Q0) (V o) <> opipe ps l vars w m (oregs ps l vars w m Q0) (V x).
Proof.
  exists mixed_ps, [1; 0], [0; 1; 3], (feed (fun n => Z.of_nat (10 * n))), (fun _ => 0%Z), 3, 0, 1, 1, 3.
  assert (E : oaccepted mixed_ps = Some [1; 0]) by (vm_compute; reflexivity). split; [exact E|]. split; [apply feed_around|].
  split; [apply oknownb_ok; vm_compute; reflexivity|]. split; [apply (quietb_ok _ _ _ E); vm_compute; reflexivity|].
  split; [cbn; tauto|]. split; [reflexivity|]. split; [|split; [lia|vm_compute; discriminate]].
  intros [|[|k]] A; try reflexivity; cbn in A; intuition; try discriminate. destruct k; destruct A.
Qed.
Print Assumptions C53_mixed_refuted.
(** [C53_quiet], on the stages above, d being assigned by the pipeline only. *)
Example C53_quiet_ex : oaccepted after_ps = Some [0; 1; 2] /\ quiet after_ps [0; 1; 2] (feed (fun n => Z.of_nat n)).
Proof.
  assert (E : oaccepted after_ps = Some [0; 1; 2]) by (vm_compute; reflexivity). split; [exact E|]. apply (C53_quiet _ _ _ E).
  - intros [|[|[|[|s]]]]; reflexivity.
  - intros s [|[|[|s0]]] x L A; cbn in A; try tauto; [|destruct s0; destruct A]. destruct A as [<-|[]]. intros _ [H|[]]. discriminate.
Qed.
