(** C11: each stage of a pipeline sees the values of its own data item. *)
From Coq Require Import List Bool Arith ZArith Lia.
Import ListNotations.
From Verif Require Import FsmModel FsmRun RegProps PipeModel PipeProofs.

(** * What an item goes through: a sequential execution of the stages, one after the other.
    [sh m x]: the value of [x] in cycle [m] outside of the pipeline (just before it). The item entering in cycle [n] executes stage [s] in cycle [n + s]: it finds the values
    left by its previous stages in the variables written before and read from then on, and the current values of the other variables. *)
Definition carried (ps : list stage) (s : nat) (x : var) : bool :=
  existsb (fun p => memb x (pwrites p)) (firstn (S s) ps) && existsb (fun p => memb x (preads p)) (skipn (S s) ps).
Fixpoint item (ps : list stage) (sh : nat -> store) (n s : nat) : store :=
  pexec (nth s ps [])
    (match s with
     | O => sh n
     | S s' => fun x => if carried ps s' x then item ps sh n s' x else sh (n + s) x
     end).

(** What is before and after the pipeline in the always block: the dependencies include what it assigns; the registers of the pipeline are its own. *)
Record around (w : always) : Prop := {
  r_deps : forall n Q x, ~ In (V x) (w_deps w) -> w_before w n Q (V x) = Q (V x);
  r_before : forall n Q x s, w_before w n Q (T x s) = Q (T x s);
  r_own : forall x s, ~ In (T x s) (w_deps w);
  r_after : forall n D x s, w_after w n D (T x s) = D (T x s) }.
Definition outside (ps : list stage) (vars : list var) (w : always) (Q0 : nstore) (m : nat) : store := fun x => w_before w m (regs ps vars w m Q0) (V x).
Definition known (ps : list stage) (vars : list var) : Prop := forall p x, In p ps -> In x (pwrites p) -> In x vars.

Lemma firstn_nth {A} (l : list A) k i a : nth_error (firstn k l) i = Some a -> i < k /\ nth_error l i = Some a.
Proof.
  revert l i. induction k as [|k IH]; intros l i E; [destruct i; discriminate|]. destruct l as [|b l]; [destruct i; discriminate|].
  destruct i as [|i]; cbn in E |- *; [split; [lia|exact E]|]. apply IH in E. split; [lia|tauto].
Qed.
Lemma nth_firstn {A} (l : list A) k i a : i < k -> nth_error l i = Some a -> nth_error (firstn k l) i = Some a.
Proof.
  revert l i. induction k as [|k IH]; intros l i L E; [lia|]. destruct l as [|b l]; [destruct i; discriminate|].
  destruct i as [|i]; cbn in E |- *; [exact E|]. apply IH; [lia|exact E].
Qed.
Lemma nth_skipn {A} (l : list A) k i : nth_error (skipn k l) i = nth_error l (k + i).
Proof. revert l. induction k as [|k IH]; intros [|b l]; cbn; try reflexivity; [destruct i; reflexivity|apply IH]. Qed.
Lemma carried_spec ps s x : carried ps s x = true <-> exists fw lr, trickle ps x = Some (fw, lr) /\ fw <= s /\ S s <= lr.
Proof.
  unfold carried. rewrite andb_true_iff, !existsb_exists. split.
  - intros ((p & Ip & Wp) & (q & Iq & Rq)). apply memb_in in Wp, Rq.
    apply In_nth_error in Ip, Iq. destruct Ip as [i Ei], Iq as [j Ej]. apply firstn_nth in Ei. destruct Ei as [Li Ei]. rewrite nth_skipn in Ej.
    destruct (trickle_exists ps x i (S s + j)) as (fw & lr & E & L1 & L2); [exists p; auto|exists q; auto|lia|]. exists fw, lr. repeat split; [exact E|lia|lia].
  - intros (fw & lr & E & L1 & L2). apply trickle_some in E. destruct E as (_ & (p & Ep & Wp) & _ & (q & Eq & Rq) & _). split.
    + exists p. split; [|now apply memb_in]. apply (nth_error_In _ fw), nth_firstn; [lia|exact Ep].
    + exists q. split; [|now apply memb_in]. apply (nth_error_In _ (lr - S s)). rewrite nth_skipn. now replace (S s + (lr - S s)) with lr by lia.
Qed.

Section Items.
  Variables (ps : list stage) (vars : list var) (w : always) (Q0 : nstore).
  Hypothesis HW : around w.
  Hypothesis HV : known ps vars.
  Let q (m : nat) : nstore := regs ps vars w m Q0.
  Let sh : nat -> store := outside ps vars w Q0.
  Lemma known_writes x s : writes_at ps s x -> In x vars.
  Proof. intros (p & E & I). apply (HV p x); [now apply nth_error_In in E|exact I]. Qed.
  Lemma pipe_dst m : pipe ps vars w m (q m) = dst ps vars (q m) (w_before w m (q m)) (w_deps w) (length ps).
  Proof. apply write_dst. Qed.
  (** The values found by a stage are those of the item. *)
  Lemma view_item n s :
    (forall x fw lr s', s = S s' -> trickle ps x = Some (fw, lr) -> fw <= s' -> s' <= lr -> pipe ps vars w (n + s') (q (n + s')) (T x s') = item ps sh n s' x) ->
    forall x, (forall fw lr, trickle ps x = Some (fw, lr) -> fw < s -> s <= lr) ->
    view ps (q (n + s)) (w_before w (n + s) (q (n + s))) s x =
    match s with O => sh n x | S s' => if carried ps s' x then item ps sh n s' x else sh (n + s) x end.
  Proof.
    intros IH x Hx. unfold view. destruct s as [|s].
    - assert (E : tr ps 0 x = V x) by (unfold tr; destruct (trickle ps x) as [[fw lr]|]; reflexivity). rewrite E, Nat.add_0_r. reflexivity.
    - destruct (carried ps s x) eqn:C.
      + apply carried_spec in C. destruct C as (fw & lr & E & L1 & L2).
        assert (Tr : tr ps (S s) x = T x (S s)). { unfold tr. rewrite E. now destruct (Nat.ltb_spec fw (S s)); [|lia]. }
        rewrite Tr. rewrite <- (IH x fw lr s eq_refl E L1 ltac:(lia)). subst q. cbn beta. replace (n + S s) with (S (n + s)) by lia. cbn [regs edge].
        rewrite E. rewrite (proj2 (Nat.ltb_lt fw (S s))), (proj2 (Nat.leb_le (S s) lr)) by lia. cbn [andb]. rewrite Nat.sub_succ, Nat.sub_0_r. apply (r_after w HW).
      + assert (Tr : tr ps (S s) x = V x).
        { unfold tr. destruct (trickle ps x) as [[fw lr]|] eqn:E; [|reflexivity]. destruct (Nat.ltb_spec fw (S s)) as [L|L]; [|reflexivity].
          exfalso. rewrite (proj2 (carried_spec ps s x)) in C; [discriminate|]. exists fw, lr. specialize (Hx fw lr eq_refl L). repeat split; [exact E|lia|exact Hx]. }
        rewrite Tr. reflexivity.
  Qed.
  Lemma meaning_item n s (P : var -> Prop) :
    (forall x fw lr s', s = S s' -> trickle ps x = Some (fw, lr) -> fw <= s' -> s' <= lr -> pipe ps vars w (n + s') (q (n + s')) (T x s') = item ps sh n s' x) ->
    (forall x, P x -> forall fw lr, trickle ps x = Some (fw, lr) -> fw < s -> s <= lr) ->
    forall x, P x \/ sure x (nth s ps []) = true ->
    pexec (nth s ps []) (view ps (q (n + s)) (w_before w (n + s) (q (n + s))) s) x = item ps sh n s x.
  Proof.
    intros IH HP x X. assert (U : item ps sh n s = pexec (nth s ps []) (match s with O => sh n | S s' => fun x => if carried ps s' x then item ps sh n s' x else sh (n + s) x end))
      by (destruct s; reflexivity).
    rewrite U. apply (pexec_agree _ (fun y => P y \/ In y (preads (nth s ps [])))); [auto| |tauto].
    intros y Y. rewrite (view_item n s IH).
    - destruct s; reflexivity.
    - intros fw lr E L. destruct Y as [Y|Y]; [now apply (HP y Y fw)|]. apply trickle_some in E. destruct E as (_ & _ & _ & _ & E). apply E, nth_reads, Y.
  Qed.
  Lemma item_T s : forall n x fw lr, trickle ps x = Some (fw, lr) -> fw <= s -> s <= lr -> pipe ps vars w (n + s) (q (n + s)) (T x s) = item ps sh n s x.
  Proof.
    induction s as [|s IH]; intros n x fw lr E L1 L2.
    all: assert (LL : lr < length ps) by (apply trickle_some in E; destruct E as (_ & _ & _ & (p & Ep & _) & _); apply nth_error_Some; congruence).
    all: rewrite pipe_dst, (stage_T ps vars _ _ _ (known_writes)) with (fw := fw) (lr := lr);
      try apply (r_deps w HW); try apply (r_before w HW); try apply (r_own w HW); try assumption; try lia.
    all: eapply (meaning_item n _ (fun y => y = x)); [| |now left].
    - intros; discriminate.
    - intros y -> f l E' L. rewrite E in E'. injection E' as <- <-. exact L2.
    - intros y f l s' Es Ey La Lb. injection Es as <-. now apply (IH n y f l).
    - intros y -> f l E' L. rewrite E in E'. injection E' as <- <-. exact L2.
  Qed.
  Lemma item_V n s x : s < length ps -> tr ps s x = V x -> (forall k, s < k -> writes_at ps k x -> tr ps k x <> V x) ->
    (sure x (nth s ps []) = true \/ forall k, k < s -> ~ writes_at ps k x) -> pipe ps vars w (n + s) (q (n + s)) (V x) = item ps sh n s x.
  Proof.
    intros L Tr N H. rewrite pipe_dst, (stage_V ps vars) with (s := s);
      try apply (r_deps w HW); try apply (r_before w HW); try apply (r_own w HW); try assumption.
    apply (meaning_item n s (fun y => y = x)); [| |now left].
    - intros y f l s' -> Ey La Lb. now apply (item_T s' n y f l).
    - intros y -> f l E' L'. exfalso. unfold tr in Tr. rewrite E' in Tr. destruct (Nat.ltb_spec f s); [discriminate|lia].
  Qed.
End Items.

(** * C11 *)
(** A variable assigned in stage [s], not assigned by another stage and not read by the following ones, has in cycle [n + s], after the pipeline, the value of the item that
    entered in cycle [n]: the one of the sequential execution. Whatever the stages, the number of cycles, what is around, and the content of the registers at the beginning. *)
Theorem C11_output : forall ps vars w Q0 n s p x, around w -> known ps vars ->
  nth_error ps s = Some p -> In x (pwrites p) ->
  (forall k p', nth_error ps k = Some p' -> In x (pwrites p') -> k = s) -> (forall k p', nth_error ps k = Some p' -> In x (preads p') -> k <= s) ->
  pipe ps vars w (n + s) (regs ps vars w (n + s) Q0) (V x) = item ps (outside ps vars w Q0) n s x.
Proof.
  intros ps vars w Q0 n s p x A K E W U R. assert (L : s < length ps) by (apply nth_error_Some; congruence).
  assert (Tn : trickle ps x = None).
  { destruct (trickle ps x) as [[fw lr]|] eqn:Et; [|reflexivity]. exfalso. apply trickle_some in Et. destruct Et as (H & (p1 & E1 & W1) & _ & (p2 & E2 & R2) & _).
    specialize (U _ _ E1 W1). specialize (R _ _ E2 R2). lia. }
  apply item_V; auto.
  - unfold tr. now rewrite Tn.
  - intros k Lk (p' & E' & W') _. specialize (U _ _ E' W'). lia.
  - right. intros k Lk (p' & E' & W'). specialize (U _ _ E' W'). lia.
Qed.
Print Assumptions C11_output.

(** When several stages assign it, none reading it afterwards: the last one gives the value if it assigns it for sure. *)
Theorem C11_last_write : forall ps vars w Q0 n s p x, around w -> known ps vars ->
  nth_error ps s = Some p -> sure x p = true ->
  (forall k p', nth_error ps k = Some p' -> In x (pwrites p') -> k <= s) ->
  (forall k k' p' p'', nth_error ps k = Some p' -> In x (pwrites p') -> nth_error ps k' = Some p'' -> In x (preads p'') -> k' <= k) ->
  pipe ps vars w (n + s) (regs ps vars w (n + s) Q0) (V x) = item ps (outside ps vars w Q0) n s x.
Proof.
  intros ps vars w Q0 n s p x A K E W U R. assert (L : s < length ps) by (apply nth_error_Some; congruence).
  assert (Tn : trickle ps x = None).
  { destruct (trickle ps x) as [[fw lr]|] eqn:Et; [|reflexivity]. exfalso. apply trickle_some in Et. destruct Et as (H & (p1 & E1 & W1) & _ & (p2 & E2 & R2) & _).
    specialize (R _ _ _ _ E1 W1 E2 R2). lia. }
  apply item_V; auto.
  - unfold tr. now rewrite Tn.
  - intros k Lk (p' & E' & W') _. specialize (U _ _ E' W'). lia.
  - left. now rewrite (nth_error_nth _ _ _ E).
Qed.
Print Assumptions C11_last_write.

(** A variable assigned in a stage and read in a following one: after the pipeline it has the value given by the first stage assigning it, not the one given by the last. *)
Theorem C11_first_write : forall ps vars w Q0 n s p x k p', around w -> known ps vars ->
  nth_error ps s = Some p -> In x (pwrites p) -> (forall k p', nth_error ps k = Some p' -> In x (pwrites p') -> s <= k) ->
  s < k -> nth_error ps k = Some p' -> In x (preads p') ->
  pipe ps vars w (n + s) (regs ps vars w (n + s) Q0) (V x) = item ps (outside ps vars w Q0) n s x.
Proof.
  intros ps vars w Q0 n s p x k p' A K E W U Lk E' R. assert (L : s < length ps) by (apply nth_error_Some; congruence).
  destruct (trickle_exists ps x s k) as (fw & lr & Et & L1 & L2); [exists p; auto|exists p'; auto|exact Lk|].
  apply trickle_some in Et as Et'. destruct Et' as (_ & (p1 & E1 & W1) & _). specialize (U _ _ E1 W1) as U'. assert (fw = s) by lia. subst fw.
  apply item_V; auto.
  - unfold tr. rewrite Et. now destruct (Nat.ltb_spec s s); [lia|].
  - intros j Lj _. unfold tr. rewrite Et. destruct (Nat.ltb_spec s j); [discriminate|lia].
  - right. intros j Lj (p'' & E'' & W''). specialize (U _ _ E'' W''). lia.
Qed.
Print Assumptions C11_first_write.

(** ** Items do not influence each other *)
(** Variables that may still have no value of the item: [None] when one of them is read. *)
Fixpoint undef1 (p : pst) (U : list var) : option (list var) :=
  match p with
  | PAssign x e => if existsb (fun y => memb y U) (evars e) then None else Some (filter (fun y => negb (Nat.eqb y x)) U)
  | PIf e l1 l2 =>
      let go := fix go (l : list pst) (U : list var) := match l with [] => Some U | p :: r => do U' <- undef1 p U; go r U' end in
      if existsb (fun y => memb y U) (evars e) then None else do U1 <- go l1 U; do U2 <- go l2 U; Some (U1 ++ U2)
  end.
Fixpoint undef (l : stage) (U : list var) : option (list var) := match l with [] => Some U | p :: r => do U' <- undef1 p U; undef r U' end.
Definition all_written (ps : list stage) : list var := flat_map pwrites ps.
(** At the end of a stage. *)
Fixpoint undefined (ps : list stage) (s : nat) : option (list var) :=
  match s with
  | O => undef (nth 0 ps []) (all_written ps)
  | S s' => do U <- undefined ps s'; undef (nth s ps []) (filter (fun x => negb (carried ps s' x) || memb x U) (all_written ps))
  end.

Lemma undef_if e l1 l2 U : undef1 (PIf e l1 l2) U =
  if existsb (fun y => memb y U) (evars e) then None else do U1 <- undef l1 U; do U2 <- undef l2 U; Some (U1 ++ U2).
Proof.
  cbn [undef1]. assert (G : forall l U, (fix go (l : list pst) (U : list var) := match l with [] => Some U | p :: r => do U' <- undef1 p U; go r U' end) l U = undef l U).
  { intros l; induction l as [|p r IH]; intros V; cbn [undef]; [reflexivity|]. destruct (undef1 p V); [apply IH|reflexivity]. }
  now rewrite !G.
Qed.
Definition indep1 (p : pst) : Prop := forall U U' t1 t2, undef1 p U = Some U' -> (forall x, ~ In x U -> t1 x = t2 x) -> forall x, ~ In x U' -> pexec1 p t1 x = pexec1 p t2 x.
Lemma indep_l l : Forall indep1 l -> forall U U' t1 t2, undef l U = Some U' -> (forall x, ~ In x U -> t1 x = t2 x) -> forall x, ~ In x U' -> pexec l t1 x = pexec l t2 x.
Proof.
  intros F. induction F as [|p r G _ IH]; intros U U' t1 t2 E A; cbn [pexec undef] in *.
  - injection E as <-. exact A.
  - destruct (undef1 p U) as [U1|] eqn:E1; [|discriminate]. apply (IH U1 U'); [exact E|]. now apply (G U U1).
Qed.
Lemma not_undef U e : existsb (fun y => memb y U) (evars e) = false -> forall x, In x (evars e) -> ~ In x U.
Proof. intros E x X I. assert (existsb (fun y => memb y U) (evars e) = true) by (apply existsb_exists; exists x; split; [exact X|now apply memb_in]). congruence. Qed.
Lemma indep_all p : indep1 p.
Proof.
  induction p as [x e|e l1 l2 F1 F2] using pst_ind2; intros U U' t1 t2 E A y Y.
  - cbn [undef1] in E. destruct (existsb (fun y => memb y U) (evars e)) eqn:N; [discriminate|]. injection E as <-. cbn [pexec1]. unfold upd. destruct (Nat.eqb_spec y x) as [->|D].
    + apply eval_agree. intros z Z. apply A. now apply (not_undef U e N).
    + apply A. intros I. apply Y. apply filter_In. split; [exact I|]. now destruct (Nat.eqb_spec y x).
  - rewrite undef_if in E. destruct (existsb (fun y => memb y U) (evars e)) eqn:N; [discriminate|]. destruct (undef l1 U) as [U1|] eqn:E1; [|discriminate].
    destruct (undef l2 U) as [U2|] eqn:E2; [|discriminate]. injection E as <-. rewrite in_app_iff in Y.
    rewrite !pexec_if. rewrite (eval_agree t1 t2 e) by (intros z Z; apply A; now apply (not_undef U e N)). destruct (truth (eval t2 e)).
    + apply (indep_l l1 F1 U U1); tauto.
    + apply (indep_l l2 F2 U U2); tauto.
Qed.
Lemma indep l U U' t1 t2 : undef l U = Some U' -> (forall x, ~ In x U -> t1 x = t2 x) -> forall x, ~ In x U' -> pexec l t1 x = pexec l t2 x.
Proof. apply indep_l, Forall_forall. intros; apply indep_all. Qed.
Lemma carried_written ps s x : carried ps s x = true -> In x (all_written ps).
Proof.
  intros C. apply carried_spec in C. destruct C as (fw & lr & E & _). apply trickle_some in E. destruct E as (_ & (p & Ep & W) & _).
  unfold all_written. apply in_flat_map. exists p. split; [now apply nth_error_In in Ep|exact W].
Qed.
Lemma item_indep ps sh1 sh2 n : forall s U, undefined ps s = Some U -> (forall m x, n <= m <= n + s -> ~ In x (all_written ps) -> sh1 m x = sh2 m x) ->
  forall x, ~ In x U -> item ps sh1 n s x = item ps sh2 n s x.
Proof.
  induction s as [|s IH]; intros U E A.
  - cbn [item]. apply (indep _ (all_written ps)); [exact E|]. intros x X. apply A; [lia|exact X].
  - cbn [undefined] in E. destruct (undefined ps s) as [U0|] eqn:E0; [|discriminate]. cbn [item]. refine (indep _ _ _ _ _ E _).
    intros x X. rewrite filter_In in X. destruct (carried ps s x) eqn:C.
    + apply (IH U0); [reflexivity| |].
      * intros m y L. apply A. lia.
      * intros I. apply X. split; [now apply (carried_written ps s)|]. cbn. now apply memb_in.
    + apply A; [lia|]. intros I. apply X. split; [exact I|reflexivity].
Qed.

(** Two executions: the same pipeline, with other items before and after, other registers at the beginning. If the variables that the pipeline does not assign are the same in
    the cycles of the item, so is the result; provided that each stage reads, among the variables assigned by the pipeline, only those having a value of the item. *)
Theorem C11_independent : forall ps vars w1 w2 Q1 Q2 n s p x U, around w1 -> around w2 -> known ps vars ->
  nth_error ps s = Some p -> In x (pwrites p) ->
  (forall k p', nth_error ps k = Some p' -> In x (pwrites p') -> k = s) -> (forall k p', nth_error ps k = Some p' -> In x (preads p') -> k <= s) ->
  undefined ps s = Some U -> ~ In x U ->
  (forall m y, n <= m <= n + s -> ~ In y (all_written ps) -> outside ps vars w1 Q1 m y = outside ps vars w2 Q2 m y) ->
  pipe ps vars w1 (n + s) (regs ps vars w1 (n + s) Q1) (V x) = pipe ps vars w2 (n + s) (regs ps vars w2 (n + s) Q2) (V x).
Proof.
  intros ps vars w1 w2 Q1 Q2 n s p x U A1 A2 K E W U1 R Un X Sh.
  rewrite (C11_output ps vars w1 Q1 n s p x), (C11_output ps vars w2 Q2 n s p x) by assumption. now apply (item_indep ps _ _ n s U).
Qed.
Print Assumptions C11_independent.

Lemma unwritten ps vars w m Q y : ~ In y (all_written ps) -> pipe ps vars w m Q (V y) = w_before w m Q (V y).
Proof.
  intros N. unfold pipe. rewrite write_dst. rewrite (dst_V_keep ps vars Q (w_before w m Q) (w_deps w) 0); [reflexivity|lia|].
  intros j _ (p & E & W) _. apply N. unfold all_written. apply in_flat_map. exists p. split; [now apply nth_error_In in E|exact W].
Qed.

(** ** Examples: input 0; stages { a = i + 1; } -> { b = 2 * a; a = a + b; } -> { o = a - b + i; } *)
Definition ex_ps : list stage :=
  [ [PAssign 1 (EB Z.add (EV 0) (EC 1))];
    [PAssign 2 (EB Z.mul (EC 2) (EV 1)); PAssign 1 (EB Z.add (EV 1) (EV 2))];
    [PAssign 3 (EB Z.add (EB Z.sub (EV 1) (EV 2)) (EV 0))] ].
Definition feed (i : nat -> Z) : always := {| w_before := fun n Q => nupd Q (V 0) (i n); w_deps := [V 0]; w_after := fun _ D => D |}.
Lemma feed_around i : around (feed i).
Proof.
  constructor; cbn; intros; try reflexivity.
  - apply nupd_ne. intros E. apply H. auto.
  - intros [H|[]]; discriminate.
Qed.
Example C11_ex : let i := fun n => Z.of_nat (10 * n) in
  around (feed i) /\ known ex_ps [0; 1; 2; 3] /\ undefined ex_ps 2 = Some [] /\
  pipe ex_ps [0; 1; 2; 3] (feed i) (3 + 2) (regs ex_ps [0; 1; 2; 3] (feed i) (3 + 2) (fun _ => 7%Z)) (V 3) = (31 + 50)%Z /\
  item ex_ps (outside ex_ps [0; 1; 2; 3] (feed i) (fun _ => 7%Z)) 3 2 3 = (31 + 50)%Z.
Proof.
  intros i. split; [apply feed_around|]. split; [|repeat split; vm_compute; reflexivity].
  intros p x [<-|[<-|[<-|[]]]]; cbn; intuition subst; cbn; auto.
Qed.

(** After the pipeline, [a] is the value of its first stage, for the item that just entered: 91, not 3 * 71 of the item in the second stage. *)
Example C11_first_write_ex : let i := fun n => Z.of_nat (10 * n) in
  pipe ex_ps [0; 1; 2; 3] (feed i) (9 + 0) (regs ex_ps [0; 1; 2; 3] (feed i) (9 + 0) (fun _ => 7%Z)) (V 1) = 91%Z /\
  item ex_ps (outside ex_ps [0; 1; 2; 3] (feed i) (fun _ => 7%Z)) 9 0 1 = 91%Z.
Proof. split; vm_compute; reflexivity. Qed.
(** Stages { o = i; } -> { o = i - 1; }: the value of the second stage. *)
Example C11_last_write_ex : let i := fun n => Z.of_nat (10 * n) in let ps := [ [PAssign 3 (EV 0)]; [PAssign 3 (EB Z.sub (EV 0) (EC 1))] ] in
  sure 3 (nth 1 ps []) = true /\ pipe ps [0; 3] (feed i) (3 + 1) (regs ps [0; 3] (feed i) (3 + 1) (fun _ => 7%Z)) (V 3) = 39%Z /\
  item ps (outside ps [0; 3] (feed i) (fun _ => 7%Z)) 3 1 3 = 39%Z.
Proof. repeat split; vm_compute; reflexivity. Qed.

(** The hypothesis is needed: a variable assigned under a condition has otherwise the value of a previous item. Stages { if (c) { x = i; } } -> { o = x; },
    inputs i and c: when c is 0 the output depends on the previous items. *)
Definition leak_ps : list stage := [ [PIf (EV 1) [PAssign 2 (EV 0)] []]; [PAssign 3 (EV 2)] ].
Definition feed2 (i c : nat -> Z) : always :=
  {| w_before := fun n Q => nupd (nupd Q (V 0) (i n)) (V 1) (c n); w_deps := [V 0; V 1]; w_after := fun _ D => D |}.
Theorem C11_conditional_write_refuted : exists ps vars w1 w2 Q n s p x, around w1 /\ around w2 /\ known ps vars /\
  nth_error ps s = Some p /\ In x (pwrites p) /\
  (forall k p', nth_error ps k = Some p' -> In x (pwrites p') -> k = s) /\ (forall k p', nth_error ps k = Some p' -> In x (preads p') -> k <= s) /\
  (forall m y, n <= m <= n + s -> ~ In y (all_written ps) -> outside ps vars w1 Q m y = outside ps vars w2 Q m y) /\
  pipe ps vars w1 (n + s) (regs ps vars w1 (n + s) Q) (V x) <> pipe ps vars w2 (n + s) (regs ps vars w2 (n + s) Q) (V x).
Proof.
  assert (A : forall i c, around (feed2 i c)).
  { intros i c. constructor; cbn; intros; try reflexivity.
    - rewrite !nupd_ne; [reflexivity| |]; intros E; apply H; auto.
    - intros [H|[H|[]]]; discriminate. }
  set (c := fun n => match n with O => 1%Z | _ => 0%Z end).
  exists leak_ps, [0; 1; 2; 3], (feed2 (fun n => match n with O => 5%Z | _ => 0%Z end) c), (feed2 (fun n => match n with O => 6%Z | _ => 0%Z end) c), (fun _ => 0%Z), 1, 1,
    [PAssign 3 (EV 2)], 3.
  split; [apply A|]. split; [apply A|]. split; [|split; [reflexivity|split; [now left|split; [|split; [|split]]]]].
  - intros p x [<-|[<-|[]]]; cbn; intuition subst; cbn; auto.
  - intros [|[|k]] p' E; cbn in E; try (injection E as <-); cbn; intuition; try discriminate. destruct k; discriminate.
  - intros [|[|k]] p' E; cbn in E; try (injection E as <-); cbn; intuition; try discriminate. destruct k; discriminate.
  - intros m y L N. unfold outside.
    assert (O : forall i m Q y, w_before (feed2 i c) m Q (V y) = if y =? 1 then c m else if y =? 0 then i m else Q (V y)) by reflexivity. rewrite !O.
    destruct (Nat.eqb_spec y 1) as [->|N1]; [reflexivity|]. destruct (Nat.eqb_spec y 0) as [->|N0].
    { destruct m; [lia|reflexivity]. }
    assert (G : forall i k, regs leak_ps [0; 1; 2; 3] (feed2 i c) k (fun _ => 0%Z) (V y) = 0%Z).
    { intros i k. induction k as [|k IH]; [reflexivity|]. cbn [regs edge]. change (w_after (feed2 i c) k) with (fun D : nstore => D). cbn beta.
      rewrite unwritten by assumption. unfold feed2 at 1, w_before. rewrite !nupd_ne by congruence. exact IH. }
    now rewrite !G.
  - vm_compute. discriminate.
Qed.
Print Assumptions C11_conditional_write_refuted.

(** * Pipelines which are refused: exactly those with a variable read in a stage after a stage writing it, and written again after its last read.
    Such a pipeline is correct sequentially; its last write designates a register which does not exist. *)
Lemma in_numbered (ps : list stage) s p : In (s, p) (List.combine (seq 0 (length ps)) ps) <-> nth_error ps s = Some p.
Proof.
  assert (G : forall b, In (s, p) (List.combine (seq b (length ps)) ps) <-> b <= s /\ nth_error ps (s - b) = Some p).
  { induction ps as [|q r IH]; intros b; cbn [length seq List.combine].
    - split; [intros []|]. intros [_ H]. destruct (s - b); discriminate.
    - cbn [In]. rewrite IH. split.
      + intros [E|[L E]]; [injection E as <- <-; rewrite Nat.sub_diag; split; [lia|reflexivity]|].
        split; [lia|]. replace (s - b) with (S (s - S b)) by lia. exact E.
      + intros [L E]. destruct (Nat.eq_dec s b) as [->|N].
        * rewrite Nat.sub_diag in E. injection E as ->. now left.
        * right. split; [lia|]. replace (s - b) with (S (s - S b)) in E by lia. exact E. }
  rewrite G, Nat.sub_0_r. intuition lia.
Qed.
Theorem C11_refused_iff : forall ps, accepted ps = false <->
  exists x a b s, writes_at ps a x /\ reads_at ps b x /\ a < b /\ writes_at ps s x /\ forall t, reads_at ps t x -> t < s.
Proof.
  intros ps. unfold accepted. split.
  - intros H. assert (E : exists s p x, nth_error ps s = Some p /\ In x (preads p ++ pwrites p) /\ declared ps s x = false).
    { apply Bool.not_true_iff_false in H. rewrite forallb_forall in H.
      destruct (existsb (fun sp => existsb (fun x => negb (declared ps (fst sp) x)) (preads (snd sp) ++ pwrites (snd sp))) (List.combine (seq 0 (length ps)) ps)) eqn:X.
      - apply existsb_exists in X as ([s p] & I & X). apply existsb_exists in X as (x & Ix & X). apply negb_true_iff in X. cbn [fst snd] in *.
        exists s, p, x. split; [now apply in_numbered|]. now split.
      - exfalso. apply H. intros sp I. apply forallb_forall. intros x Ix. destruct (declared ps (fst sp) x) eqn:D; [reflexivity|].
        assert (existsb (fun sp => existsb (fun x => negb (declared ps (fst sp) x)) (preads (snd sp) ++ pwrites (snd sp))) (List.combine (seq 0 (length ps)) ps) = true); [|congruence].
        apply existsb_exists. exists sp. split; [exact I|]. apply existsb_exists. exists x. split; [exact Ix|]. now rewrite D. }
    destruct E as (s & p & x & Es & Ix & D). unfold declared in D. destruct (trickle ps x) as [[fw lr]|] eqn:T; [|discriminate].
    destruct (Nat.ltb_spec fw s) as [L|L]; [|discriminate]. apply Nat.leb_gt in D.
    apply trickle_some in T as (L1 & W & Wm & R & Rm). exists x, fw, lr, s. split; [exact W|]. split; [exact R|]. split; [exact L1|].
    apply in_app_or in Ix as [Ix|Ix].
    + assert (s <= lr) by (apply Rm; exists p; auto). lia.
    + split; [exists p; auto|]. intros t Ht. specialize (Rm t Ht). lia.
  - intros (x & a & b & s & W & R & L & Ws & Rm). destruct (trickle_exists ps x a b W R L) as (fw & lr & T & L1 & L2).
    apply Bool.not_true_iff_false. intros H. rewrite forallb_forall in H. destruct Ws as (p & Es & Ip).
    specialize (H (s, p) (proj2 (in_numbered ps s p) Es)). cbn [fst snd] in H. rewrite forallb_forall in H.
    specialize (H x (in_or_app _ _ _ (or_intror Ip))). unfold declared in H. rewrite T in H.
    apply trickle_some in T as (_ & _ & _ & R' & _). specialize (Rm lr R').
    destruct (Nat.ltb_spec fw s); [|lia]. apply Nat.leb_le in H. lia.
Qed.
Print Assumptions C11_refused_iff.
(** { x = i; } -> { o = x; } -> { x = 3; } is refused. *)
Example C11_refused_ex : accepted [ [PAssign 2 (EV 0)]; [PAssign 3 (EV 2)]; [PAssign 2 (EC 3)] ] = false /\
  accepted [ [PAssign 2 (EV 0)]; [PAssign 3 (EV 2); PAssign 2 (EC 3)]; [] ] = true.
Proof. split; reflexivity. Qed.
