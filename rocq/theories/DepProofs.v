From Coq Require Import List Bool Arith Lia.
From Verif Require Import DepModel.
Import ListNotations.

(** Data flow in a sequence of instructions. *)

(** [j] is the last instruction before [i] that writes [v]. *)
Definition last_write (p : list instr) (i : nat) (v : var) (j : nat) : Prop :=
  j < i /\ (exists x, nth_error p j = Some x /\ In v (i_written x)) /\
  forall k x, j < k < i -> nth_error p k = Some x -> ~ In v (i_written x).

(** The value written to [w] by instruction [i] is computed from the value written to [v] by instruction [j]. *)
Inductive flow (p : list instr) : nat -> var -> nat -> var -> Prop :=
| flow_one : forall i x w v j, nth_error p i = Some x -> In w (i_written x) -> In v (i_read x) ->
    last_write p i v j -> flow p i w j v
| flow_more : forall i x w v j k u, nth_error p i = Some x -> In w (i_written x) -> In v (i_read x) ->
    last_write p i v j -> flow p j v k u -> flow p i w k u.

(** A combinational loop: a value of a variable is computed from an earlier value of it in the same cycle. *)
Definition comb_loop (p : list instr) : Prop := exists i j w, flow p i w j w.

(** Inclusion of dependencies. *)
Definition fle (a b : ffu) : Prop := (fD a = true -> fD b = true) /\ (fQ a = true -> fQ b = true).
Lemma fle_refl : forall a, fle a a. Proof. split; auto. Qed.
Lemma fle_trans : forall a b c, fle a b -> fle b c -> fle a c.
Proof. intros a b c [] []; split; auto. Qed.
Lemma fle_or_l : forall a b, fle a (for_ a b).
Proof. intros [] []; split; cbn; intros ->; reflexivity. Qed.
Lemma fle_or_r : forall a b, fle b (for_ a b).
Proof. intros [] []; split; cbn; intros ->; apply orb_true_r. Qed.
Lemma fle_or_lub : forall a b c, fle a c -> fle b c -> fle (for_ a b) c.
Proof. intros a b c [] []; split; cbn; intros E; apply orb_true_iff in E; destruct E; auto. Qed.
Lemma fle_present : forall a b, fle a b -> present a = true -> present b = true.
Proof.
  intros a b [H1 H2] H. unfold present in *. apply orb_true_iff in H. apply orb_true_iff. destruct H; [left|right]; auto.
Qed.
Lemma ffu_eqb_eq : forall a b, ffu_eqb a b = true <-> a = b.
Proof.
  intros [a1 a2] [b1 b2]. unfold ffu_eqb. cbn. rewrite andb_true_iff, !eqb_true_iff. split.
  - intros []. congruence.
  - intros H. inversion H. auto.
Qed.
Lemma fle_antisym : forall a b, fle a b -> fle b a -> a = b.
Proof.
  intros [a1 a2] [b1 b2] [H1 H2] [H3 H4]. cbn in *. f_equal.
  - destruct a1, b1; auto; try (symmetry; auto).
  - destruct a2, b2; auto; try (symmetry; auto).
Qed.

Lemma mem_In : forall v l, mem v l = true <-> In v l.
Proof.
  intros v l. unfold mem. rewrite existsb_exists. split.
  - intros (x & Hx & E). apply Nat.eqb_eq in E. subst. assumption.
  - intros H. exists v. split; [assumption|apply Nat.eqb_refl].
Qed.

(** close_row. *)
Definition row_step (d : deps) (w r : var) := fun acc k => if present (dep d w k) && written d k then for_ acc (dep d k r) else acc.
Lemma fold_row_ge : forall d w r l acc, fle acc (fold_left (row_step d w r) l acc).
Proof.
  intros d w r. induction l as [|k l IH]; intros acc; [apply fle_refl|]. cbn [fold_left].
  apply fle_trans with (row_step d w r acc k); [|apply IH]. unfold row_step. destruct (_ && _); [apply fle_or_l|apply fle_refl].
Qed.
Lemma fold_row_in : forall d w r l acc k, In k l -> present (dep d w k) = true -> written d k = true ->
  fle (dep d k r) (fold_left (row_step d w r) l acc).
Proof.
  intros d w r. induction l as [|x l IH]; intros acc k Hin Hp Hw; [contradiction|]. cbn [fold_left].
  destruct Hin as [->|Hin]; [|apply IH; assumption].
  apply fle_trans with (row_step d w r acc k); [|apply fold_row_ge]. unfold row_step. rewrite Hp, Hw. apply fle_or_r.
Qed.

(** All rows stay inside the [n] variables. *)
Definition inside (n : nat) (d : deps) : Prop := forall w r, n <= r -> dep d w r = f0.

Lemma fold_row_inside : forall n d w r l acc, inside n d -> n <= r -> acc = f0 -> fold_left (row_step d w r) l acc = f0.
Proof.
  intros n d w r l. induction l as [|k l IH]; intros acc Hi Hr Ha; [exact Ha|]. cbn [fold_left]. apply IH; auto.
  unfold row_step. destruct (_ && _); [|exact Ha]. rewrite (Hi k r Hr), Ha. reflexivity.
Qed.

Lemma tab_in : forall n row r, r < n -> tab n row r = row r.
Proof.
  intros n row r H. unfold tab. rewrite nth_indep with (d' := row 0) by (rewrite map_length, seq_length; assumption).
  rewrite map_nth, seq_nth by assumption. reflexivity.
Qed.
Lemma tab_out : forall n row r, n <= r -> tab n row r = f0.
Proof. intros n row r H. unfold tab. apply nth_overflow. rewrite map_length, seq_length. assumption. Qed.

Lemma close_row_eq : forall n d w r, inside n d -> close_row n d w r = fold_left (row_step d w r) (seq 0 n) (dep d w r).
Proof.
  intros n d w r Hi. unfold close_row. destruct (le_lt_dec n r) as [H|H].
  - rewrite tab_out by assumption. symmetry. apply (fold_row_inside n); auto.
  - rewrite tab_in by assumption. reflexivity.
Qed.
Lemma close_row_ge : forall n d w r, inside n d -> fle (dep d w r) (close_row n d w r).
Proof. intros n d w r Hi. rewrite close_row_eq by assumption. apply (fold_row_ge d w r). Qed.
Lemma close_row_in : forall n d w r k, inside n d -> k < n -> present (dep d w k) = true -> written d k = true -> fle (dep d k r) (close_row n d w r).
Proof. intros n d w r k Hi Hk Hp Hw. rewrite close_row_eq by assumption. apply (fold_row_in d w r); auto. apply in_seq. lia. Qed.

Definition dle (a b : deps) : Prop := (forall w r, fle (dep a w r) (dep b w r)) /\ (forall w, written a w = written b w).
Lemma dle_refl : forall a, dle a a. Proof. split; intros; [apply fle_refl|reflexivity]. Qed.
Lemma dle_trans : forall a b c, dle a b -> dle b c -> dle a c.
Proof. intros a b c [H1 H2] [H3 H4]. split; intros; [eapply fle_trans; eauto|rewrite H2; auto]. Qed.

Lemma set_row_inside : forall n d w, inside n d -> inside n (set_row d w (close_row n d w)).
Proof.
  intros n d w Hi x r Hr. cbn. destruct (x =? w); [|apply Hi; assumption]. apply tab_out. assumption.
Qed.

Lemma set_row_ge : forall n d w, inside n d -> dle d (set_row d w (close_row n d w)).
Proof.
  intros n d w Hi. split; [|reflexivity]. intros x r. cbn. destruct (Nat.eqb_spec x w) as [->|]; [apply close_row_ge; assumption|apply fle_refl].
Qed.

Lemma sweep_ge : forall n ks d ch d' ch', inside n d -> sweep n ks d ch = (d', ch') -> dle d d' /\ (ch = true -> ch' = true).
Proof.
  intros n. induction ks as [|w ks IH]; intros d ch d' ch' Hi H; cbn [sweep] in H.
  - inversion H; subst. split; [apply dle_refl|auto].
  - apply IH in H; [|apply set_row_inside; assumption]. destruct H as [H1 H2].
    split; [eapply dle_trans; [|exact H1]; apply set_row_ge; assumption|].
    intros ->. apply H2. reflexivity.
Qed.

(** No change: the row was closed and stays the same. *)
Lemma row_same : forall n d w, inside n d -> row_changed n (dep d w) (close_row n d w) = false ->
  forall r, close_row n d w r = dep d w r.
Proof.
  intros n d w Hi H r. destruct (le_lt_dec n r) as [Hr|Hr].
  - rewrite (Hi w r Hr). apply tab_out; assumption.
  - unfold row_changed in H. apply not_true_iff_false in H. destruct (ffu_eqb (dep d w r) (close_row n d w r)) eqn:E.
    + apply ffu_eqb_eq in E. congruence.
    + exfalso. apply H. apply existsb_exists. exists r. split; [apply in_seq; lia|rewrite E; reflexivity].
Qed.

Definition closed_on (n : nat) (ks : list var) (d : deps) : Prop :=
  forall w k r, In w ks -> k < n -> present (dep d w k) = true -> written d k = true -> fle (dep d k r) (dep d w r).

Definition deq (a b : deps) : Prop := (forall w r, dep a w r = dep b w r) /\ (forall w, written a w = written b w).

Lemma sweep_unchanged : forall n ks d d', inside n d -> sweep n ks d false = (d', false) -> deq d d' /\ closed_on n ks d.
Proof.
  intros n. induction ks as [|w ks IH]; intros d d' Hi H; cbn [sweep] in H.
  - inversion H; subst. split; [split; reflexivity|]. intros w k r [].
  - destruct (row_changed n (dep d w) (close_row n d w)) eqn:E.
    + apply sweep_ge in H; [|apply set_row_inside; assumption]. destruct H as [_ H]. specialize (H eq_refl). discriminate.
    + cbn in H. pose proof (row_same n d w Hi E) as Hs.
      assert (Heq : deq d (set_row d w (close_row n d w))).
      { split; [|reflexivity]. intros x r. cbn. destruct (Nat.eqb_spec x w) as [->|]; [symmetry; apply Hs|reflexivity]. }
      destruct (IH _ _ (set_row_inside n d w Hi) H) as [H1 H2]. split.
      * destruct Heq as [A B], H1 as [C D]. split; intros; [rewrite A; apply C|rewrite B; apply D].
      * intros x k r [->|Hin] Hk Hp Hw.
        { rewrite <- Hs. apply close_row_in; assumption. }
        { destruct Heq as [A B]. rewrite !A. apply H2; auto; rewrite <- ?A, <- ?B; assumption. }
Qed.

(** Number of bits set. *)
Fixpoint sum (l : list nat) : nat := match l with [] => 0 | x :: l' => x + sum l' end.
Definition bits (a : ffu) : nat := (if fD a then 1 else 0) + (if fQ a then 1 else 0).
Definition row_bits (n : nat) (row : var -> ffu) : nat := sum (map (fun r => bits (row r)) (seq 0 n)).
Definition all_bits (n : nat) (d : deps) : nat := sum (map (fun w => row_bits n (dep d w)) (seq 0 n)).

Lemma sum_le : forall (f g : nat -> nat) l, (forall x, In x l -> f x <= g x) -> sum (map f l) <= sum (map g l).
Proof.
  intros f g l. induction l as [|x l IH]; intros H; cbn; [lia|]. specialize (IH (fun y Hy => H y (or_intror Hy))).
  pose proof (H x (or_introl eq_refl)). lia.
Qed.
Lemma sum_lt : forall (f g : nat -> nat) l, (forall x, In x l -> f x <= g x) -> (exists x, In x l /\ f x < g x) ->
  sum (map f l) < sum (map g l).
Proof.
  intros f g l. induction l as [|x l IH]; intros H (y & Hy & Hlt); [contradiction|]. cbn.
  pose proof (H x (or_introl eq_refl)). destruct Hy as [->|Hy].
  - pose proof (sum_le f g l (fun z Hz => H z (or_intror Hz))). lia.
  - assert (sum (map f l) < sum (map g l)) by (apply IH; [intros; apply H; right; assumption|exists y; auto]). lia.
Qed.
Lemma bits_le : forall a b, fle a b -> bits a <= bits b.
Proof.
  intros [a1 a2] [b1 b2] [H1 H2]. unfold bits. cbn in *. destruct a1, b1, a2, b2; try lia;
  try (specialize (H1 eq_refl); discriminate); try (specialize (H2 eq_refl); discriminate).
Qed.
Lemma bits_lt : forall a b, fle a b -> a <> b -> bits a < bits b.
Proof.
  intros [a1 a2] [b1 b2] [H1 H2] Hne. unfold bits. cbn in *. destruct a1, b1, a2, b2; try lia; try congruence;
  try (specialize (H1 eq_refl); discriminate); try (specialize (H2 eq_refl); discriminate).
Qed.
Lemma row_bits_le : forall n a b, (forall r, fle (a r) (b r)) -> row_bits n a <= row_bits n b.
Proof. intros n a b H. apply sum_le. intros r _. apply bits_le. apply H. Qed.
Lemma all_bits_le : forall n a b, dle a b -> all_bits n a <= all_bits n b.
Proof. intros n a b [H _]. apply sum_le. intros w _. apply row_bits_le. apply H. Qed.

Lemma sum_bound : forall (f : nat -> nat) l c, (forall x, f x <= c) -> sum (map f l) <= length l * c.
Proof. intros f l c H. induction l as [|x l IH]; cbn; [lia|]. pose proof (H x). lia. Qed.
Lemma all_bits_bound : forall n d, all_bits n d <= 2 * n * n.
Proof.
  intros n d. unfold all_bits. assert (H : forall w, row_bits n (dep d w) <= n * 2).
  { intros w. unfold row_bits. rewrite <- (seq_length n 0) at 2. apply sum_bound. intros r. unfold bits.
    destruct (fD _), (fQ _); lia. }
  pose proof (sum_bound _ (seq 0 n) _ H) as K. rewrite seq_length in K. replace (2 * n * n) with (n * (n * 2)) by nia. exact K.
Qed.

Lemma sweep_bits : forall n ks d ch d', inside n d -> (forall w, In w ks -> w < n) -> sweep n ks d ch = (d', true) -> ch = false ->
  all_bits n d < all_bits n d'.
Proof.
  intros n. induction ks as [|w ks IH]; intros d ch d' Hi Hk H Hc; cbn [sweep] in H.
  - inversion H; congruence.
  - subst ch. cbn in H. destruct (row_changed n (dep d w) (close_row n d w)) eqn:E.
    + assert (Hlt : all_bits n d < all_bits n (set_row d w (close_row n d w))).
      { apply sum_lt.
        - intros x _. apply row_bits_le. intros r. apply set_row_ge; assumption.
        - exists w. split; [apply in_seq; pose proof (Hk w (or_introl eq_refl)); lia|].
          unfold row_changed in E. apply existsb_exists in E. destruct E as (r & Hr & E).
          cbn. rewrite Nat.eqb_refl. apply sum_lt.
          + intros x _. apply bits_le. apply close_row_ge; assumption.
          + exists r. split; [exact Hr|]. apply bits_lt; [apply close_row_ge; assumption|]. intros Eq.
            apply ffu_eqb_eq in Eq. rewrite Eq in E. discriminate. }
      apply sweep_ge in H; [|apply set_row_inside; assumption]. destruct H as [H _]. pose proof (all_bits_le n _ _ H). lia.
    + pose proof (IH _ _ _ (set_row_inside n d w Hi) (fun x Hx => Hk x (or_intror Hx)) H eq_refl) as K.
      pose proof (all_bits_le n _ _ (set_row_ge n d w Hi)). lia.
Qed.

Lemma sweep_inside : forall n ks d ch d' ch', inside n d -> sweep n ks d ch = (d', ch') -> inside n d'.
Proof.
  intros n. induction ks as [|w ks IH]; intros d ch d' ch' Hi H; cbn [sweep] in H.
  - inversion H; subst; assumption.
  - eapply IH; [|exact H]. apply set_row_inside; assumption.
Qed.

Lemma closure_ok : forall n fuel d, inside n d -> 2 * n * n < fuel + all_bits n d ->
  exists d', closure n fuel d = Some d' /\ dle d d' /\ inside n d' /\ closed_on n (filter (written d) (seq 0 n)) d'.
Proof.
  intros n. induction fuel as [|fuel IH]; intros d Hi Hf.
  - pose proof (all_bits_bound n d). lia.
  - cbn [closure]. destruct (sweep n (filter (written d) (seq 0 n)) d false) as [d1 ch] eqn:E.
    pose proof (sweep_inside _ _ _ _ _ _ Hi E) as Hi1. destruct ch.
    + assert (Hb : all_bits n d < all_bits n d1).
      { eapply sweep_bits; [exact Hi| |exact E|reflexivity]. intros w Hw. apply filter_In in Hw. destruct Hw as [Hw _]. apply in_seq in Hw. lia. }
      destruct (IH d1 Hi1) as (d' & H1 & H2 & H3 & H4); [lia|].
      exists d'. pose proof (sweep_ge _ _ _ _ _ _ Hi E) as [G _].
      split; [exact H1|]. split; [eapply dle_trans; eauto|]. split; [exact H3|].
      assert (Ew : filter (written d1) (seq 0 n) = filter (written d) (seq 0 n)).
      { apply filter_ext. intros w. symmetry. apply G. }
      rewrite <- Ew. exact H4.
    + exists d1. split; [reflexivity|]. destruct (sweep_unchanged _ _ _ _ Hi E) as [[A B] C].
      split; [split; intros; [rewrite A; apply fle_refl|apply B]|]. split; [exact Hi1|].
      intros w k r Hw Hk Hp Hwr. rewrite <- !A. apply C; auto; rewrite ?A, ?B; assumption.
Qed.

(** Invariant along a sequence. *)
Definition in_range (n : nat) (p : list instr) : Prop :=
  forall x v, In x p -> In v (i_read x) \/ In v (i_written x) -> v < n.

(** [d] covers the data flow of the last value of every written variable of [p]. *)
Definition covers (p : list instr) (d : deps) : Prop :=
  (forall v, written d v = true <-> exists j, last_write p (length p) v j) /\
  (forall v j k u, last_write p (length p) v j -> flow p j v k u -> fD (dep d v u) = true).

Lemma last_write_ext : forall p q i v j, i <= length p -> (last_write (p ++ q) i v j <-> last_write p i v j).
Proof.
  intros p q i v j Hi. unfold last_write. split; intros (H1 & (x & Hx & Hv) & H3).
  - split; [assumption|]. split.
    + exists x. rewrite nth_error_app1 in Hx by lia. auto.
    + intros k y Hk Hy. apply (H3 k y Hk). rewrite nth_error_app1 by lia. assumption.
  - split; [assumption|]. split.
    + exists x. rewrite nth_error_app1 by lia. auto.
    + intros k y Hk Hy. apply (H3 k y Hk). rewrite nth_error_app1 in Hy by lia. assumption.
Qed.

Lemma lw_down : forall p q i v j, last_write (p ++ q) i v j -> i <= length p -> last_write p i v j.
Proof. intros p q i v j H Hi. apply (last_write_ext p q i v j Hi). exact H. Qed.
Lemma lw_up : forall p q i v j, last_write p i v j -> i <= length p -> last_write (p ++ q) i v j.
Proof. intros p q i v j H Hi. apply (last_write_ext p q i v j Hi). exact H. Qed.

Lemma flow_down : forall p q i w j v, flow (p ++ q) i w j v -> i < length p -> flow p i w j v.
Proof.
  intros p q i w j v H. induction H as [i x w v j Hx Hw Hv Hl|i x w v j k u Hx Hw Hv Hl Hf IH]; intros Hi;
  rewrite nth_error_app1 in Hx by lia; apply lw_down in Hl; try lia.
  - exact (flow_one p i x w v j Hx Hw Hv Hl).
  - apply (flow_more p i x w v j k u Hx Hw Hv Hl). apply IH. destruct Hl. lia.
Qed.
Lemma flow_up : forall p q i w j v, flow p i w j v -> i < length p -> flow (p ++ q) i w j v.
Proof.
  intros p q i w j v H. induction H as [i x w v j Hx Hw Hv Hl|i x w v j k u Hx Hw Hv Hl Hf IH]; intros Hi.
  - apply (flow_one _ i x w v j); auto; [rewrite nth_error_app1 by lia; exact Hx|apply lw_up; [exact Hl|lia]].
  - apply (flow_more _ i x w v j k u); auto; [rewrite nth_error_app1 by lia; exact Hx|apply lw_up; [exact Hl|lia]|].
    apply IH. destruct Hl. lia.
Qed.

Lemma last_write_snoc_in : forall p i v, In v (i_written i) -> last_write (p ++ [i]) (length (p ++ [i])) v (length p).
Proof.
  intros p i v Hv. rewrite app_length. cbn. split; [lia|]. split.
  - exists i. rewrite nth_error_app2, Nat.sub_diag by lia. auto.
  - intros k x Hk. lia.
Qed.

Lemma last_write_snoc_out : forall p i v j, ~ In v (i_written i) ->
  (last_write (p ++ [i]) (length (p ++ [i])) v j <-> last_write p (length p) v j).
Proof.
  intros p i v j Hv. rewrite app_length. cbn [length]. unfold last_write. split; intros (H1 & (x & Hx & Hxv) & H3).
  - assert (j < length p).
    { destruct (Nat.eq_dec j (length p)) as [->|]; [|lia]. rewrite nth_error_app2, Nat.sub_diag in Hx by lia. cbn in Hx.
      inversion Hx; subst. contradiction. }
    split; [assumption|]. split; [exists x; rewrite nth_error_app1 in Hx by lia; auto|].
    intros k y Hk Hy. apply (H3 k y); [lia|]. rewrite nth_error_app1 by lia. assumption.
  - split; [lia|]. split; [exists x; rewrite nth_error_app1 by lia; auto|].
    intros k y Hk Hy. destruct (Nat.eq_dec k (length p)) as [->|].
    + rewrite nth_error_app2, Nat.sub_diag in Hy by lia. cbn in Hy. inversion Hy; subst. assumption.
    + rewrite nth_error_app1 in Hy by lia. apply (H3 k y); [lia|assumption].
Qed.

Lemma last_write_unique : forall p i v j k, last_write p i v j -> last_write p i v k -> j = k.
Proof.
  intros p i v j k (H1 & (x & Hx & Hv) & H3) (G1 & (y & Hy & Gv) & G3).
  destruct (Nat.lt_trichotomy j k) as [H|[H|H]]; [|assumption|].
  - exfalso. apply (H3 k y); auto.
  - exfalso. apply (G3 j x); auto.
Qed.

Lemma update_step : forall n p d i d', in_range n (p ++ [i]) -> inside n d -> covers p d -> update n d i = Some d' ->
  inside n d' /\ covers (p ++ [i]) d' /\ (forall j w, flow (p ++ [i]) (length p) w j w -> False).
Proof.
  intros n p d i d' Hr Hi [Cw Cf] H. unfold update in H.
  set (row := fun r => if mem r (i_read i) then (if written d r then {| fD := true; fQ := false |} else {| fD := false; fQ := true |}) else f0) in *.
  set (d0 := {| dep := fun w => if mem w (i_written i) then row else dep d w; written := fun w => written d w || mem w (i_written i) |}) in *.
  assert (Hin : In i (p ++ [i])) by (apply in_or_app; right; left; reflexivity).
  assert (Hi0 : inside n d0).
  { intros w r Hn. cbn. destruct (mem w (i_written i)); [|apply Hi; assumption]. unfold row.
    destruct (mem r (i_read i)) eqn:E; [|reflexivity]. apply mem_In in E. pose proof (Hr i r Hin (or_introl E)). lia. }
  destruct (closure_ok n (fuel_for n) d0 Hi0) as (d1 & E & [Hd Hw] & Hi1 & Hc); [unfold fuel_for; lia|].
  rewrite E in H. destruct (existsb (fun w => fD (dep d1 w w)) (i_written i)) eqn:Ex; [discriminate|]. inversion H; subst d1. clear H.
  assert (Hself : forall w, In w (i_written i) -> fD (dep d' w w) = false).
  { intros w Hin'. apply not_true_iff_false. intros K. apply not_true_iff_false in Ex. apply Ex. apply existsb_exists. eauto. }
  (* reads of variables written before *)
  assert (Hread : forall w v j, In w (i_written i) -> In v (i_read i) -> last_write p (length p) v j -> fD (dep d' w v) = true).
  { intros w v j Hwi Hvi Hl. apply (Hd w v). cbn. rewrite (proj2 (mem_In _ _) Hwi). unfold row.
    rewrite (proj2 (mem_In _ _) Hvi). assert (Ew : written d v = true) by (apply Cw; eauto). rewrite Ew. reflexivity. }
  assert (Hflow : forall w k u, flow (p ++ [i]) (length p) w k u -> fD (dep d' w u) = true).
  { intros w k u Hf. inversion Hf as [a x b v j Hx Hwx Hvx Hl|a x b v j k' u' Hx Hwx Hvx Hl Hf']; subst;
    rewrite nth_error_app2, Nat.sub_diag in Hx by lia; cbn in Hx; inversion Hx; subst x;
    apply lw_down in Hl; try lia.
    - eapply Hread; eauto.
    - (* through v *)
      assert (Hnv : ~ In v (i_written i)).
      { intros Hv. pose proof (Hread v v j Hv Hvx Hl). rewrite Hself in H by assumption. discriminate. }
      assert (Hf0 : flow p j v k u) by (apply flow_down in Hf'; [exact Hf'|destruct Hl; assumption]).
      pose proof (Cf v j k u Hl Hf0) as Hvu. pose proof (Hread w v j Hwx Hvx Hl) as Hwv.
      assert (Hdv : fD (dep d' v u) = true).
      { apply (Hd v u). cbn. destruct (mem v (i_written i)) eqn:Em; [apply mem_In in Em; contradiction|exact Hvu]. }
      assert (Hlt : w < n) by (apply (Hr i w Hin); right; assumption).
      assert (Hlv : v < n) by (apply (Hr i v Hin); left; assumption).
      assert (Hwrv : written d' v = true) by (rewrite <- Hw; cbn; assert (Ew : written d v = true) by (apply Cw; eauto); rewrite Ew; reflexivity).
      apply (Hc w v u).
      + apply filter_In. split; [apply in_seq; lia|]. cbn. rewrite (proj2 (mem_In _ _) Hwx). apply orb_true_r.
      + exact Hlv.
      + unfold present. rewrite Hwv. reflexivity.
      + exact Hwrv.
      + exact Hdv. }
  split; [exact Hi1|]. split.
  - split.
    + intros v. rewrite <- Hw. cbn. destruct (mem v (i_written i)) eqn:Em.
      * rewrite orb_true_r. split; [|reflexivity]. intros _. exists (length p). apply last_write_snoc_in. apply mem_In; assumption.
      * rewrite orb_false_r, Cw. assert (Hnv : ~ In v (i_written i)) by (intros K; apply mem_In in K; congruence).
        split; intros (j & Hj); exists j; [apply last_write_snoc_out|apply last_write_snoc_out in Hj]; auto.
    + intros v j k u Hl Hf. destruct (in_dec Nat.eq_dec v (i_written i)) as [Hv|Hv].
      * pose proof (last_write_unique _ _ _ _ _ Hl (last_write_snoc_in p i v Hv)). subst j. eapply Hflow; eauto.
      * apply last_write_snoc_out in Hl; [|assumption]. apply (Hd v u). cbn.
        destruct (mem v (i_written i)) eqn:Em; [apply mem_In in Em; contradiction|].
        eapply Cf; [exact Hl|]. apply flow_down in Hf; [exact Hf|]. destruct Hl; assumption.
  - intros j w Hf. pose proof (Hflow _ _ _ Hf) as K. rewrite Hself in K; [discriminate|].
    inversion Hf as [a x b v j' Hx Hwx Hvx Hl|a x b v j' k' u' Hx Hwx Hvx Hl Hf']; subst;
    rewrite nth_error_app2, Nat.sub_diag in Hx by lia; cbn in Hx; inversion Hx; subst x; assumption.
Qed.

Lemma run_invariant : forall n q p d d', in_range n (p ++ q) -> inside n d -> covers p d ->
  (forall i j w, i < length p -> flow (p ++ q) i w j w -> False) -> run n d q = Some d' ->
  covers (p ++ q) d' /\ forall i j w, flow (p ++ q) i w j w -> False.
Proof.
  intros n. induction q as [|i q IH]; intros p d d' Hr Hi Hc Hn H; cbn [run] in H.
  - inversion H; subst. rewrite app_nil_r in *. split; [assumption|]. intros i j w Hf. apply (Hn i j w); [|assumption].
    inversion Hf; subst; apply nth_error_Some; congruence.
  - destruct (update n d i) as [d1|] eqn:E; [|discriminate].
    assert (Hr1 : in_range n (p ++ [i])).
    { intros x v Hx Hv. apply (Hr x v); [|assumption]. apply in_app_or in Hx. apply in_or_app. destruct Hx as [Hx|[<-|[]]]; [left|right; left]; auto. }
    destruct (update_step n p d i d1 Hr1 Hi Hc E) as (Hi1 & Hc1 & Hno).
    replace (p ++ i :: q) with ((p ++ [i]) ++ q) in * by (rewrite <- app_assoc; reflexivity).
    apply (IH (p ++ [i]) d1 d'); auto. intros k j w Hk Hf. rewrite app_length in Hk. cbn in Hk.
    destruct (Nat.eq_dec k (length p)) as [->|].
    + apply (Hno j w). apply flow_down in Hf; [exact Hf|]. rewrite app_length. cbn. lia.
    + apply (Hn k j w); [lia|exact Hf].
Qed.

Lemma run_sound : forall n p d', in_range n p -> run n no_deps p = Some d' -> covers p d' /\ ~ comb_loop p.
Proof.
  intros n p d' Hr H. destruct (run_invariant n p [] no_deps d') as [H1 H2]; auto.
  - intros w r _. reflexivity.
  - split.
    + intros v. cbn. split; [discriminate|]. intros (j & H1 & _). cbn in H1. lia.
    + intros v j k u (H1 & _). cbn in H1. lia.
  - intros i j w Hi. cbn in Hi. lia.
  - split; [exact H1|]. intros (i & j & w & Hf). apply (H2 i j w Hf).
Qed.

(** The closure is always reached. *)
Lemma update_total : forall n d i, inside n d -> (forall v, In v (i_read i) -> v < n) ->
  exists d1, closure n (fuel_for n) {| dep := fun w => if mem w (i_written i) then
      (fun r => if mem r (i_read i) then (if written d r then {| fD := true; fQ := false |} else {| fD := false; fQ := true |}) else f0) else dep d w;
    written := fun w => written d w || mem w (i_written i) |} = Some d1.
Proof.
  intros n d i Hi Hr.
  match goal with |- exists d1, closure n _ ?d0 = _ => destruct (closure_ok n (fuel_for n) d0) as (d1 & E & _) end.
  - intros w r Hn. cbn. destruct (mem w (i_written i)); [|apply Hi; assumption].
    destruct (mem r (i_read i)) eqn:E; [|reflexivity]. apply mem_In in E. pose proof (Hr r E). lia.
  - unfold fuel_for. lia.
  - exists d1. exact E.
Qed.

(** Executions of code with conditionals: the instructions of the taken branches, each reading also the tests it is under. *)
Inductive exec_code : list var -> code -> list instr -> Prop :=
| ex_ins : forall c i, exec_code c (Ins i) [{| i_read := i_read i ++ c; i_written := i_written i |}]
| ex_then : forall c t c1 c2 l, exec_codes (t ++ c) c1 l -> exec_code c (IfElse t c1 c2) l
| ex_else : forall c t c1 c2 l, exec_codes (t ++ c) c2 l -> exec_code c (IfElse t c1 c2) l
with exec_codes : list var -> list code -> list instr -> Prop :=
| ex_nil : forall c, exec_codes c [] []
| ex_cons : forall c x l a b, exec_code c x a -> exec_codes c l b -> exec_codes c (x :: l) (a ++ b).

(** The same, ignoring the tests. *)
Inductive exec_code0 : code -> list instr -> Prop :=
| ex0_ins : forall i, exec_code0 (Ins i) [i]
| ex0_then : forall t c1 c2 l, exec_codes0 c1 l -> exec_code0 (IfElse t c1 c2) l
| ex0_else : forall t c1 c2 l, exec_codes0 c2 l -> exec_code0 (IfElse t c1 c2) l
with exec_codes0 : list code -> list instr -> Prop :=
| ex0_nil : exec_codes0 [] []
| ex0_cons : forall x l a b, exec_code0 x a -> exec_codes0 l b -> exec_codes0 (x :: l) (a ++ b).
