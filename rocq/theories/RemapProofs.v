From Coq Require Import List Bool ZArith Lia.
From Verif Require Import RemapModel.
Import ListNotations.
Local Open Scope Z_scope.

Definition key (remap : list entry) (i : Z) : Z :=
  match nth_error remap (Z.to_nat i) with Some e => e_key e | None => 0 end.

Definition sorted (remap : list entry) : Prop :=
  forall i j, 0 <= i -> i < j -> j < Z.of_nat (length remap) -> key remap i < key remap j.

Lemma nth_in : forall (remap : list entry) i, 0 <= i < Z.of_nat (length remap) ->
  exists e, nth_error remap (Z.to_nat i) = Some e.
Proof.
  intros remap i H. destruct (nth_error remap (Z.to_nat i)) eqn:E; [eauto|].
  apply nth_error_None in E. lia.
Qed.

Lemma search_loop_hit : forall fuel remap line l r i, sorted remap ->
  0 <= l -> r < Z.of_nat (length remap) -> l <= i <= r -> key remap i = line ->
  (Z.to_nat (r - l) < fuel)%nat -> search_loop fuel remap line l r = i.
Proof.
  induction fuel as [|f IH]; intros remap line l r i Hs Hl Hr Hi Hk Hf; [lia|]. cbn [search_loop].
  destruct (Z.ltb_spec l r) as [Hlr|Hlr]; [|lia].
  assert (Hm : l <= (l + r) / 2 < r) by (split; [apply Z.div_le_lower_bound|apply Z.div_lt_upper_bound]; lia).
  destruct (nth_in remap ((l + r) / 2)) as [e He]; [lia|]. rewrite He.
  assert (Ke : e_key e = key remap ((l + r) / 2)) by (unfold key; rewrite He; reflexivity).
  destruct (Z.ltb_spec (e_key e) line) as [H1|H1].
  - apply IH; auto; try lia. split; [|lia].
    destruct (Z_lt_le_dec ((l + r) / 2) i); [lia|]. exfalso.
    destruct (Z.eq_dec i ((l + r) / 2)) as [->|]; [lia|].
    assert (key remap i < key remap ((l + r) / 2)) by (apply Hs; lia). lia.
  - destruct (Z.ltb_spec line (e_key e)) as [H2|H2].
    + apply IH; auto; try lia. split; [lia|].
      destruct (Z_lt_le_dec i ((l + r) / 2)); [lia|]. exfalso.
      destruct (Z.eq_dec i ((l + r) / 2)) as [->|]; [lia|].
      assert (key remap ((l + r) / 2) < key remap i) by (apply Hs; lia). lia.
    + destruct (Ztrichotomy_inf i ((l + r) / 2)) as [[?| ->]|?]; [|reflexivity|].
      * assert (key remap i < key remap ((l + r) / 2)) by (apply Hs; lia). lia.
      * assert (key remap ((l + r) / 2) < key remap i) by (apply Hs; lia). lia.
Qed.

Lemma search_hit : forall remap i e, sorted remap -> nth_error remap i = Some e -> 0 <= e_key e ->
  search (e_key e) remap = Some (e_file e, e_line e).
Proof.
  intros remap i e Hs Hn Hp. unfold search. destruct (Z.ltb_spec (e_key e) 0); [lia|].
  assert (Hi : (i < length remap)%nat) by (apply nth_error_Some; congruence).
  rewrite (search_loop_hit _ _ _ _ _ (Z.of_nat i)); auto; try lia.
  - rewrite Nat2Z.id, Hn. reflexivity.
  - unfold key. rewrite Nat2Z.id, Hn. reflexivity.
Qed.

(** Entries of chunks of at least one line have increasing keys. *)
Lemma adding_keys : forall chunks cur, (forall c, In c chunks -> 1 <= fst c) ->
  (forall i e, nth_error (adding_lines cur chunks) i = Some e -> cur <= e_key e) /\ sorted (adding_lines cur chunks).
Proof.
  induction chunks as [|[n s] chunks IH]; intros cur H.
  - split; [intros [|i] e He; discriminate|]. intros i j Hi Hij Hj. cbn in Hj. lia.
  - destruct (IH (cur + n)) as [K1 K2]; [intros c Hc; apply H; right; exact Hc|].
    assert (Hn : 1 <= n) by (apply (H (n, s)); left; reflexivity). cbn [adding_lines]. split.
    + intros [|i] e He; cbn in He; [inversion He; cbn; lia|]. apply K1 in He. lia.
    + intros i j Hi Hij Hj. cbn [length] in Hj.
      assert (Ej : key ({| e_key := cur; e_file := 0; e_line := s |} :: adding_lines (cur + n) chunks) j = key (adding_lines (cur + n) chunks) (j - 1)).
      { unfold key. replace (Z.to_nat j) with (S (Z.to_nat (j - 1))) by lia. reflexivity. }
      rewrite Ej. destruct (Z.eq_dec i 0) as [->|].
      * unfold key at 1. cbn. unfold key. destruct (nth_in (adding_lines (cur + n) chunks) (j - 1)) as [e He]; [lia|].
        rewrite He. apply K1 in He. lia.
      * unfold key at 1. replace (Z.to_nat i) with (S (Z.to_nat (i - 1))) by lia. cbn [nth_error].
        apply (K2 (i - 1) (j - 1)); lia.
Qed.

(** Output line at which chunk [j] starts. *)
Definition start (chunks : list (Z * Z)) (j : nat) : Z := fold_right Z.add 0 (map fst (firstn j chunks)).

Lemma adding_nth : forall chunks cur j n s, nth_error chunks j = Some (n, s) ->
  nth_error (adding_lines cur chunks) j = Some {| e_key := cur + start chunks j; e_file := 0; e_line := s |}.
Proof.
  induction chunks as [|[n0 s0] chunks IH]; intros cur j n s H; destruct j as [|j]; cbn in H; try discriminate.
  - inversion H; subst. cbn. rewrite Z.add_0_r. reflexivity.
  - cbn. rewrite (IH (cur + n0) _ _ _ H). f_equal. unfold start. cbn. f_equal. lia.
Qed.

Lemma source_nth : forall lines cur j f l, nth_error lines j = Some (f, l) ->
  nth_error (source_lines cur lines) j = Some {| e_key := cur + Z.of_nat j; e_file := f; e_line := l |}.
Proof.
  induction lines as [|[f0 l0] lines IH]; intros cur j f l H; destruct j as [|j]; cbn in H; try discriminate.
  - inversion H; subst. cbn. rewrite Z.add_0_r. reflexivity.
  - cbn [source_lines nth_error]. rewrite (IH _ _ _ _ H). do 2 f_equal. lia.
Qed.

Lemma source_length : forall lines cur, length (source_lines cur lines) = length lines.
Proof. induction lines as [|[f l] lines IH]; intros cur; cbn; [reflexivity|]. rewrite IH. reflexivity. Qed.

Lemma source_sorted : forall lines, sorted (source_lines 0 lines).
Proof.
  intros lines i j Hi Hij Hj. rewrite source_length in Hj.
  assert (K : forall k, 0 <= k < Z.of_nat (length lines) -> key (source_lines 0 lines) k = k).
  { intros k Hk. unfold key. destruct (nth_error lines (Z.to_nat k)) as [[f l]|] eqn:E.
    - rewrite (source_nth _ _ _ _ _ E). cbn [e_key]. lia.
    - apply nth_error_None in E. lia. }
  rewrite !K by lia. exact Hij.
Qed.

Lemma start_nonneg : forall chunks j, (forall c, In c chunks -> 1 <= fst c) -> 0 <= start chunks j.
Proof.
  intros chunks j H. unfold start. revert j. induction chunks as [|c chunks IH]; intros [|j]; cbn; try lia.
  assert (1 <= fst c) by (apply H; left; reflexivity).
  assert (0 <= fold_right Z.add 0 (map fst (firstn j chunks))) by (apply IH; intros c' Hc'; apply H; right; exact Hc').
  lia.
Qed.

Lemma first_line_ok : forall chunks lines j n s f l,
  (forall c, In c chunks -> 1 <= fst c) ->
  nth_error chunks j = Some (n, s) -> 0 <= s -> nth_error lines (Z.to_nat s) = Some (f, l) ->
  error_report (adding_lines 0 chunks) (source_lines 0 lines) (start chunks j + 1) = Some (f, l + 1).
Proof.
  intros chunks lines j n s f l Hc Hj Hs Hl. unfold error_report, line_before.
  replace (start chunks j + 1 - 1) with (start chunks j) by lia.
  pose proof (adding_nth chunks 0 j n s Hj) as E. rewrite Z.add_0_l in E.
  destruct (adding_keys chunks 0 Hc) as [_ Hso].
  pose proof (search_hit _ _ _ Hso E) as S1. cbn in S1. rewrite S1 by (apply start_nonneg; assumption).
  pose proof (source_nth lines 0 _ _ _ Hl) as E2. rewrite Z2Nat.id in E2 by assumption. rewrite Z.add_0_l in E2.
  pose proof (search_hit _ _ _ (source_sorted lines) E2) as S2. cbn in S2. rewrite S2 by assumption. reflexivity.
Qed.

Lemma start_one : forall chunks j, (forall c, In c chunks -> fst c = 1) -> (j <= length chunks)%nat -> start chunks j = Z.of_nat j.
Proof.
  intros chunks j H Hj. unfold start. revert j Hj. induction chunks as [|c chunks IH]; intros [|j] Hj; cbn in *; try lia.
  rewrite (H c) by (left; reflexivity). rewrite IH; try lia. intros c' Hc'. apply H; right; exact Hc'.
Qed.

Lemma single_lines_ok : forall chunks lines j s f l,
  (forall c, In c chunks -> fst c = 1) ->
  nth_error chunks j = Some (1, s) -> 0 <= s -> nth_error lines (Z.to_nat s) = Some (f, l) ->
  error_report (adding_lines 0 chunks) (source_lines 0 lines) (Z.of_nat j + 1) = Some (f, l + 1).
Proof.
  intros chunks lines j s f l Hc Hj Hs Hl.
  rewrite <- (start_one chunks j Hc).
  - apply (first_line_ok chunks lines j 1 s f l); auto. intros c Hin. rewrite (Hc c Hin). lia.
  - assert ((j < length chunks)%nat) by (apply nth_error_Some; congruence). lia.
Qed.

(** The first entry that starts at the line or after it; the last entry when there is none. *)
Lemma search_loop_first : forall fuel remap line l r i, sorted remap ->
  0 <= l -> r < Z.of_nat (length remap) -> l <= i <= r ->
  (forall k, 0 <= k < i -> key remap k < line) -> (i < r -> line <= key remap i) ->
  (Z.to_nat (r - l) < fuel)%nat -> search_loop fuel remap line l r = i.
Proof.
  induction fuel as [|f IH]; intros remap line l r i Hs Hl Hr Hi Hb Ha Hf; [lia|]. cbn [search_loop].
  destruct (Z.ltb_spec l r) as [Hlr|Hlr]; [|lia].
  assert (Hm : l <= (l + r) / 2 < r) by (split; [apply Z.div_le_lower_bound|apply Z.div_lt_upper_bound]; lia).
  destruct (nth_in remap ((l + r) / 2)) as [e He]; [lia|]. rewrite He.
  assert (Ke : e_key e = key remap ((l + r) / 2)) by (unfold key; rewrite He; reflexivity).
  assert (Mono : forall a b, 0 <= a -> a <= b -> b < Z.of_nat (length remap) -> key remap a <= key remap b).
  { intros a b H0 H1 H2. destruct (Z.eq_dec a b) as [->|]; [lia|]. assert (key remap a < key remap b) by (apply Hs; lia). lia. }
  destruct (Z.ltb_spec (e_key e) line) as [H1|H1].
  - apply IH; auto; try lia. split; [|lia]. destruct (Z_lt_le_dec ((l + r) / 2) i); [lia|]. exfalso.
    pose proof (Mono i ((l + r) / 2) ltac:(lia) ltac:(lia) ltac:(lia)). specialize (Ha ltac:(lia)). lia.
  - assert (Hi' : i <= (l + r) / 2).
    { destruct (Z_lt_le_dec ((l + r) / 2) i); [|assumption]. specialize (Hb ((l + r) / 2) ltac:(lia)). lia. }
    destruct (Z.ltb_spec line (e_key e)) as [H2|H2].
    + apply IH; auto; lia.
    + destruct (Z.eq_dec i ((l + r) / 2)) as [->|Ne]; [reflexivity|]. exfalso.
      assert (key remap i < key remap ((l + r) / 2)) by (apply Hs; lia). specialize (Ha ltac:(lia)). lia.
Qed.

Lemma search_first : forall remap i e line, sorted remap -> nth_error remap i = Some e -> 0 <= line ->
  (forall j e', nth_error remap j = Some e' -> (j < i)%nat -> e_key e' < line) -> ((S i < length remap)%nat -> line <= e_key e) ->
  search line remap = Some (e_file e, e_line e).
Proof.
  intros remap i e line Hs Hn Hp Hb Ha. unfold search. destruct (Z.ltb_spec line 0); [lia|].
  assert (Hi : (i < length remap)%nat) by (apply nth_error_Some; congruence).
  rewrite (search_loop_first _ _ _ _ _ (Z.of_nat i)); auto; try lia.
  - rewrite Nat2Z.id, Hn. reflexivity.
  - intros k Hk. destruct (nth_in remap k) as [e' He']; [lia|]. unfold key; rewrite He'. apply (Hb (Z.to_nat k)); [assumption|lia].
  - intros H1. unfold key; rewrite Nat2Z.id, Hn. apply Ha. lia.
Qed.

Lemma adding_length : forall chunks cur, length (adding_lines cur chunks) = length chunks.
Proof. induction chunks as [|[n s] chunks IH]; intros cur; cbn; [reflexivity|]. now rewrite IH. Qed.

Lemma interior_ok : forall chunks lines j n s f l line,
  (forall c, In c chunks -> 1 <= fst c) ->
  nth_error chunks j = Some (n, s) -> 0 <= s -> nth_error lines (Z.to_nat s) = Some (f, l) -> 0 <= line ->
  (forall k, (k < j)%nat -> start chunks k < line) -> ((S j < length chunks)%nat -> line <= start chunks j) ->
  error_report (adding_lines 0 chunks) (source_lines 0 lines) (line + 1) = Some (f, l + 1).
Proof.
  intros chunks lines j n s f l line Hc Hj Hs Hl Hp Hb Ha. unfold error_report, line_before.
  replace (line + 1 - 1) with line by lia.
  pose proof (adding_nth chunks 0 j n s Hj) as E. rewrite Z.add_0_l in E.
  destruct (adding_keys chunks 0 Hc) as [_ Hso].
  rewrite (search_first _ j _ line Hso E Hp).
  - cbn [e_line]. pose proof (source_nth lines 0 _ _ _ Hl) as E2. rewrite Z2Nat.id in E2 by assumption. rewrite Z.add_0_l in E2.
    pose proof (search_hit _ _ _ (source_sorted lines) E2) as S2. cbn in S2. rewrite S2 by assumption. reflexivity.
  - intros k e' He Hk. destruct (nth_error chunks k) as [[n' s']|] eqn:Ek.
    + rewrite (adding_nth chunks 0 k n' s' Ek) in He. inversion He; subst. cbn [e_key]. now apply Hb.
    + apply nth_error_None in Ek. rewrite <- (adding_length chunks 0) in Ek. apply nth_error_None in Ek. congruence.
  - rewrite adding_length. exact Ha.
Qed.
