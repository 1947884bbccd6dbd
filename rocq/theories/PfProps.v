(** C08: pipelines neither lose, duplicate nor reorder items. C09: done is reported when the pipelines are drained. *)
From Coq Require Import List Bool Arith Lia.
Import ListNotations.
From Verif Require Import PfModel PfProofs PfLive.

(** The items are followed through the variable they carry. A tag is whatever the code of the stages leaves unchanged in it; for instance the variable holds a serial number. *)
Definition keeps {A T : Type} (B : beh A) (tag : A -> T) : Prop := forall s n j a, tag (o_proc B s n j a) = tag a.

(** * What leaves a stage has entered it, in the same order; at most one item is missing: the one in the stage. *)
Theorem C08_stage : forall (A T : Type) (P : pipeline) fw (B : beh A) (tag : A -> T) t0 s n, stages_ok P B -> keeps B tag -> fw < s -> s < p_num P ->
  map tag (entered P fw B t0 s n) =
  map tag (left P fw B t0 s n) ++ (if Nat.eqb (r_idx (run P fw B t0 n) s) 0 then [] else [tag (r_t (run P fw B t0 n) s)]).
Proof.
  intros A T P fw B tag t0 s n OK K Lf L. rewrite (inside P fw B OK tag) by assumption. rewrite map_app. f_equal. unfold busy.
  destruct (Nat.eqb (r_idx (run P fw B t0 n) s) 0); reflexivity.
Qed.
Print Assumptions C08_stage.

(** * What enters a stage has left the previous one, with the same value, in the same order; at most one item waits in between. *)
Theorem C08_handover : forall (A : Type) (P : pipeline) fw (B : beh A) t0 s n, stages_ok P B -> fw <= s -> S s < p_num P ->
  left P fw B t0 s n =
  entered P fw B t0 (S s) n ++ (if r_full (run P fw B t0 n) s && Nat.eqb (r_idx (run P fw B t0 n) s) 0 then [r_t (run P fw B t0 n) s] else []).
Proof. intros A P fw B t0 s n OK Lf L. exact (handover P fw B OK t0 s n Lf L). Qed.
Print Assumptions C08_handover.

(** * Over the entire pipeline. *)
Lemma between_length {A : Type} (q : pst A) : forall d s, length (between q s d) <= d + (if waiting q s then 1 else 0).
Proof.
  induction d as [|d IH]; intros s; [cbn; lia|]. cbn [between]. rewrite !app_length. specialize (IH (S s)). unfold busy, waiting in *.
  destruct (r_full q s), (Nat.eqb (r_idx q s) 0), (r_full q (S s)), (Nat.eqb (r_idx q (S s)) 0); cbn [andb negb length] in *; lia.
Qed.
Theorem C08_pipeline : forall (A T : Type) (P : pipeline) fw (B : beh A) (tag : A -> T) t0 d n, stages_ok P B -> keeps B tag -> fw + d < p_num P ->
  exists inside, length inside <= d + 1 /\ map tag (left P fw B t0 fw n) = map tag (left P fw B t0 (fw + d) n) ++ inside.
Proof.
  intros A T P fw B tag t0 d n OK K L. exists (map tag (between (run P fw B t0 n) fw d)). split.
  - rewrite map_length. pose proof (between_length (run P fw B t0 n) d fw). destruct (waiting _ _); lia.
  - rewrite (across P fw B OK tag t0 n K d fw) by lia. apply map_app.
Qed.
Print Assumptions C08_pipeline.

(** No item is dropped, processed twice, or overtakes another: the n-th item to leave a stage is the n-th that left the first one. *)
Theorem C08_rank : forall (A T : Type) (P : pipeline) fw (B : beh A) (tag : A -> T) t0 d n k a, stages_ok P B -> keeps B tag -> fw + d < p_num P ->
  nth_error (left P fw B t0 (fw + d) n) k = Some a -> exists b, nth_error (left P fw B t0 fw n) k = Some b /\ tag b = tag a.
Proof.
  intros A T P fw B tag t0 d n k a OK K L H. destruct (C08_pipeline A T P fw B tag t0 d n OK K L) as (ins & _ & E).
  assert (X : nth_error (map tag (left P fw B t0 fw n)) k = Some (tag a)).
  { rewrite E, nth_error_app1; [now apply map_nth_error|]. rewrite map_length. apply nth_error_Some. now rewrite H. }
  rewrite nth_error_map in X. destruct (nth_error (left P fw B t0 fw n) k) as [b|]; [|discriminate]. exists b; split; [reflexivity|]. now inversion X.
Qed.
Print Assumptions C08_rank.

(** * Nothing waits without reason: an item waiting for a stage which is idle and empty, or completes its own item, moves on. *)
Theorem C08_progress : forall (A : Type) (P : pipeline) fw (B : beh A) n (q : pst A) s, stages_ok P B -> S s < p_num P ->
  r_full q s = true -> r_idx q s = 0 -> r_idx q (S s) = 0 -> (S (S s) < p_num P -> r_full q (S s) = false) ->
  started P fw B n q (S s) = true.
Proof.
  intros A P fw B n q s OK L Hf Hi Hn Hl. destruct (step_eq P fw B n q) as (F & F0 & F1 & F2 & F3 & F4). destruct OK as (O1 & O2 & O3).
  assert (N : forall s, r_idx q s = 0 -> in_last P q s = false).
  { intros x E; unfold in_last; rewrite E. destruct (Nat.eqb_spec 0 (p_last P x)) as [K|_]; [destruct (O2 x); now rewrite K|reflexivity]. }
  assert (St : stall P B n q (S s) = false) by (unfold stall; now rewrite N).
  assert (St' : stall P B n q s = false) by (unfold stall; now rewrite N).
  assert (R : ready P q (S s) = true) by (unfold ready; now rewrite Hn, Nat.eqb_refl, orb_true_r).
  assert (E : F (S s) = true).
  { rewrite F1 by assumption. rewrite R, St. change (Nat.eqb (S s) 0) with false; cbv iota. replace (S s - 1) with s by lia. rewrite St'. unfold code_full. rewrite (N s Hi), (N (S s) Hn), Hf. cbn [andb negb].
    rewrite !andb_true_r. destruct (Nat.eqb_spec (S (S s)) (p_num P)); [reflexivity|]. now rewrite Hl by lia. }
  unfold started. now rewrite F2, E, Nat.eqb_refl, St, R.
Qed.
Print Assumptions C08_progress.

(** * A pipeline of three stages: the first in two states; the second stalls; the last in three states. *)
Definition ex_p : pipeline := {| p_num := 3; p_entry := fun _ => 1; p_last := fun s => match s with 0 => 2 | 1 => 1 | _ => 3 end |}.
Definition ex_b : beh (nat * nat) :=
  {| o_next := fun s n j => S j + (if Nat.eqb j 0 then 1 else 0); o_stall := fun s n => Nat.eqb s 1 && Nat.eqb (n mod 3) 0; o_proc := fun s n j a => (fst a, snd a + s * n);
     o_src := fun n => (n, 0); o_go := fun _ => true; o_dis := fun n => Nat.eqb n 7 |}.
Definition ex_t0 (_ : nat) : nat * nat := (0, 0).
Example C08_ex :
  stages_ok ex_p ex_b /\ keeps ex_b fst /\
  left ex_p 0 ex_b ex_t0 0 20 = [(2, 0); (4, 0); (6, 0); (9, 0); (12, 0); (15, 0); (18, 0)] /\
  left ex_p 0 ex_b ex_t0 1 20 = [(2, 7); (4, 5); (6, 8); (9, 11); (12, 14); (15, 17)] /\
  left ex_p 0 ex_b ex_t0 2 20 = [(2, 43); (4, 59); (6, 80); (9, 101); (12, 122)].
Proof.
  split; [|repeat split]. split; [discriminate|]. split; [intros [|[|s]]; discriminate|]. intros s n j; cbn. destruct (Nat.eqb j 0) eqn:E; split; try discriminate; destruct j; try discriminate; cbn; lia.
Qed.
Example C08_progress_ex : exists q, r_full q 0 = true /\ r_idx q 0 = 0 /\ r_idx q 1 = 0 /\ r_full q 1 = false /\ started ex_p 0 ex_b 4 q 1 = true.
Proof. exists {| r_idx := fun s => if Nat.eqb s 2 then 2 else 0; r_full := fun s => Nat.eqb s 0; r_t := ex_t0 |}. repeat split. Qed.

(** * The first stage in a conditional. With a single state, nothing happens in the cycles where the branch is not taken. *)
Theorem C08_not_taken : forall (A : Type) (P : pipeline) fw (B : beh A) n (q : pst A), stages_ok P B ->
  o_dis B n = true -> r_full q 0 = false -> r_idx q 0 = p_last P 0 ->
  completes P B n q 0 = false /\ (started P fw B n q 0 = false -> r_idx (step P fw B n q) 0 = 0) /\ r_full (step P fw B n q) 0 = false.
Proof.
  intros A P fw B n q OK D Fu La. destruct (step_eq P fw B n q) as (F & F0 & F1 & F2 & F3 & _). destruct OK as (O1 & O2 & O3).
  assert (Il : in_last P q 0 = true) by (unfold in_last; rewrite La; apply Nat.eqb_refl).
  assert (Di : disabled B n 0 = true) by exact D.
  assert (St : stall P B n q 0 = false) by (unfold stall; rewrite Di, andb_false_r; reflexivity).
  assert (Cf : code_full P B n q 0 = false) by (unfold code_full; rewrite Di, andb_false_r; exact Fu).
  split; [unfold completes; now rewrite Cf, andb_false_r|]. split; [|now rewrite F3, Cf].
  intros Ns. rewrite F2. unfold started in Ns. rewrite F2 in Ns. unfold ready in Ns; rewrite Il, St in Ns. cbn [orb negb] in Ns; rewrite !andb_true_r in Ns.
  destruct (F 0); [rewrite Nat.eqb_refl in Ns; discriminate|]. unfold code_idx. rewrite Il, St. destruct (Nat.eqb (r_idx q 0) 0); reflexivity.
Qed.
Print Assumptions C08_not_taken.
Example C08_not_taken_ex : exists (P : pipeline) (B : beh nat) q, stages_ok P B /\ o_dis B 3 = true /\ r_full q 0 = false /\ r_idx q 0 = p_last P 0 /\ o_go B 3 = true /\ r_idx (step P 0 B 3 q) 0 = 1.
Proof.
  exists {| p_num := 2; p_entry := fun _ => 1; p_last := fun _ => 1 |},
    {| o_next := fun _ _ _ => 2; o_stall := fun _ _ => false; o_proc := fun _ _ _ a => a; o_src := fun n => n; o_go := fun _ => true; o_dis := fun _ => true |},
    {| r_idx := fun _ => 1; r_full := fun _ => false; r_t := fun _ => 0 |}.
  repeat split; discriminate.
Qed.

(** With several states it stays in its first state, and starts in a later cycle: an item goes through although the branch was not taken. The parent is in the state of the pipeline in
    cycle 1 only, where it takes the other branch. *)
Definition w_two : pipeline := {| p_num := 2; p_entry := fun _ => 1; p_last := fun s => if Nat.eqb s 0 then 2 else 1 |}.
Definition w_else : beh nat :=
  {| o_next := fun _ _ _ => 2; o_stall := fun _ _ => false; o_proc := fun _ _ _ a => a; o_src := fun n => n; o_go := fun n => Nat.eqb n 0; o_dis := fun n => Nat.eqb n 1 |}.
Theorem C08_branch_not_taken_refuted : exists (P : pipeline) (B : beh nat), stages_ok P B /\
  (forall n, o_go B n = true <-> S n = 1) /\ o_dis B 1 = true /\ (forall t0, left P 0 B t0 1 6 = [3]).
Proof.
  exists w_two, w_else. split; [|split; [|split; [reflexivity|intros; reflexivity]]].
  - split; [discriminate|]. split; [intros [|s]; discriminate|]. split; discriminate.
  - intros n; cbn; split; [intros H; apply Nat.eqb_eq in H; lia|intros H; apply Nat.eqb_eq; lia].
Qed.
Print Assumptions C08_branch_not_taken_refuted.

(** * A stalled first stage in a conditional ends up as soon as the branch is not taken: the item leaves although its stage has to wait. The first stage stalls in all the cycles where its code is executed. *)
Definition w_one : pipeline := {| p_num := 2; p_entry := fun _ => 1; p_last := fun _ => 1 |}.
Definition w_stall : beh nat :=
  {| o_next := fun _ _ _ => 2; o_stall := fun s _ => Nat.eqb s 0; o_proc := fun _ _ _ a => a; o_src := fun n => n; o_go := fun n => Nat.leb n 2; o_dis := fun n => Nat.eqb n 3 |}.
Theorem C08_stall_not_taken_refuted : exists (P : pipeline) (B : beh nat), stages_ok P B /\ (forall n, o_stall B 0 n = true) /\ (forall t0, left P 0 B t0 1 6 = [3]).
Proof. exists w_one, w_stall. split; [|split; reflexivity]. split; [discriminate|]. split; [intros; discriminate|]. split; discriminate. Qed.
Print Assumptions C08_stall_not_taken_refuted.

(** * A pipeline is not started by a parent which goes through its state while the first stage is busy: two activations, a single item. *)
Definition w_busy : beh nat :=
  {| o_next := fun _ _ _ => 2; o_stall := fun _ _ => false; o_proc := fun _ _ _ a => a; o_src := fun n => n; o_go := fun n => Nat.eqb n 0 || Nat.eqb n 1; o_dis := fun _ => false |}.
Theorem C08_activation_refuted : exists (P : pipeline) (B : beh nat), stages_ok P B /\ o_go B 0 = true /\ o_go B 1 = true /\ (forall n, o_dis B n = false) /\
  forall t0, length (left P 0 B t0 0 20) = 1 /\ drained P (run P 0 B t0 20) = true.
Proof.
  exists w_two, w_busy. split; [|split; [reflexivity|split; [reflexivity|split; [reflexivity|intros; split; vm_compute; reflexivity]]]].
  split; [discriminate|]. split; [intros [|s]; discriminate|]. split; discriminate.
Qed.
Print Assumptions C08_activation_refuted.

(** * A pipeline inside of a stage of another one is started right after reset, while that stage is idle (autorun is not yet high: the next state of any machine reads as its first state). *)
Definition w_nested (parent : nat -> nat) : beh nat :=
  {| o_next := fun _ _ _ => 2; o_stall := fun _ _ => false; o_proc := fun _ _ _ a => a; o_src := fun n => n;
     o_go := fun n => parent_active (negb (Nat.eqb n 0)) 1 (parent (S n)) 1; o_dis := fun _ => false |}.
Theorem C08_nested_refuted : exists (P : pipeline) (parent : nat -> nat), stages_ok P (w_nested parent) /\ (forall n, parent n = 0) /\
  (forall n, stage_edge (negb (Nat.eqb n 0)) 1 (parent (S n)) = parent (S n)) /\ forall t0, left P 0 (w_nested parent) t0 1 5 = [1].
Proof. exists w_one, (fun _ => 0). split; [|split; [reflexivity|split; reflexivity]]. split; [discriminate|]. split; [intros; discriminate|]. split; discriminate. Qed.
Print Assumptions C08_nested_refuted.

(** * C09: when done is high, all that left the first stage has left the last one, and nothing is left in the pipelines. *)
Theorem C09_done : forall (A T : Type) auto autorun root (pips : list (pipeline * nat * beh A * (nat -> A))) n (tag : A -> T),
  done_signal auto autorun root (map (fun p => let '(P, fw, B, t0) := p in (P, run P fw B t0 n)) pips) = true ->
  root = 0 /\
  forall P fw B t0, In (P, fw, B, t0) pips -> stages_ok P B -> keeps B tag ->
    (forall s, s < p_num P -> r_idx (run P fw B t0 n) s = 0) /\
    (forall s, fw <= s -> s < p_num P -> map tag (left P fw B t0 s n) = map tag (left P fw B t0 fw n)) /\
    (forall s, fw < s -> s < p_num P -> map tag (entered P fw B t0 s n) = map tag (left P fw B t0 fw n)).
Proof.
  intros A T auto autorun root pips n tag D. unfold done_signal in D. apply andb_true_iff in D as [D D2]. apply andb_true_iff in D as [D D1].
  split; [now apply Nat.eqb_eq|]. intros P fw B t0 Hin OK K. rewrite forallb_forall in D2.
  assert (Dr : drained P (run P fw B t0 n) = true) by (apply (D2 (P, run P fw B t0 n)), in_map_iff; exists (P, fw, B, t0); auto).
  pose proof (drained_empty P fw B t0 n Dr) as Em.
  assert (Al : forall s, fw <= s -> s < p_num P -> map tag (left P fw B t0 s n) = map tag (left P fw B t0 fw n)).
  { intros s L1 L2. replace s with (fw + (s - fw)) by lia. rewrite (across P fw B OK tag t0 n K (s - fw) fw) by lia. rewrite (drained_between P _ Dr) by lia. now rewrite app_nil_r. }
  repeat split; [intros s L; now destruct (Em s L)|assumption|].
  intros s L1 L2. rewrite (C08_stage A T P fw B tag t0 s n OK K L1 L2). destruct (Em s L2) as [Z _]. rewrite Z, Nat.eqb_refl, app_nil_r. apply Al; lia.
Qed.
Print Assumptions C09_done.

(** It stays so while no item is fed. *)
Theorem C09_stays : forall (A : Type) (P : pipeline) fw (B : beh A) t0 n, stages_ok P B ->
  drained P (run P fw B t0 n) = true -> o_go B n = false -> drained P (run P fw B t0 (S n)) = true.
Proof. intros A P fw B t0 n OK. exact (drained_step P fw B OK t0 n). Qed.
Print Assumptions C09_stays.

(** And it happens, when no item is fed any more and each stage reaches its last state without stalling for ever. *)
Definition advances {A : Type} (P : pipeline) fw (B : beh A) t0 : Prop := forall s m, exists m', m <= m' /\
  (r_idx (run P fw B t0 m') s = 0 \/ (r_idx (run P fw B t0 m') s = p_last P s /\ o_stall B s m' = false)).
Theorem C09_eventually : forall (A : Type) (P : pipeline) fw (B : beh A) t0 m, stages_ok P B -> advances P fw B t0 -> (forall n, m <= n -> o_go B n = false) ->
  exists m', m <= m' /\ forall n, m' <= n -> drained P (run P fw B t0 n) = true.
Proof.
  intros A P fw B t0 m OK Ad G. destruct (drains P fw B OK t0) with (m := m) (k := p_num P) as (m' & L & H); [|assumption|lia|].
  - intros s k. destruct (Ad s k) as (k' & L & [Z|[La St]]); exists k'; (split; [assumption|]); [now left|right]. unfold in_last, stall; rewrite La, Nat.eqb_refl, St. split; [reflexivity|]. now rewrite andb_false_r.
  - exists m'; split; [assumption|]. intros n Ln. apply (empty_drained P fw B t0). intros s Ls. now apply H.
Qed.
Print Assumptions C09_eventually.

(** A pipeline fed twice, with a stage in two states, then drained. *)
Example C09_ex : done_signal true true 0 [(w_two, run w_two 0 w_busy (fun _ => 0) 3)] = false /\
                 done_signal true true 0 [(w_two, run w_two 0 w_busy (fun _ => 0) 4)] = true /\ left w_two 0 w_busy (fun _ => 0) 1 4 = [2].
Proof. vm_compute. auto. Qed.
Example C09_eventually_ex : advances w_two 0 w_busy (fun _ => 0) /\ forall n, 2 <= n -> o_go w_busy n = false.
Proof.
  assert (OK : stages_ok w_two w_busy) by (split; [discriminate|]; split; [intros [|s]; discriminate|]; split; discriminate).
  assert (G : forall n, 2 <= n -> o_go w_busy n = false) by (intros [|[|n]] H; [lia|lia|reflexivity]).
  split; [|exact G]. assert (D : forall k, drained w_two (run w_two 0 w_busy (fun _ => 0) (5 + k)) = true).
  { induction k as [|k IH]; [reflexivity|]. rewrite Nat.add_succ_r. apply C09_stays; [exact OK|exact IH|apply G; lia]. }
  intros s m. exists (5 + m). split; [lia|]. left. destruct (le_lt_dec 2 s) as [Ls|Ls].
  - assert (Q : forall n, r_idx (run w_two 0 w_busy (fun _ => 0) n) s = 0); [|apply Q]. induction n as [|n IH]; [reflexivity|]. cbn [run].
    destruct (step_eq w_two 0 w_busy n (run w_two 0 w_busy (fun _ => 0) n)) as (F & F0 & _ & F2 & _). rewrite F2, F0 by exact Ls. now apply idle_idx.
  - now apply (drained_empty w_two 0 w_busy (fun _ => 0) _ (D m)).
Qed.
