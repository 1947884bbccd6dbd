(** Facts about pipelines with one cycle per stage. *)
From Coq Require Import List Bool Arith ZArith Lia.
Import ListNotations.
From Verif Require Import FsmModel FsmRun RegProps PipeModel.

Fixpoint pst_ind2 (P : pst -> Prop) (ha : forall x e, P (PAssign x e)) (hi : forall e l1 l2, Forall P l1 -> Forall P l2 -> P (PIf e l1 l2)) (p : pst) : P p :=
  match p with
  | PAssign x e => ha x e
  | PIf e l1 l2 =>
      let all := fix all (l : list pst) : Forall P l := match l with [] => Forall_nil P | a :: r => @Forall_cons _ P a r (pst_ind2 P ha hi a) (all r) end in
      hi e l1 l2 (all l1) (all l2)
  end.

(** * Meaning of a stage: a sequential program. *)
Fixpoint pexec1 (p : pst) (s : store) : store :=
  match p with
  | PAssign x e => upd s x (eval s e)
  | PIf e l1 l2 =>
      let go := fix go (l : list pst) (s : store) := match l with [] => s | p :: r => go r (pexec1 p s) end in
      if truth (eval s e) then go l1 s else go l2 s
  end.
Fixpoint pexec (l : stage) (s : store) : store := match l with [] => s | p :: r => pexec r (pexec1 p s) end.
Lemma pexec_if e l1 l2 s : pexec1 (PIf e l1 l2) s = if truth (eval s e) then pexec l1 s else pexec l2 s.
Proof.
  cbn [pexec1]. assert (G : forall l s, (fix go (l : list pst) (s : store) := match l with [] => s | p :: r => go r (pexec1 p s) end) l s = pexec l s).
  { intros l; induction l as [|p r IH]; intros; cbn [pexec]; [reflexivity|apply IH]. }
  now rewrite !G.
Qed.
Lemma code_if n Q e l1 l2 s : code1 n Q (PIf e l1 l2) s =
  (fst (if truth (eval (side n Q (fst s) (snd s)) e) then code n Q l1 s else code n Q l2 s), snd (code n Q l1 s) ++ snd (code n Q l2 s)).
Proof.
  cbn [code1]. assert (G : forall l s, (fix go (l : list pst) (s : nstore * list name) := match l with [] => s | p :: r => go r (code1 n Q p s) end) l s = code n Q l s).
  { intros l; induction l as [|p r IH]; intros; cbn [code]; [reflexivity|apply IH]. }
  now rewrite !G.
Qed.
(** Assigned whatever the branches taken. *)
Fixpoint sure1 (x : var) (p : pst) : bool :=
  match p with PAssign y _ => Nat.eqb x y | PIf _ l1 l2 => existsb (sure1 x) l1 && existsb (sure1 x) l2 end.
Definition sure (x : var) (l : stage) : bool := existsb (sure1 x) l.

Lemma name_eqb_spec a b : reflect (a = b) (name_eqb a b).
Proof.
  destruct a as [x|x s], b as [y|y t]; cbn [name_eqb]; try (constructor; discriminate).
  - destruct (Nat.eqb_spec x y); constructor; congruence.
  - destruct (Nat.eqb_spec x y), (Nat.eqb_spec s t); cbn; constructor; congruence.
Qed.
Lemma nupd_eq d a v : nupd d a v a = v.
Proof. unfold nupd. destruct (name_eqb_spec a a); congruence. Qed.
Lemma nupd_ne d a b v : b <> a -> nupd d a v b = d b.
Proof. unfold nupd. destruct (name_eqb_spec b a); congruence. Qed.
Lemma nmem_in a l : nmem a l = true <-> In a l.
Proof.
  unfold nmem. rewrite existsb_exists. split.
  - intros (b & I & E). destruct (name_eqb_spec a b); congruence.
  - intros I. exists a. split; [exact I|]. now destruct (name_eqb_spec a a).
Qed.
Lemma nmem_cons a b l : nmem a (b :: l) = name_eqb a b || nmem a l.
Proof. reflexivity. Qed.
Lemma nmem_app a l r : nmem a (l ++ r) = nmem a l || nmem a r.
Proof. unfold nmem. apply existsb_app. Qed.

(** * The code of a stage computes the meaning of the stage. *)
Section Stage.
  Variables (n : var -> name) (Q : nstore) (R : var -> Prop).
  Hypothesis inj : forall x y, n x = n y -> x = y.
  (** [R]: the variables that the stage reads; [P]: the variables whose d side is known. *)
  Definition tracks (P : var -> Prop) (s : nstore * list name) (t : store) : Prop :=
    (forall x, R x -> side n Q (fst s) (snd s) x = t x) /\ (forall x, P x -> fst s (n x) = t x).
  Lemma eval_side e s t P : tracks P s t -> (forall x, In x (evars e) -> R x) -> eval (side n Q (fst s) (snd s)) e = eval t e.
  Proof. intros [H _] I. apply eval_agree. intros x X. apply H, I, X. Qed.
  Lemma tracks_weak (P P' : var -> Prop) s t : (forall x, P' x -> P x) -> tracks P s t -> tracks P' s t.
  Proof. intros H [A B]. split; [exact A|]. intros x X. apply B, H, X. Qed.
  Definition good (p : pst) : Prop := forall (P : var -> Prop) s t, (forall x, In x (preads1 p) -> R x) -> (forall x, R x -> P x) -> tracks P s t ->
    tracks (fun x => P x \/ sure1 x p = true) (code1 n Q p s) (pexec1 p t) /\ incl (snd s) (snd (code1 n Q p s)).
  Lemma code_good l : Forall good l -> forall (P : var -> Prop) s t, (forall x, In x (preads l) -> R x) -> (forall x, R x -> P x) -> tracks P s t ->
    tracks (fun x => P x \/ sure x l = true) (code n Q l s) (pexec l t) /\ incl (snd s) (snd (code n Q l s)).
  Proof.
    intros F. induction F as [|p r G _ IH]; intros P s t I RP T; cbn [code pexec].
    - split; [|apply incl_refl]. apply (tracks_weak P); [|exact T]. intros x [H|H]; [exact H|discriminate].
    - destruct (G P s t) as [T1 L1]; auto.
      { intros x X. apply I. cbn. apply in_or_app. now left. }
      destruct (IH _ _ _ (fun x X => I x ltac:(cbn; apply in_or_app; now right)) (fun x X => or_introl (RP x X)) T1) as [T2 L2].
      split; [|eapply incl_tran; eassumption].
      eapply tracks_weak; [|exact T2]. intros x [H|H]; [tauto|]. cbn in H. apply orb_true_iff in H. tauto.
  Qed.
  Lemma all_good p : good p.
  Proof.
    induction p as [x e|e l1 l2 F1 F2] using pst_ind2; intros P s t I RP T.
    - cbn [code1 pexec1 fst snd sure1]. rewrite (eval_side e s t P T) by (intros y Y; apply I, Y). split; [|now right].
      assert (E : forall y, P y \/ y = x -> nupd (fst s) (n x) (eval t e) (n y) = upd t x (eval t e) y).
      { intros y H. unfold upd. destruct (Nat.eqb_spec y x) as [->|N]; [apply nupd_eq|].
        rewrite nupd_ne by (intros Y; apply N, inj, Y). destruct T as [_ T]. apply T. tauto. }
      split.
      + intros y Y. unfold side. cbn [fst snd]. rewrite nmem_cons. destruct (name_eqb_spec (n y) (n x)) as [Z|Z]; cbn [orb].
        * apply E. right. apply inj, Z.
        * destruct (nmem (n y) (snd s)) eqn:M; [apply E; left; apply RP, Y|].
          unfold upd. destruct (Nat.eqb_spec y x) as [->|N]; [contradiction|]. destruct T as [T _]. specialize (T y Y). unfold side in T. now rewrite M in T.
      + intros y [Y|Y]; apply E; [now left|]. right. now apply Nat.eqb_eq in Y.
    - rewrite code_if, pexec_if, (eval_side e s t P T) by (intros y Y; apply I; cbn; apply in_or_app; now left).
      assert (I1 : forall x, In x (preads l1) -> R x) by (intros x X; apply I; cbn; rewrite !in_app_iff; tauto).
      assert (I2 : forall x, In x (preads l2) -> R x) by (intros x X; apply I; cbn; rewrite !in_app_iff; tauto).
      destruct (code_good l1 F1 P s t I1 RP T) as [T1 L1], (code_good l2 F2 P s t I2 RP T) as [T2 L2].
      cbn [fst snd]. split; [|intros a A; apply in_or_app; left; apply L1, A].
      assert (G : forall l l' s' s1 s2, tracks (fun x => P x \/ sure x l = true) s' (pexec l t) -> incl (snd s) (snd s') -> incl (snd s') (s1 ++ s2) ->
                  (forall x, sure x l && sure x l' = true -> sure x l = true) ->
                  tracks (fun x => P x \/ sure x l && sure x l' = true) (fst s', s1 ++ s2) (pexec l t)).
      { intros l l' s' s1 s2 [A B] L L' _. split.
        - intros x X. unfold side. cbn [fst snd]. destruct (nmem (n x) (s1 ++ s2)) eqn:M.
          + apply B. left. apply RP, X.
          + specialize (A x X). unfold side in A. destruct (nmem (n x) (snd s')) eqn:M'; [|exact A].
            exfalso. apply nmem_in in M'. apply L' in M'. apply nmem_in in M'. congruence.
        - intros x [X|X]; cbn [fst]; apply B; [now left|]. apply andb_true_iff in X. tauto. }
      destruct (truth (eval t e)).
      + apply G; auto; [apply incl_appl, incl_refl|]. intros x X. apply andb_true_iff in X. tauto.
      + eapply tracks_weak; [|apply (G l2 l1); auto; [apply incl_appr, incl_refl|intros x X; apply andb_true_iff in X; tauto]].
        intros x [X|X]; [now left|]. right. rewrite andb_comm. exact X.
  Qed.
  Lemma code_meaning l (P : var -> Prop) s t : (forall x, In x (preads l) -> R x) -> (forall x, R x -> P x) -> tracks P s t ->
    forall x, P x \/ sure x l = true -> fst (code n Q l s) (n x) = pexec l t x.
  Proof. intros I RP T. apply (code_good l (proj2 (Forall_forall _ _) (fun p _ => all_good p)) P s t I RP T). Qed.
End Stage.

(** Names not written are left unchanged. *)
Definition frames1 (p : pst) : Prop := forall n Q s a, ~ In a (map n (pwrites1 p)) -> fst (code1 n Q p s) a = fst s a.
Lemma code_frame_l l : Forall frames1 l -> forall n Q s a, ~ In a (map n (pwrites l)) -> fst (code n Q l s) a = fst s a.
Proof.
  intros F. induction F as [|p r G _ IH]; intros n Q s a N; cbn [code]; [reflexivity|]. cbn in N. rewrite map_app, in_app_iff in N.
  rewrite IH by tauto. apply G. tauto.
Qed.
Lemma frames_all p : frames1 p.
Proof.
  induction p as [x e|e l1 l2 F1 F2] using pst_ind2; intros n Q s a N.
  - cbn [code1 fst]. apply nupd_ne. intros ->. apply N. cbn. now left.
  - rewrite code_if. cbn [fst]. cbn in N. rewrite map_app, in_app_iff in N.
    destruct (truth _); apply code_frame_l; auto; tauto.
Qed.
Lemma code_frame l n Q s a : ~ In a (map n (pwrites l)) -> fst (code n Q l s) a = fst s a.
Proof. apply code_frame_l, Forall_forall. intros; apply frames_all. Qed.

(** * First write, last read. *)
Lemma in_stages {St} (acc : St -> list var) ps x s : In s (stages_with acc ps x) <-> exists p, nth_error ps s = Some p /\ In x (acc p).
Proof.
  unfold stages_with. rewrite in_map_iff. split.
  - intros ([k p] & E & I). cbn in E. subst k. apply filter_In in I. destruct I as [I M]. cbn in M. exists p. split; [|now apply memb_in].
    assert (G : forall b, In (s, p) (combine (seq b (length ps)) ps) -> b <= s /\ nth_error ps (s - b) = Some p).
    { clear. induction ps as [|q r IH]; intros b I; [destruct I|]. cbn in I. destruct I as [E|I].
      - injection E as -> ->. split; [lia|]. now rewrite Nat.sub_diag.
      - destruct (IH (S b) I) as [L E]. split; [lia|]. replace (s - b) with (S (s - S b)) by lia. exact E. }
    destruct (G 0 I) as [_ E]. now rewrite Nat.sub_0_r in E.
  - intros (p & E & I). exists (s, p). split; [reflexivity|]. apply filter_In. split; [|cbn; now apply memb_in].
    assert (G : forall b, nth_error ps s = Some p -> In (b + s, p) (combine (seq b (length ps)) ps)).
    { clear. revert s. induction ps as [|q r IH]; intros s b E; [destruct s; discriminate|]. destruct s as [|s]; cbn in E.
      - injection E as ->. rewrite Nat.add_0_r. now left.
      - right. replace (b + S s) with (S b + s) by lia. apply IH, E. }
    apply (G 0 E).
Qed.
Lemma hd_stages {St} (acc : St -> list var) ps x s : hd_error (stages_with acc ps x) = Some s <->
  In s (stages_with acc ps x) /\ forall t, In t (stages_with acc ps x) -> s <= t.
Proof.
  unfold stages_with. generalize 0 as b. induction ps as [|q r IH]; intros b; cbn [length seq combine filter map hd_error].
  - split; [discriminate|]. intros [[] _].
  - assert (L : forall t b, In t (map fst (filter (fun sp : nat * St => memb x (acc (snd sp))) (combine (seq b (length r)) r))) -> b <= t).
    { clear. intros t b I. apply in_map_iff in I. destruct I as ([k p] & <- & I). apply filter_In in I. destruct I as [I _].
      apply in_combine_l in I. apply in_seq in I. cbn. lia. }
    cbn [snd]. destruct (memb x (acc q)); cbn [map hd_error fst]; [|apply IH]. split.
    + intros E. injection E as <-. split; [now left|]. intros t [->|I]; [lia|]. apply L in I. lia.
    + intros [[->|I] H]; [reflexivity|]. specialize (H b (or_introl eq_refl)). apply L in I. lia.
Qed.
Lemma last_stages {St} (acc : St -> list var) ps x s : hd_error (rev (stages_with acc ps x)) = Some s <->
  In s (stages_with acc ps x) /\ forall t, In t (stages_with acc ps x) -> t <= s.
Proof.
  assert (U : forall l : list nat, (forall i j a b, i < j -> nth_error l i = Some a -> nth_error l j = Some b -> a < b) ->
              (hd_error (rev l) = Some s <-> In s l /\ forall t, In t l -> t <= s)).
  { intros l. induction l as [|a l IH] using rev_ind; intros H.
    - cbn. split; [discriminate|]. intros [[] _].
    - rewrite rev_app_distr. cbn [rev app hd_error].
      assert (M : forall t, In t l -> t < a).
      { intros t I. apply In_nth_error in I. destruct I as [i E]. apply (H i (length l)).
        - apply nth_error_Some. congruence.
        - rewrite nth_error_app1; [exact E|]. apply nth_error_Some. congruence.
        - rewrite nth_error_app2, Nat.sub_diag by lia. reflexivity. }
      split.
      + intros E. injection E as ->. split; [apply in_or_app; right; now left|]. intros t I. apply in_app_or in I.
        destruct I as [I|[->|[]]]; [|lia]. specialize (M t I). lia.
      + intros [I K]. apply in_app_or in I. destruct I as [I|[->|[]]]; [|reflexivity].
        specialize (K a ltac:(apply in_or_app; right; now left)). specialize (M s I). lia. }
  apply U. unfold stages_with. generalize 0 as b. induction ps as [|q r IH]; intros b i j a c L A C; cbn [length seq combine filter map] in A, C.
  { destruct i; discriminate. }
  cbn [snd] in A, C. destruct (memb x (acc q)); cbn [map] in A, C; [|apply (IH (S b) i j); assumption].
  destruct i as [|i], j as [|j]; cbn in A, C; try lia.
  - injection A as <-. apply nth_error_In in C. apply in_map_iff in C. destruct C as ([k p] & <- & I). apply filter_In in I. destruct I as [I _].
    apply in_combine_l in I. apply in_seq in I. cbn. lia.
  - apply (IH (S b) i j); auto. lia.
Qed.

Definition reads_at (ps : list stage) (s : nat) (x : var) : Prop := exists p, nth_error ps s = Some p /\ In x (preads p).
Definition writes_at (ps : list stage) (s : nat) (x : var) : Prop := exists p, nth_error ps s = Some p /\ In x (pwrites p).
Lemma trickle_some ps x fw lr : trickle ps x = Some (fw, lr) <->
  fw < lr /\ writes_at ps fw x /\ (forall s, writes_at ps s x -> fw <= s) /\ reads_at ps lr x /\ (forall s, reads_at ps s x -> s <= lr).
Proof.
  unfold trickle, reads_at, writes_at. split.
  - destruct (first_write ps x) as [f|] eqn:F; [|discriminate]. destruct (last_read ps x) as [l|] eqn:L; [|discriminate].
    destruct (Nat.ltb_spec f l); [|discriminate]. intros E. injection E as <- <-. apply hd_stages in F. apply last_stages in L.
    destruct F as [F1 F2], L as [L1 L2]. repeat split; auto; try (now apply in_stages); intros s S; [apply F2|apply L2]; now apply in_stages.
  - intros (H & W & Wm & R & Rm). assert (F : first_write ps x = Some fw).
    { apply hd_stages. split; [now apply in_stages|]. intros t I. apply Wm. now apply in_stages in I. }
    assert (L : last_read ps x = Some lr).
    { apply last_stages. split; [now apply in_stages|]. intros t I. apply Rm. now apply in_stages in I. }
    rewrite F, L. now rewrite (proj2 (Nat.ltb_lt _ _) H).
Qed.
Lemma trickle_exists ps x s1 s2 : writes_at ps s1 x -> reads_at ps s2 x -> s1 < s2 -> exists fw lr, trickle ps x = Some (fw, lr) /\ fw <= s1 /\ s2 <= lr.
Proof.
  intros W R L. apply in_stages in W, R. unfold trickle.
  destruct (first_write ps x) as [f|] eqn:F.
  2:{ unfold first_write in F. destruct (stages_with pwrites ps x); [destruct W|discriminate]. }
  destruct (last_read ps x) as [l|] eqn:E.
  2:{ unfold last_read in E. rewrite <- (rev_involutive (stages_with preads ps x)) in R. destruct (rev (stages_with preads ps x)); [destruct R|discriminate]. }
  apply hd_stages in F. apply last_stages in E. destruct F as [_ F], E as [_ E]. specialize (F s1 W). specialize (E s2 R).
  destruct (Nat.ltb_spec f l); [|lia]. exists f, l. auto.
Qed.

(** * All the stages, in one cycle. *)
Lemma capture_fold ps s vars D a : fold_left (capture ps s) vars D a =
  match a with
  | V x => D (V x)
  | T x t => match trickle ps x with Some (fw, _) => if Nat.eqb t s && Nat.eqb s fw && memb x vars then D (V x) else D a | None => D a end
  end.
Proof.
  assert (CV : forall D y x, capture ps s D y (V x) = D (V x)).
  { intros E y x. unfold capture. destruct (trickle ps y) as [[fw lr]|]; [|reflexivity]. destruct (Nat.eqb s fw); [|reflexivity]. apply nupd_ne. discriminate. }
  revert D. induction vars as [|y r IH]; intros D; cbn [fold_left].
  - destruct a as [x|x t]; [reflexivity|]. destruct (trickle ps x) as [[fw lr]|]; [|reflexivity]. cbn [memb existsb]. now rewrite andb_false_r.
  - rewrite IH. destruct a as [x|x t]; [apply CV|]. cbn [memb existsb].
    destruct (trickle ps x) as [[fw lr]|] eqn:E.
    + rewrite CV. destruct (Nat.eqb_spec t s) as [->|N]; cbn [andb].
      * destruct (Nat.eqb_spec s fw) as [->|N]; cbn [andb].
        -- change (existsb (Nat.eqb x) r) with (memb x r). destruct (memb x r); [now rewrite orb_true_r|]. rewrite orb_false_r. destruct (Nat.eqb_spec x y) as [->|N].
           ++ unfold capture. rewrite E, Nat.eqb_refl. apply nupd_eq.
           ++ unfold capture. destruct (trickle ps y) as [[fw' lr']|]; [|reflexivity]. destruct (Nat.eqb fw fw'); [|reflexivity]. apply nupd_ne. congruence.
        -- unfold capture. destruct (trickle ps y) as [[fw' lr']|] eqn:E'; [|reflexivity]. destruct (Nat.eqb_spec s fw'); [|reflexivity]. apply nupd_ne.
           intros H. injection H as ->. congruence.
      * unfold capture. destruct (trickle ps y) as [[fw' lr']|] eqn:E'; [|reflexivity]. destruct (Nat.eqb_spec s fw'); [|reflexivity]. apply nupd_ne. congruence.
    + unfold capture. destruct (trickle ps y) as [[fw' lr']|] eqn:E'; [|reflexivity]. destruct (Nat.eqb_spec s fw'); [|reflexivity]. apply nupd_ne.
      intros H. injection H as ->. congruence.
Qed.

Section Cycle.
  Variables (ps : list stage) (vars : list var) (Q B : nstore) (deps : list name).
  Hypothesis HV : forall x s, writes_at ps s x -> In x vars.
  Hypothesis Bdeps : forall x, ~ In (V x) deps -> B (V x) = Q (V x).
  Hypothesis BT : forall x s, B (T x s) = Q (T x s).
  Hypothesis dT : forall x s, ~ In (T x s) deps.

  Fixpoint dst (k : nat) : nstore :=
    match k with O => B | S s => fold_left (capture ps s) vars (fst (code (tr ps s) Q (nth s ps []) (dst s, deps))) end.
  Lemma write_dst : write_stages ps vars Q deps 0 ps B = dst (length ps).
  Proof.
    assert (G : forall l s, s + length l = length ps -> (forall i, nth i l [] = nth (s + i) ps []) -> write_stages ps vars Q deps s l (dst s) = dst (length ps)).
    { intros l. induction l as [|p r IH]; intros s L N; cbn [write_stages].
      - cbn in L. now rewrite Nat.add_0_r in L; subst.
      - pose proof (N 0) as N0. cbn [nth] in N0. rewrite Nat.add_0_r in N0. rewrite N0.
        change (fold_left (capture ps s) vars (fst (code (tr ps s) Q (nth s ps []) (dst s, deps)))) with (dst (S s)). apply IH.
        + cbn in L. lia.
        + intros i. specialize (N (S i)). cbn [nth] in N. rewrite N. f_equal. lia. }
    apply (G ps 0); auto.
  Qed.
  Lemma tr_cases s x : tr ps s x = V x \/ tr ps s x = T x s.
  Proof. unfold tr. destruct (trickle ps x) as [[fw lr]|]; [destruct (fw <? s)|]; auto. Qed.
  Lemma tr_inj s x y : tr ps s x = tr ps s y -> x = y.
  Proof. destruct (tr_cases s x) as [-> | ->], (tr_cases s y) as [-> | ->]; congruence. Qed.
  Lemma nth_writes s x : In x (pwrites (nth s ps [])) -> writes_at ps s x.
  Proof.
    intros I. exists (nth s ps []). split; [|exact I]. destruct (Nat.ltb_spec s (length ps)) as [L|L]; [now apply nth_error_nth'|].
    rewrite nth_overflow in I by lia. destruct I.
  Qed.
  Lemma nth_reads s x : In x (preads (nth s ps [])) -> reads_at ps s x.
  Proof.
    intros I. exists (nth s ps []). split; [|exact I]. destruct (Nat.ltb_spec s (length ps)) as [L|L]; [now apply nth_error_nth'|].
    rewrite nth_overflow in I by lia. destruct I.
  Qed.
  (** Registers of the following stages are untouched. *)
  Lemma dst_T s x t : s <= t -> dst s (T x t) = Q (T x t).
  Proof.
    induction s as [|s IH]; intros L; cbn [dst]; [apply BT|]. rewrite capture_fold.
    assert (E : fst (code (tr ps s) Q (nth s ps []) (dst s, deps)) (T x t) = dst s (T x t)).
    { apply code_frame. intros I. apply in_map_iff in I. destruct I as (y & E & _). destruct (tr_cases s y) as [E'|E']; rewrite E' in E; [discriminate|].
      injection E as -> ->. lia. }
    rewrite E, IH by lia. destruct (trickle ps x) as [[fw lr]|]; [|reflexivity]. destruct (Nat.eqb_spec t s); [lia|]. reflexivity.
  Qed.
  Lemma dst_T_keep t x s : S t <= s -> dst s (T x t) = dst (S t) (T x t).
  Proof.
    intros L. induction L as [|s L IH]; [reflexivity|]. cbn [dst]. rewrite capture_fold.
    assert (E : fst (code (tr ps s) Q (nth s ps []) (dst s, deps)) (T x t) = dst s (T x t)).
    { apply code_frame. intros I. apply in_map_iff in I. destruct I as (y & E & _). destruct (tr_cases s y) as [E'|E']; rewrite E' in E; [discriminate|].
      injection E as -> ->. lia. }
    rewrite E, IH. destruct (trickle ps x) as [[fw lr]|]; [|reflexivity]. destruct (Nat.eqb_spec t s); [lia|]. reflexivity.
  Qed.
  Lemma dst_V_step s x : (writes_at ps s x -> tr ps s x <> V x) -> dst (S s) (V x) = dst s (V x).
  Proof.
    intros H. cbn [dst]. rewrite capture_fold. apply (code_frame _ _ _ (dst s, deps)). intros I. apply in_map_iff in I. destruct I as (y & E & I).
    destruct (tr_cases s y) as [E'|E']; rewrite E' in E; [|discriminate]. injection E as ->. apply H; [apply nth_writes, I|exact E'].
  Qed.
  Lemma dst_V_keep s x k : s <= k -> (forall j, s <= j < k -> writes_at ps j x -> tr ps j x <> V x) -> dst k (V x) = dst s (V x).
  Proof.
    intros L. induction L as [|k L IH]; intros H; [reflexivity|]. rewrite dst_V_step, IH; [reflexivity| |].
    - intros j J. apply H. lia.
    - apply H. lia.
  Qed.
  (** The values a stage works on. *)
  Definition view (s : nat) : store := fun x => match tr ps s x with V _ => B (V x) | T _ _ => Q (T x s) end.
  Lemma stage_meaning s x :
    tr ps s x = T x s \/ (forall k, k < s -> ~ writes_at ps k x) \/ sure x (nth s ps []) = true ->
    fst (code (tr ps s) Q (nth s ps []) (dst s, deps)) (tr ps s x) = pexec (nth s ps []) (view s) x.
  Proof.
    intros H.
    assert (K : forall y, tr ps s y = T y s \/ (forall k, k < s -> ~ writes_at ps k y) -> dst s (tr ps s y) = view s y).
    { intros y Y. unfold view. destruct (tr_cases s y) as [E|E]; rewrite E.
      - destruct Y as [Y|Y]; [congruence|]. rewrite (dst_V_keep 0 y s); [reflexivity|lia|]. intros j J W. exfalso. apply (Y j); [lia|exact W].
      - apply dst_T. lia. }
    apply (code_meaning (tr ps s) Q (fun y => In y (preads (nth s ps []))) (tr_inj s) (nth s ps [])
             (fun y => tr ps s y = T y s \/ (forall k, k < s -> ~ writes_at ps k y)) (dst s, deps) (view s)).
    - intros y Y. exact Y.
    - intros y Y. destruct (tr_cases s y) as [E|E]; [|now left]. right. intros k L W.
      destruct (trickle_exists ps y k s W (nth_reads s y Y) L) as (fw & lr & Tk & L1 & L2).
      unfold tr in E. rewrite Tk in E. destruct (Nat.ltb_spec fw s); [discriminate|lia].
    - split; [|intros y Y; apply K, Y]. intros y Y. unfold side. cbn [fst snd].
      assert (P : tr ps s y = T y s \/ (forall k, k < s -> ~ writes_at ps k y)).
      { destruct (tr_cases s y) as [E|E]; [|now left]. right. intros k L W.
        destruct (trickle_exists ps y k s W (nth_reads s y Y) L) as (fw & lr & Tk & L1 & L2).
        unfold tr in E. rewrite Tk in E. destruct (Nat.ltb_spec fw s); [discriminate|lia]. }
      destruct (nmem (tr ps s y) deps) eqn:M; [apply K, P|].
      assert (N : ~ In (tr ps s y) deps) by (intros I; apply nmem_in in I; congruence).
      unfold view. destruct (tr_cases s y) as [E|E]; rewrite E in *; [|reflexivity]. symmetry. apply Bdeps, N.
    - tauto.
  Qed.
  (** What a stage leaves. *)
  Lemma stage_T s x fw lr : trickle ps x = Some (fw, lr) -> fw <= s -> s < length ps -> dst (length ps) (T x s) = pexec (nth s ps []) (view s) x.
  Proof.
    intros E F L. rewrite dst_T_keep by lia. cbn [dst]. rewrite capture_fold, E.
    destruct (Nat.eq_dec s fw) as [->|N].
    - rewrite Nat.eqb_refl. apply trickle_some in E as E'. destruct E' as (_ & W & Wm & _).
      rewrite (proj2 (memb_in _ _) (HV x fw W)). cbn [andb].
      assert (Tr : tr ps fw x = V x). { unfold tr. rewrite E. now destruct (Nat.ltb_spec fw fw); [lia|]. }
      rewrite <- Tr at 1. apply stage_meaning. right. left. intros k K W'. specialize (Wm k W'). lia.
    - rewrite Nat.eqb_refl. destruct (Nat.eqb_spec s fw); [contradiction|]. cbn [andb].
      assert (Tr : tr ps s x = T x s). { unfold tr. rewrite E. now destruct (Nat.ltb_spec fw s); [|lia]. }
      rewrite <- Tr at 1. apply stage_meaning. now left.
  Qed.
  Lemma stage_V s x : tr ps s x = V x -> s < length ps -> (forall k, s < k -> writes_at ps k x -> tr ps k x <> V x) ->
    (sure x (nth s ps []) = true \/ forall k, k < s -> ~ writes_at ps k x) -> dst (length ps) (V x) = pexec (nth s ps []) (view s) x.
  Proof.
    intros Tr L N H. rewrite (dst_V_keep (S s)); [|lia|intros j J; apply N; lia]. cbn [dst]. rewrite capture_fold.
    rewrite <- Tr at 1. apply stage_meaning. tauto.
  Qed.
End Cycle.

(** * Sequential programs depend on what they read. *)
Definition agrees1 (p : pst) : Prop := forall (P : var -> Prop) t1 t2, (forall x, In x (preads1 p) -> P x) -> (forall x, P x -> t1 x = t2 x) ->
  forall x, P x \/ sure1 x p = true -> pexec1 p t1 x = pexec1 p t2 x.
Lemma pexec_agree_l l : Forall agrees1 l -> forall (P : var -> Prop) t1 t2, (forall x, In x (preads l) -> P x) -> (forall x, P x -> t1 x = t2 x) ->
  forall x, P x \/ sure x l = true -> pexec l t1 x = pexec l t2 x.
Proof.
  intros F. induction F as [|p r G _ IH]; intros P t1 t2 R A x X; cbn [pexec].
  - destruct X as [X|X]; [auto|discriminate].
  - apply (IH (fun y => P y \/ sure1 y p = true)).
    + intros y Y. left. apply R. cbn. apply in_or_app. now right.
    + apply (G P); [|exact A]. intros y Y. apply R. cbn. apply in_or_app. now left.
    + cbn in X. rewrite orb_true_iff in X. tauto.
Qed.
Lemma agrees_all p : agrees1 p.
Proof.
  induction p as [x e|e l1 l2 F1 F2] using pst_ind2; intros P t1 t2 R A y Y.
  - cbn [pexec1]. unfold upd. destruct (Nat.eqb_spec y x) as [->|N].
    + apply eval_agree. intros z Z. apply A, R, Z.
    + apply A. destruct Y as [Y|Y]; [exact Y|]. cbn in Y. apply Nat.eqb_eq in Y. contradiction.
  - rewrite !pexec_if. rewrite (eval_agree t1 t2 e) by (intros z Z; apply A, R; cbn; apply in_or_app; now left).
    cbn in Y. rewrite andb_true_iff in Y. destruct (truth (eval t2 e)).
    + apply (pexec_agree_l l1 F1 P); auto; [|tauto]. intros z Z. apply R. cbn. rewrite !in_app_iff. tauto.
    + apply (pexec_agree_l l2 F2 P); auto; [|tauto]. intros z Z. apply R. cbn. rewrite !in_app_iff. tauto.
Qed.
Lemma pexec_agree l (P : var -> Prop) t1 t2 : (forall x, In x (preads l) -> P x) -> (forall x, P x -> t1 x = t2 x) ->
  forall x, P x \/ sure x l = true -> pexec l t1 x = pexec l t2 x.
Proof. apply pexec_agree_l, Forall_forall. intros; apply agrees_all. Qed.
