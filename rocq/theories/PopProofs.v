(** Facts about pipelines with the operators ^=, v= and vv=. *)
From Coq Require Import List Bool Arith ZArith Lia Permutation.
Import ListNotations.
From Verif Require Import FsmModel FsmRun RegProps PipeModel PipeProofs PopModel.
From Verif Require OrderModel OrderProofs.

(** * The code of a stage computes the meaning of the stage: also when the d side of a variable only read is not the value read. *)
Section Stage.
  Variables (n : var -> name) (Q : nstore) (R W : var -> Prop).
  Hypothesis inj : forall x y, n x = n y -> x = y.
  Definition good2 (p : pst) : Prop := forall (P : var -> Prop) s t, (forall x, In x (preads1 p) -> R x) -> (forall x, In x (pwrites1 p) -> W x) -> (forall x, R x -> W x -> P x) ->
    tracks n Q R P s t ->
    tracks n Q R (fun x => P x \/ sure1 x p = true) (code1 n Q p s) (pexec1 p t) /\ incl (snd s) (snd (code1 n Q p s)) /\
    (forall a, In a (snd (code1 n Q p s)) -> In a (snd s) \/ exists x, W x /\ a = n x).
  Lemma code_good2 l : Forall good2 l -> forall (P : var -> Prop) s t, (forall x, In x (preads l) -> R x) -> (forall x, In x (pwrites l) -> W x) -> (forall x, R x -> W x -> P x) ->
    tracks n Q R P s t ->
    tracks n Q R (fun x => P x \/ sure x l = true) (code n Q l s) (pexec l t) /\ incl (snd s) (snd (code n Q l s)) /\
    (forall a, In a (snd (code n Q l s)) -> In a (snd s) \/ exists x, W x /\ a = n x).
  Proof.
    intros F. induction F as [|p r G _ IH]; intros P s t I J RP T; cbn [code pexec].
    - split; [|split; [apply incl_refl|auto]]. apply (tracks_weak n Q R P); [|exact T]. intros x [H|H]; [exact H|discriminate].
    - destruct (G P s t) as (T1 & L1 & D1); auto.
      { intros x X. apply I. cbn. apply in_or_app. now left. }
      { intros x X. apply J. cbn. apply in_or_app. now left. }
      destruct (IH _ _ _ (fun x X => I x ltac:(cbn; apply in_or_app; now right)) (fun x X => J x ltac:(cbn; apply in_or_app; now right))
        (fun x X Y => or_introl (RP x X Y)) T1) as (T2 & L2 & D2).
      split; [|split; [eapply incl_tran; eassumption|]].
      + eapply tracks_weak; [|exact T2]. intros x [H|H]; [tauto|]. cbn in H. apply orb_true_iff in H. tauto.
      + intros a A. apply D2 in A. destruct A as [A|A]; [apply D1, A|now right].
  Qed.
  Lemma all_good2 p : good2 p.
  Proof.
    induction p as [x e|e l1 l2 F1 F2] using pst_ind2; intros P s t I J RP T.
    - cbn [code1 pexec1 fst snd sure1]. rewrite (eval_side n Q R e s t P T) by (intros y Y; apply I, Y).
      assert (Wx : W x) by (apply J; cbn; now left).
      split; [|split; [now right|]].
      2:{ intros a [<-|A]; [right; exists x; auto|now left]. }
      destruct T as [Ta Tb].
      assert (E : forall y, P y \/ y = x -> nupd (fst s) (n x) (eval t e) (n y) = upd t x (eval t e) y).
      { intros y H. unfold upd. destruct (Nat.eqb_spec y x) as [->|N]; [apply nupd_eq|].
        rewrite nupd_ne by (intros Y; apply N, inj, Y). apply Tb. tauto. }
      split.
      + intros y Y. unfold side. cbn [fst snd]. rewrite nmem_cons. destruct (name_eqb_spec (n y) (n x)) as [Z|Z]; cbn [orb].
        * apply E. right. apply inj, Z.
        * unfold upd. destruct (Nat.eqb_spec y x) as [->|N]; [contradiction|]. specialize (Ta y Y). unfold side in Ta.
          destruct (nmem (n y) (snd s)) eqn:M; [|exact Ta]. rewrite nupd_ne by exact Z. exact Ta.
      + intros y [Y|Y]; apply E; [now left|]. right. now apply Nat.eqb_eq in Y.
    - rewrite code_if, pexec_if, (eval_side n Q R e s t P T) by (intros y Y; apply I; cbn; apply in_or_app; now left).
      assert (I1 : forall x, In x (preads l1) -> R x) by (intros x X; apply I; cbn; rewrite !in_app_iff; tauto).
      assert (I2 : forall x, In x (preads l2) -> R x) by (intros x X; apply I; cbn; rewrite !in_app_iff; tauto).
      assert (J1 : forall x, In x (pwrites l1) -> W x) by (intros x X; apply J; cbn; rewrite !in_app_iff; tauto).
      assert (J2 : forall x, In x (pwrites l2) -> W x) by (intros x X; apply J; cbn; rewrite !in_app_iff; tauto).
      destruct (code_good2 l1 F1 P s t I1 J1 RP T) as (T1 & L1 & D1), (code_good2 l2 F2 P s t I2 J2 RP T) as (T2 & L2 & D2).
      cbn [fst snd]. split; [|split; [intros a A; apply in_or_app; left; apply L1, A|]].
      2:{ intros a A. apply in_app_or in A. destruct A as [A|A]; [apply D1, A|apply D2, A]. }
      assert (G : forall l l' s' s1 s2, tracks n Q R (fun x => P x \/ sure x l = true) s' (pexec l t) -> incl (snd s) (snd s') -> incl (snd s') (s1 ++ s2) ->
                  (forall a, In a (s1 ++ s2) -> In a (snd s) \/ exists x, W x /\ a = n x) ->
                  tracks n Q R (fun x => P x \/ sure x l && sure x l' = true) (fst s', s1 ++ s2) (pexec l t)).
      { intros l l' s' s1 s2 [A B] L L' DD. split.
        - intros x X. specialize (A x X). unfold side in *. cbn [fst snd]. destruct (nmem (n x) (snd s')) eqn:M'.
          + assert (M : nmem (n x) (s1 ++ s2) = true) by (apply nmem_in, L', nmem_in, M'). now rewrite M.
          + destruct (nmem (n x) (s1 ++ s2)) eqn:M; [|exact A]. apply nmem_in in M. apply DD in M. destruct M as [M|(y & Wy & Ey)].
            * apply L in M. apply nmem_in in M. congruence.
            * apply inj in Ey. subst y. apply B. left. now apply RP.
        - intros x [X|X]; cbn [fst]; apply B; [now left|]. apply andb_true_iff in X. tauto. }
      assert (DD : forall a, In a (snd (code n Q l1 s) ++ snd (code n Q l2 s)) -> In a (snd s) \/ exists x, W x /\ a = n x).
      { intros a A. apply in_app_or in A. destruct A as [A|A]; [apply D1, A|apply D2, A]. }
      destruct (truth (eval t e)).
      + apply G; auto. apply incl_appl, incl_refl.
      + eapply tracks_weak; [|apply (G l2 l1); auto; apply incl_appr, incl_refl].
        intros x [X|X]; [now left|]. right. rewrite andb_comm. exact X.
  Qed.
  Lemma code_meaning2 l (P : var -> Prop) s t : (forall x, In x (preads l) -> R x) -> (forall x, In x (pwrites l) -> W x) -> (forall x, R x -> W x -> P x) ->
    tracks n Q R P s t -> forall x, P x \/ sure x l = true -> fst (code n Q l s) (n x) = pexec l t x.
  Proof. intros I J RP T. apply (code_good2 l (proj2 (Forall_forall _ _) (fun p _ => all_good2 p)) P s t I J RP T). Qed.
End Stage.

(** What is assigned is in the dependencies. *)
Definition adds1 (p : pst) : Prop := forall n Q s, incl (snd s) (snd (code1 n Q p s)) /\ forall x, In x (pwrites1 p) -> In (n x) (snd (code1 n Q p s)).
Lemma code_adds_l l : Forall adds1 l -> forall n Q s, incl (snd s) (snd (code n Q l s)) /\ forall x, In x (pwrites l) -> In (n x) (snd (code n Q l s)).
Proof.
  intros F. induction F as [|p r G _ IH]; intros n Q s; cbn [code]; [split; [apply incl_refl|intros x []]|].
  destruct (G n Q s) as [A B], (IH n Q (code1 n Q p s)) as [C D]. split; [eapply incl_tran; eassumption|].
  intros x X. cbn in X. apply in_app_or in X. destruct X as [X|X]; [apply C, B, X|apply D, X].
Qed.
Lemma adds_all p : adds1 p.
Proof.
  induction p as [x e|e l1 l2 F1 F2] using pst_ind2; intros n Q s.
  - cbn [code1 snd]. split; [now right|]. intros y [<-|[]]. now left.
  - rewrite code_if. cbn [snd]. destruct (code_adds_l l1 F1 n Q s) as [A B], (code_adds_l l2 F2 n Q s) as [C D]. split.
    + intros a I. apply in_or_app. left. apply A, I.
    + intros x X. cbn in X. apply in_or_app. apply in_app_or in X. destruct X as [X|X]; [left; apply B, X|right; apply D, X].
Qed.
Lemma code_adds l n Q s x : In x (pwrites l) -> In (n x) (snd (code n Q l s)).
Proof. apply code_adds_l, Forall_forall. intros; apply adds_all. Qed.

(** * Sets of a stage. *)
Fixpoint ost_ind2 (P : ost -> Prop) (ha : forall o x e, P (OAssign o x e)) (hi : forall e l1 l2, Forall P l1 -> Forall P l2 -> P (OIf e l1 l2)) (p : ost) : P p :=
  match p with
  | OAssign o x e => ha o x e
  | OIf e l1 l2 =>
      let all := fix all (l : list ost) : Forall P l := match l with [] => Forall_nil P | a :: r => @Forall_cons _ P a r (ost_ind2 P ha hi a) (all r) end in
      hi e l1 l2 (all l1) (all l2)
  end.
Lemma assigns_op p x : In x (oassigns p) <-> exists o, In x (with_op o p).
Proof.
  assert (G : forall a, In x (pwrites1 (erase1 a)) <-> exists o, In x (with_op1 o a)).
  { intros a. induction a as [o y e|e l1 l2 F1 F2] using ost_ind2.
    - cbn. split.
      + intros [->|[]]. exists o. destruct o; now left.
      + intros [o' I]. destruct (op_eqb o' o); [exact I|destruct I].
    - cbn [erase1 pwrites1 with_op1]. rewrite in_app_iff.
      assert (H : forall l, Forall (fun a => In x (pwrites1 (erase1 a)) <-> exists o, In x (with_op1 o a)) l ->
                  (In x (flat_map pwrites1 (map erase1 l)) <-> exists o, In x (flat_map (with_op1 o) l))).
      { intros l F. induction F as [|a r H _ IH]; cbn [map flat_map].
        - split; [intros []|intros [_ []]].
        - rewrite in_app_iff, H, IH. split.
          + intros [[o I]|[o I]]; exists o; apply in_or_app; auto.
          + intros [o I]. apply in_app_or in I. destruct I as [I|I]; [left|right]; now exists o. }
      rewrite (H l1 F1), (H l2 F2). split.
      + intros [[o I]|[o I]]; exists o; apply in_or_app; auto.
      + intros [o I]. apply in_app_or in I. destruct I as [I|I]; [left|right]; now exists o. }
  unfold oassigns, erase, pwrites, with_op. induction p as [|a r IH]; cbn [map flat_map].
  - split; [intros []|intros [_ []]].
  - rewrite in_app_iff, G, IH. split.
    + intros [[o I]|[o I]]; exists o; apply in_or_app; auto.
    + intros [o I]. apply in_app_or in I. destruct I as [I|I]; [left|right]; now exists o.
Qed.
Lemma special_in p x : In x (special p) <-> In x (with_op Back p) \/ In x (with_op Fwd p) \/ In x (with_op After p).
Proof. unfold special. now rewrite !in_app_iff. Qed.
Lemma special_assigns p x : In x (special p) -> In x (oassigns p).
Proof. intros I. apply assigns_op. apply special_in in I. destruct I as [I|[I|I]]; eexists; exact I. Qed.
Lemma owrites_in p x : In x (owrites p) <-> In x (oassigns p) /\ ~ In x (special p).
Proof.
  unfold owrites. rewrite filter_In, negb_true_iff. split; intros [A B]; split; auto.
  - intros I. apply memb_in in I. congruence.
  - destruct (memb x (special p)) eqn:E; [|reflexivity]. apply memb_in in E. contradiction.
Qed.

(** * What the checks give. *)
Lemma not_memb x l : negb (memb x l) = true <-> ~ In x l.
Proof. rewrite negb_true_iff. split; intros H; [intros I; apply memb_in in I; congruence|]. destruct (memb x l) eqn:E; [apply memb_in in E; contradiction|reflexivity]. Qed.
Lemma checks_spec l : forall sp wr, checks l sp wr = true <->
  (forall p x, In p l -> In x (oassigns p) -> ~ In x sp) /\
  (forall p x, In p l -> In x (special p) -> ~ In x wr /\ ~ In x (with_op Plain p)) /\
  (forall i j p p' x, i < j -> nth_error l i = Some p -> nth_error l j = Some p' -> In x (oassigns p) -> In x (oassigns p') -> ~ In x (special p) /\ ~ In x (special p')).
Proof.
  induction l as [|p r IH]; intros sp wr; cbn [checks].
  - split; [intros _|reflexivity]. split; [intros p x []|]. split; [intros p x []|]. intros i j p p' x _ E. destruct i; discriminate.
  - rewrite !andb_true_iff, !forallb_forall, IH. clear IH. split.
    + intros ((H1 & H2) & H3 & H4 & H5). split; [|split].
      * intros q x [->|I] X; [now apply not_memb, H1|]. intros Y. apply (H3 q x I X), in_or_app. now right.
      * intros q x [->|I] X.
        -- specialize (H2 x X). rewrite !andb_true_iff, !not_memb in H2. tauto.
        -- destruct (H4 q x I X) as [A B]. split; [|exact B]. intros Y. apply A, in_or_app. now right.
      * intros i j a b x L A B Xa Xb. destruct i as [|i], j as [|j]; try lia.
        -- cbn in A, B. injection A as ->. apply nth_error_In in B. split.
           ++ intros Y. apply (H3 b x B Xb), in_or_app. now left.
           ++ intros Y. destruct (H4 b x B Y) as [N _]. apply N, in_or_app. left. apply owrites_in. split; [exact Xa|].
              intros Z. apply (H3 b x B Xb), in_or_app. now left.
        -- cbn in A, B. apply (H5 i j a b x); auto. lia.
    + intros (H1 & H2 & H3). split; [split|split; [|split]].
      * intros x X. apply not_memb. apply (H1 p x); [now left|exact X].
      * intros x X. rewrite !andb_true_iff, !not_memb. destruct (H2 p x (or_introl eq_refl) X) as [A B]. split; [split|]; auto.
        apply (H1 p x); [now left|]. now apply special_assigns.
      * intros q x I X Y. apply in_app_or in Y. destruct Y as [Y|Y]; [|now apply (H1 q x (or_intror I) X)].
        apply In_nth_error in I. destruct I as [j Ej]. destruct (H3 0 (S j) p q x) as [A _]; auto; [lia|now apply special_assigns].
      * intros q x I X. destruct (H2 q x (or_intror I) X) as [A B]. split; [|exact B]. intros Y. apply in_app_or in Y. destruct Y as [Y|Y]; [|contradiction].
        apply owrites_in in Y. apply In_nth_error in I. destruct I as [j Ej]. destruct (H3 0 (S j) p q x) as [_ C]; auto; [lia|tauto|now apply special_assigns].
      * intros i j a b x L A B. apply (H3 (S i) (S j)); auto. lia.
Qed.
Definition assigns_at (ps : list ostage) (s : nat) (x : var) : Prop := In x (oassigns (nth s ps [])).
Definition oreads_at (ps : list ostage) (s : nat) (x : var) : Prop := In x (oreads (nth s ps [])).
Definition special_at (ps : list ostage) (s : nat) (x : var) : Prop := In x (special (nth s ps [])).
Lemma nth_in_nil {B} (f : ostage -> list B) ps s x : f [] = [] -> In x (f (nth s ps [])) -> nth_error ps s = Some (nth s ps []).
Proof.
  intros N I. destruct (Nat.ltb_spec s (length ps)) as [L|L]; [now apply nth_error_nth'|]. rewrite nth_overflow, N in I by lia. destruct I.
Qed.
Lemma special_unique ps s s0 x : checks ps [] [] = true -> special_at ps s0 x -> assigns_at ps s x -> s = s0.
Proof.
  intros C S A. apply checks_spec in C. destruct C as (_ & _ & H). unfold special_at, assigns_at in *.
  pose proof (nth_in_nil _ _ _ _ eq_refl S) as E0. pose proof (nth_in_nil _ _ _ _ eq_refl A) as E.
  destruct (Nat.lt_trichotomy s s0) as [L|[L|L]]; [|exact L|].
  - destruct (H s s0 _ _ x L E E0 A (special_assigns _ _ S)) as [_ N]. contradiction.
  - destruct (H s0 s _ _ x L E0 E (special_assigns _ _ S) A) as [N _]. contradiction.
Qed.
Lemma special_plain ps s x : checks ps [] [] = true -> special_at ps s x -> ~ In x (with_op Plain (nth s ps [])).
Proof.
  intros C S. apply checks_spec in C. destruct C as (_ & H & _). unfold special_at in *.
  pose proof (nth_in_nil _ _ _ _ eq_refl S) as E. apply (H _ x (nth_error_In _ _ E) S).
Qed.
Lemma plain_writes ps s x : checks ps [] [] = true -> In x (owrites (nth s ps [])) <-> In x (with_op Plain (nth s ps [])).
Proof.
  intros C. rewrite owrites_in. split.
  - intros [A N]. apply assigns_op in A. destruct A as [o I]. destruct o; [exact I| | |]; exfalso; apply N, special_in; tauto.
  - intros I. split; [apply assigns_op; now exists Plain|]. intros S. now apply (special_plain ps s x C S).
Qed.

(** * Trickling. *)
Lemma stages_at {B} (acc : B -> list var) ps d x s : acc d = [] -> In s (stages_with acc ps x) <-> In x (acc (nth s ps d)).
Proof.
  intros N. rewrite in_stages. split.
  - intros (p & E & I). now rewrite (nth_error_nth _ _ _ E).
  - intros I. exists (nth s ps d). split; [|exact I]. destruct (Nat.ltb_spec s (length ps)) as [L|L]; [now apply nth_error_nth'|]. rewrite nth_overflow, N in I by lia. destruct I.
Qed.
Lemma otrickle_some ps x fw lr : otrickle ps x = Some (fw, lr) <->
  fw < lr /\ In x (owrites (nth fw ps [])) /\ (forall s, In x (owrites (nth s ps [])) -> fw <= s) /\ oreads_at ps lr x /\ (forall s, oreads_at ps s x -> s <= lr).
Proof.
  unfold otrickle, oreads_at. split.
  - destruct (hd_error (stages_with owrites ps x)) as [f|] eqn:F; [|discriminate]. destruct (hd_error (rev (stages_with oreads ps x))) as [l|] eqn:L; [|discriminate].
    destruct (Nat.ltb_spec f l); [|discriminate]. intros E. injection E as <- <-. apply hd_stages in F. apply last_stages in L.
    destruct F as [F1 F2], L as [L1 L2]. split; [assumption|]. split; [now apply (stages_at owrites ps [] x f eq_refl)|]. split.
    { intros s S. apply F2. now apply (stages_at owrites ps [] x s eq_refl) in S. }
    split; [now apply (stages_at oreads ps [] x l eq_refl)|]. intros s S. apply L2. now apply (stages_at oreads ps [] x s eq_refl) in S.
  - intros (H & W & Wm & R & Rm). assert (F : hd_error (stages_with owrites ps x) = Some fw).
    { apply hd_stages. split; [now apply (stages_at owrites ps [] x fw eq_refl)|]. intros t I. apply Wm. now apply (stages_at _ _ [] x t eq_refl) in I. }
    assert (L : hd_error (rev (stages_with oreads ps x)) = Some lr).
    { apply last_stages. split; [now apply (stages_at oreads ps [] x lr eq_refl)|]. intros t I. apply Rm. now apply (stages_at _ _ [] x t eq_refl) in I. }
    rewrite F, L. now rewrite (proj2 (Nat.ltb_lt _ _) H).
Qed.
Lemma otrickle_exists ps x s1 s2 : In x (owrites (nth s1 ps [])) -> oreads_at ps s2 x -> s1 < s2 -> exists fw lr, otrickle ps x = Some (fw, lr) /\ fw <= s1 /\ s2 <= lr.
Proof.
  intros W R L. apply (stages_at owrites ps [] x s1 eq_refl) in W. apply (stages_at oreads ps [] x s2 eq_refl) in R. unfold otrickle.
  destruct (hd_error (stages_with owrites ps x)) as [f|] eqn:F; [|destruct (stages_with owrites ps x); [destruct W|discriminate]].
  destruct (hd_error (rev (stages_with oreads ps x))) as [l|] eqn:E.
  2:{ rewrite <- (rev_involutive (stages_with oreads ps x)) in R. destruct (rev (stages_with oreads ps x)); [destruct R|discriminate]. }
  apply hd_stages in F. apply last_stages in E. destruct F as [_ F], E as [_ E]. specialize (F s1 W). specialize (E s2 R).
  destruct (Nat.ltb_spec f l); [|lia]. exists f, l. auto.
Qed.
Lemma special_name ps s0 x : checks ps [] [] = true -> special_at ps s0 x -> otrickle ps x = None.
Proof.
  intros C S. destruct (otrickle ps x) as [[fw lr]|] eqn:E; [|reflexivity]. exfalso. apply otrickle_some in E. destruct E as (_ & W & _).
  apply owrites_in in W. destruct W as [W N]. rewrite (special_unique ps fw s0 x C S W) in N. contradiction.
Qed.
Lemma otr_cases ps s x : otr ps s x = V x \/ otr ps s x = T x s.
Proof. unfold otr. destruct (otrickle ps x) as [[fw lr]|]; [destruct (fw <? s)|]; auto. Qed.
Lemma otr_inj ps s x y : otr ps s x = otr ps s y -> x = y.
Proof. destruct (otr_cases ps s x) as [-> | ->], (otr_cases ps s y) as [-> | ->]; congruence. Qed.

Lemma ocapture_fold ps s vars D a : fold_left (ocapture ps s) vars D a =
  match a with
  | V x => D (V x)
  | T x t => match otrickle ps x with Some (fw, _) => if Nat.eqb t s && Nat.eqb s fw && memb x vars then D (V x) else D a | None => D a end
  end.
Proof.
  assert (CV : forall D y x, ocapture ps s D y (V x) = D (V x)).
  { intros E y x. unfold ocapture. destruct (otrickle ps y) as [[fw lr]|]; [|reflexivity]. destruct (Nat.eqb s fw); [|reflexivity]. apply nupd_ne. discriminate. }
  revert D. induction vars as [|y r IH]; intros D; cbn [fold_left].
  - destruct a as [x|x t]; [reflexivity|]. destruct (otrickle ps x) as [[fw lr]|]; [|reflexivity]. cbn [memb existsb]. now rewrite andb_false_r.
  - rewrite IH. destruct a as [x|x t]; [apply CV|]. cbn [memb existsb].
    destruct (otrickle ps x) as [[fw lr]|] eqn:E.
    + rewrite CV. destruct (Nat.eqb_spec t s) as [->|N]; cbn [andb].
      * destruct (Nat.eqb_spec s fw) as [->|N]; cbn [andb].
        -- change (existsb (Nat.eqb x) r) with (memb x r). destruct (memb x r); [now rewrite orb_true_r|]. rewrite orb_false_r. destruct (Nat.eqb_spec x y) as [->|N].
           ++ unfold ocapture. rewrite E, Nat.eqb_refl. apply nupd_eq.
           ++ unfold ocapture. destruct (otrickle ps y) as [[fw' lr']|]; [|reflexivity]. destruct (Nat.eqb fw fw'); [|reflexivity]. apply nupd_ne. congruence.
        -- unfold ocapture. destruct (otrickle ps y) as [[fw' lr']|] eqn:E'; [|reflexivity]. destruct (Nat.eqb_spec s fw'); [|reflexivity]. apply nupd_ne.
           intros H. injection H as ->. congruence.
      * unfold ocapture. destruct (otrickle ps y) as [[fw' lr']|] eqn:E'; [|reflexivity]. destruct (Nat.eqb_spec s fw'); [|reflexivity]. apply nupd_ne. congruence.
    + unfold ocapture. destruct (otrickle ps y) as [[fw' lr']|] eqn:E'; [|reflexivity]. destruct (Nat.eqb_spec s fw'); [|reflexivity]. apply nupd_ne.
      intros H. injection H as ->. congruence.
Qed.

(** * One cycle. *)
Section Cycle.
  Variables (ps : list ostage) (vars : list var) (Q B : nstore) (deps : list name).
  Hypothesis HC : checks ps [] [] = true.
  Hypothesis HV : forall x s, assigns_at ps s x -> In x vars.
  Hypothesis Bdeps : forall x, ~ In (V x) deps -> B (V x) = Q (V x).
  Hypothesis BT : forall x s, B (T x s) = Q (T x s).
  Hypothesis dT : forall x s, ~ In (T x s) deps.

  Definition st (l : list nat) : wst := write_ordered ps vars Q deps l B.
  Lemma st_snoc l s : st (l ++ [s]) = stage_step ps vars Q deps (st l) s.
  Proof. unfold st, write_ordered. now rewrite fold_left_app. Qed.
  Definition sd (l : list nat) (s : nat) : list name := stage_deps deps (d_deps (st l)) (d_fwd (st l)) s.
  Definition coded (l : list nat) (s : nat) : nstore := fst (code (otr ps s) Q (erase (nth s ps [])) (d_side (st l), sd l s)).
  Lemma st_side l s : d_side (st (l ++ [s])) = fold_left (ocapture ps s) vars (coded l s).
  Proof. now rewrite st_snoc. Qed.
  (** Assigned under its own name. *)
  Definition vassigns (s : nat) (x : var) : Prop := assigns_at ps s x /\ otr ps s x = V x.
  Lemma coded_T l s x t : t <> s -> coded l s (T x t) = d_side (st l) (T x t).
  Proof.
    intros N. apply (code_frame _ _ _ (d_side (st l), sd l s)). intros I. apply in_map_iff in I. destruct I as (y & E & _).
    destruct (otr_cases ps s y) as [E'|E']; rewrite E' in E; congruence.
  Qed.
  Lemma step_T l s x t : t <> s -> d_side (st (l ++ [s])) (T x t) = d_side (st l) (T x t).
  Proof.
    intros N. rewrite st_side, ocapture_fold, coded_T by exact N. destruct (otrickle ps x) as [[fw lr]|]; [|reflexivity].
    destruct (Nat.eqb_spec t s); [contradiction|reflexivity].
  Qed.
  Lemma coded_V l s x : ~ vassigns s x -> coded l s (V x) = d_side (st l) (V x).
  Proof.
    intros N. apply (code_frame _ _ _ (d_side (st l), sd l s)). intros I. apply in_map_iff in I. destruct I as (y & E & I).
    destruct (otr_cases ps s y) as [E'|E']; rewrite E' in E; [|discriminate]. injection E as ->. apply N. split; [exact I|exact E'].
  Qed.
  Lemma step_V l s x : ~ vassigns s x -> d_side (st (l ++ [s])) (V x) = d_side (st l) (V x).
  Proof. intros N. rewrite st_side, ocapture_fold. now apply coded_V. Qed.
  Lemma st_T l x t : ~ In t l -> d_side (st l) (T x t) = Q (T x t).
  Proof.
    induction l as [|s l IH] using rev_ind; intros N; [apply BT|]. rewrite in_app_iff in N. rewrite step_T, IH; [reflexivity|tauto|].
    intros ->. apply N. right. now left.
  Qed.
  Lemma st_V l x : (forall s, In s l -> ~ vassigns s x) -> d_side (st l) (V x) = B (V x).
  Proof.
    induction l as [|s l IH] using rev_ind; intros N; [reflexivity|]. rewrite step_V, IH; [reflexivity| |].
    - intros k K. apply N, in_or_app. now left.
    - apply N, in_or_app. right. now left.
  Qed.
  Lemma st_T_keep l1 l2 x t : ~ In t l2 -> d_side (st (l1 ++ l2)) (T x t) = d_side (st l1) (T x t).
  Proof.
    induction l2 as [|s l IH] using rev_ind; intros N; [now rewrite app_nil_r|]. rewrite in_app_iff in N. rewrite app_assoc, step_T, IH; [reflexivity|tauto|].
    intros ->. apply N. right. now left.
  Qed.
  Lemma st_V_keep l1 l2 x : (forall s, In s l2 -> ~ vassigns s x) -> d_side (st (l1 ++ l2)) (V x) = d_side (st l1) (V x).
  Proof.
    induction l2 as [|s l IH] using rev_ind; intros N; [now rewrite app_nil_r|]. rewrite app_assoc, step_V, IH; [reflexivity| |].
    - intros k K. apply N, in_or_app. now left.
    - apply N, in_or_app. right. now left.
  Qed.
  (** Dependencies kept. *)
  Definition bf (s : nat) (x : var) : Prop := In x (with_op Back (nth s ps [])) \/ In x (with_op Fwd (nth s ps [])).
  Definition fw_at (s : nat) (x : var) : Prop := In x (with_op Fwd (nth s ps [])).
  Lemma op_special s o x : o <> Plain -> In x (with_op o (nth s ps [])) -> special_at ps s x.
  Proof. intros N I. apply special_in. destruct o; tauto. Qed.
  Lemma op_name s s' o x : o <> Plain -> In x (with_op o (nth s ps [])) -> otr ps s' x = V x.
  Proof. intros N I. unfold otr. now rewrite (special_name ps s x HC (op_special s o x N I)). Qed.
  Lemma kept_all s o l d x : o <> Plain ->
    In x (filter (fun x => nmem (V x) (snd (code (otr ps s) Q (erase (nth s ps [])) (l, d)))) (with_op o (nth s ps []))) <-> In x (with_op o (nth s ps [])).
  Proof.
    intros N. rewrite filter_In. split; [tauto|]. intros I. split; [exact I|]. apply nmem_in. rewrite <- (op_name s s o x N I). apply code_adds.
    apply (proj2 (assigns_op _ x)). now exists o.
  Qed.
  Lemma st_deps l a : In a (d_deps (st l)) <-> In a deps \/ exists x s, a = V x /\ In s l /\ bf s x.
  Proof.
    induction l as [|s l IH] using rev_ind.
    - cbn. split; [auto|]. intros [I|(x & s & _ & [] & _)]. exact I.
    - rewrite st_snoc. cbn [d_deps stage_step]. rewrite !in_app_iff, !in_map_iff, IH. split.
      + intros [(x & <- & I)|[(x & <- & I)|[I|(x & s0 & E & I & H)]]].
        * apply kept_all in I; [|discriminate]. right. exists x, s. split; [reflexivity|]. split; [apply in_or_app; right; now left|now left].
        * apply kept_all in I; [|discriminate]. right. exists x, s. split; [reflexivity|]. split; [apply in_or_app; right; now left|now right].
        * now left.
        * right. exists x, s0. split; [exact E|]. split; [apply in_or_app; now left|exact H].
      + intros [I|(x & s0 & E & I & H)]; [tauto|]. apply in_app_or in I. destruct I as [I|[<-|[]]].
        * right. right. right. exists x, s0. auto.
        * destruct H as [H|H]; [left|right; left]; exists x; (split; [now symmetry|]); apply kept_all; auto; discriminate.
  Qed.
  Lemma forward_app l1 l2 x : forward_at (l1 ++ l2) x = match forward_at l1 x with Some s => Some s | None => forward_at l2 x end.
  Proof. induction l1 as [|[y s] r IH]; cbn [forward_at app]; [reflexivity|]. destruct (Nat.eqb x y); [reflexivity|exact IH]. Qed.
  Lemma forward_map l s x : forward_at (map (fun y => (y, s)) l) x = if memb x l then Some s else None.
  Proof.
    induction l as [|y r IH]; cbn [forward_at map memb existsb]; [reflexivity|]. destruct (Nat.eqb x y); [reflexivity|]. cbn [orb]. exact IH.
  Qed.
  Lemma st_fwd l x s0 : forward_at (d_fwd (st l)) x = Some s0 <-> In s0 l /\ fw_at s0 x.
  Proof.
    induction l as [|s l IH] using rev_ind.
    - cbn. split; [discriminate|]. intros [[] _].
    - rewrite st_snoc. cbn [d_fwd stage_step]. rewrite forward_app, forward_map.
      match goal with |- context [memb x ?L] => destruct (memb x L) eqn:M end.
      + apply memb_in in M. apply kept_all in M; [|discriminate]. split.
        * intros E. injection E as <-. split; [apply in_or_app; right; now left|exact M].
        * intros [_ F]. f_equal. apply (special_unique ps s s0 x HC); [eapply op_special; [|exact F]; discriminate|].
          apply special_assigns. eapply op_special; [|exact M]; discriminate.
      + rewrite IH, in_app_iff. split; [tauto|]. intros [[I|[<-|[]]] F]; [tauto|]. exfalso.
        assert (M' : memb x (filter (fun x => nmem (V x) (snd (code (otr ps s) Q (erase (nth s ps [])) (d_side (st l), stage_deps deps (d_deps (st l)) (d_fwd (st l)) s)))) (with_op Fwd (nth s ps []))) = true).
        { apply memb_in, kept_all; [discriminate|exact F]. }
        congruence.
  Qed.
  (** The dependencies of a stage written after those of [l]. *)
  Lemma sd_in l s a : In a (sd l s) <-> In a deps \/ exists x s0, a = V x /\ In s0 l /\ bf s0 x /\ ~ (s < s0 /\ fw_at s0 x).
  Proof.
    unfold sd, stage_deps. rewrite filter_In, st_deps. split.
    - intros [[I|(x & s0 & -> & I & H)] F]; [now left|]. destruct (forward_at (d_fwd (st l)) x) as [s1|] eqn:E.
      + apply st_fwd in E. destruct E as [I1 F1].
        assert (s0 = s1) by (apply (special_unique ps s0 s1 x HC); [eapply op_special; [|exact F1]; discriminate|apply special_assigns, special_in; unfold bf in H; tauto]).
        subst s1. destruct (Nat.ltb_spec s s0) as [L|L]; [left; now apply nmem_in|]. right. exists x, s0. repeat split; auto. lia.
      + right. exists x, s0. repeat split; auto. intros [_ G].
        assert (E' : forward_at (d_fwd (st l)) x = Some s0) by (apply st_fwd; auto). congruence.
    - intros [I|(x & s0 & -> & I & H & N)].
      + split; [now left|]. destruct a as [x|x t]; [|reflexivity]. destruct (forward_at _ x) as [s1|]; [|reflexivity]. destruct (s <? s1); [|reflexivity]. now apply nmem_in.
      + split; [right; exists x, s0; auto|]. destruct (forward_at (d_fwd (st l)) x) as [s1|] eqn:E; [|reflexivity]. apply st_fwd in E. destruct E as [I1 F1].
        assert (s0 = s1) by (apply (special_unique ps s0 s1 x HC); [eapply op_special; [|exact F1]; discriminate|apply special_assigns, special_in; unfold bf in H; tauto]).
        subst s1. destruct (Nat.ltb_spec s s0) as [L|L]; [|reflexivity]. exfalso. apply N. auto.
  Qed.

  (** The values on which stage [s] works, when written after the stages of [l]. *)
  Definition seenk (l : list nat) (s : nat) : store := fun x =>
    if memb x (oreads (nth s ps [])) then side (otr ps s) Q (d_side (st l)) (sd l s) x else d_side (st l) (otr ps s x).
  (** No stage of [l] assigns [x] under its name. *)
  Definition untouched (l : list nat) (x : var) : Prop := forall k, In k l -> ~ vassigns k x.
  Definition calm (l : list nat) (s : nat) : Prop := forall x, oreads_at ps s x -> vassigns s x -> untouched l x.
  Lemma seenk_T l s x : ~ In s l -> otr ps s x = T x s -> seenk l s x = Q (T x s).
  Proof.
    intros N E. unfold seenk, side. rewrite E. rewrite st_T by exact N. destruct (memb x _); [|reflexivity].
    now destruct (nmem (T x s) (sd l s)).
  Qed.
  Lemma seenk_V l s x : otr ps s x = V x -> untouched l x -> seenk l s x = B (V x).
  Proof.
    intros E U. unfold seenk, side. rewrite E, st_V by exact U. destruct (memb x _); [|reflexivity].
    destruct (nmem (V x) (sd l s)) eqn:M; [reflexivity|]. symmetry. apply Bdeps. intros I.
    assert (I' : In (V x) (sd l s)) by (apply sd_in; now left). apply nmem_in in I'. congruence.
  Qed.
  Lemma stage_result l s x : ~ In s l -> calm l s -> (otr ps s x = V x -> untouched l x) -> coded l s (otr ps s x) = pexec (erase (nth s ps [])) (seenk l s) x.
  Proof.
    intros N C H.
    assert (D : forall y, (otr ps s y = V y -> untouched l y) -> d_side (st l) (otr ps s y) = seenk l s y).
    { intros y Y. destruct (otr_cases ps s y) as [E|E].
      - rewrite (seenk_V l s y E (Y E)), E. apply st_V, Y, E.
      - rewrite (seenk_T l s y N E), E. now apply st_T. }
    apply (code_meaning2 (otr ps s) Q (oreads_at ps s) (assigns_at ps s) (otr_inj ps s) (erase (nth s ps []))
             (fun y => otr ps s y = V y -> untouched l y) (d_side (st l), sd l s) (seenk l s)).
    - intros y Y. exact Y.
    - intros y Y. exact Y.
    - intros y Y A E. apply (C y Y). split; [exact A|exact E].
    - split; [|exact D]. intros y Y. unfold seenk, oreads_at in *. now rewrite (proj2 (memb_in _ _) Y).
    - now left.
  Qed.
  (** What a stage leaves in the d side after itself. *)
  Lemma left_T l s x fw lr : ~ In s l -> calm l s -> otrickle ps x = Some (fw, lr) -> fw <= s -> d_side (st (l ++ [s])) (T x s) = pexec (erase (nth s ps [])) (seenk l s) x.
  Proof.
    intros N C E L. rewrite st_side, ocapture_fold, E, Nat.eqb_refl. apply otrickle_some in E as E'. destruct E' as (_ & W & Wm & _).
    destruct (Nat.eq_dec s fw) as [->|Ns].
    - rewrite Nat.eqb_refl. rewrite (proj2 (memb_in x vars)) by (apply (HV x fw); apply owrites_in in W; apply W). cbn [andb].
      assert (Tr : otr ps fw x = V x). { unfold otr. rewrite E. now destruct (Nat.ltb_spec fw fw); [lia|]. }
      rewrite <- Tr at 1. apply stage_result; auto. intros _ k K [A Ak].
      assert (Wk : In x (owrites (nth k ps []))).
      { apply owrites_in. split; [exact A|]. intros S. rewrite (special_name ps k x HC S) in E. discriminate. }
      apply Wm in Wk. unfold otr in Ak. rewrite E in Ak. destruct (Nat.ltb_spec fw k); [discriminate|]. assert (k = fw) by lia. subst k. contradiction.
    - destruct (Nat.eqb_spec s fw); [contradiction|]. cbn [andb].
      assert (Tr : otr ps s x = T x s). { unfold otr. rewrite E. now destruct (Nat.ltb_spec fw s); [|lia]. }
      rewrite <- Tr at 1. apply stage_result; auto. rewrite Tr. discriminate.
  Qed.
  Lemma left_V l s x : ~ In s l -> calm l s -> otr ps s x = V x -> untouched l x -> d_side (st (l ++ [s])) (V x) = pexec (erase (nth s ps [])) (seenk l s) x.
  Proof. intros N C E U. rewrite st_side, ocapture_fold. rewrite <- E at 1. apply stage_result; auto. Qed.
End Cycle.
