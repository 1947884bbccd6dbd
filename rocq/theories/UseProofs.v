(** The analysis of the uses of registers: what the flags tell of executions. *)
From Coq Require Import List Bool Arith ZArith Lia.
Import ListNotations.
From Verif Require Import FsmModel UseModel.

(** * Induction on chains *)
Section ChInd.
  Variable P : ch -> Prop.
  Hypothesis HSet : forall x e, P (KSet x e).
  Hypothesis HPart : forall x g h i e, P (KPart x g h i e).
  Hypothesis HField : forall x h e, P (KField x h e).
  Hypothesis HRead : forall e, P (KRead e).
  Hypothesis HIdx : forall n, P (KIdx n).
  Hypothesis HRaw : forall l, P (KRaw l).
  Hypothesis HRawIf : forall e a b, Forall P a -> Forall P b -> P (KRawIf e a b).
  Hypothesis HRawCase : forall e cs, Forall (fun c => Forall P (snd c)) cs -> P (KRawCase e cs).
  Hypothesis HIf : forall e a b, Forall P a -> Forall P b -> P (KIf e a b).
  Hypothesis HCase : forall e cs, Forall (fun c => Forall P (snd c)) cs -> P (KCase e cs).
  Hypothesis HWhile : forall e a n, Forall P a -> P (KWhile e a n).

  Fixpoint ch_ind2 (c : ch) : P c :=
    let lst := fix lst (l : list ch) : Forall P l := match l with [] => Forall_nil _ | x :: r => Forall_cons _ (ch_ind2 x) (lst r) end in
    let cas := fix cas (cs : list (option Z * list ch)) : Forall (fun c => Forall P (snd c)) cs :=
      match cs with [] => Forall_nil _ | x :: r => Forall_cons _ (lst (snd x)) (cas r) end in
    match c with
    | KSet x e => HSet x e
    | KPart x g h i e => HPart x g h i e
    | KField x h e => HField x h e
    | KRead e => HRead e
    | KIdx n => HIdx n
    | KRaw l => HRaw l
    | KRawIf e a b => HRawIf e a b (lst a) (lst b)
    | KRawCase e cs => HRawCase e cs (cas cs)
    | KIf e a b => HIf e a b (lst a) (lst b)
    | KCase e cs => HCase e cs (cas cs)
    | KWhile e a n => HWhile e a n (lst a)
    end.
End ChInd.

(** * Equations *)
Section Eqs.
  Variable tmp : var -> bool.
  Lemma anals_cons c r s : anals tmp (c :: r) s = (fst (anal tmp c s) ++ fst (anals tmp r (snd (anal tmp c s))), snd (anals tmp r (snd (anal tmp c s)))).
  Proof. cbn [anals]. destruct (anal tmp c s) as [c1 s1]. cbn [fst snd]. destruct (anals tmp r s1) as [c2 s2]. reflexivity. Qed.

  Lemma anals_app a b s : anals tmp (a ++ b) s = (fst (anals tmp a s) ++ fst (anals tmp b (snd (anals tmp a s))), snd (anals tmp b (snd (anals tmp a s)))).
  Proof.
    revert s. induction a as [|c a IH]; intros s.
    - cbn [app anals fst snd]. destruct (anals tmp b s); reflexivity.
    - cbn [app]. rewrite !anals_cons, IH. cbn [fst snd]. now rewrite app_assoc.
  Qed.

  Lemma anal_if e a b deps u : anal tmp (KIf e a b) (deps, u) =
    (let u1 := kread tmp deps e u in
     let sa := anals tmp a (deps, u1) in
     let sb := anals tmp b (deps, u1) in
     ([VIf (krw tmp deps e) (fst sa) (fst sb)], (deps ++ fst (snd sa) ++ fst (snd sb), combine u1 [snd (snd sa); snd (snd sb)]))).
  Proof.
    change (anal tmp (KIf e a b) (deps, u)) with
      (let u1 := kread tmp deps e u in
       let (ca, sa) := anals tmp a (deps, u1) in
       let (cb, sb) := anals tmp b (deps, u1) in
       ([VIf (krw tmp deps e) ca cb], (deps ++ fst sa ++ fst sb, combine u1 [snd sa; snd sb]))).
    cbv zeta. destruct (anals tmp a (deps, kread tmp deps e u)) as [ca sa]. destruct (anals tmp b (deps, kread tmp deps e u)) as [cb sb]. reflexivity.
  Qed.

  Lemma anal_while e a n deps u : anal tmp (KWhile e a n) (deps, u) =
    (let u1 := kread tmp deps e u in
     let sa := anals tmp a (deps, u1) in
     ([VIf (krw tmp deps e) (fst sa) [VIdx n]], (deps ++ fst (snd sa) ++ deps, combine u1 [snd (snd sa)]))).
  Proof.
    change (anal tmp (KWhile e a n) (deps, u)) with
      (let u1 := kread tmp deps e u in
       let (ca, sa) := anals tmp a (deps, u1) in
       ([VIf (krw tmp deps e) ca [VIdx n]], (deps ++ fst sa ++ deps, combine u1 [snd sa]))).
    cbv zeta. destruct (anals tmp a (deps, kread tmp deps e u)) as [ca sa]. reflexivity.
  Qed.

  Lemma anal_rawif e a b s : anal tmp (KRawIf e a b) s = ([VIf e (fst (anals tmp a s)) (fst (anals tmp b s))], s).
  Proof.
    destruct s as [d u].
    change (anal tmp (KRawIf e a b) (d, u)) with
      (let (ca, _) := anals tmp a (d, u) in let (cb, _) := anals tmp b (d, u) in ([VIf e ca cb], (d, u))).
    destruct (anals tmp a (d, u)) as [ca sa]. destruct (anals tmp b (d, u)) as [cb sb]. reflexivity.
  Qed.

  Lemma anal_rawcase e cs s : anal tmp (KRawCase e cs) s = ([VCase e (raw_cases tmp cs s)], s).
  Proof.
    destruct s as [d u].
    change (anal tmp (KRawCase e cs) (d, u)) with
      ([VCase e ((fix all (cs : list (option Z * list ch)) : list (option Z * list vst) :=
            match cs with [] => [] | (v, l) :: r => (v, fst (anals tmp l (d, u))) :: all r end) cs)], (d, u)).
    f_equal. f_equal. f_equal. unfold raw_cases. induction cs as [|[v l] r IH]; [reflexivity|].
    cbn [map fst snd]. now rewrite IH.
  Qed.

  Lemma anal_case e cs deps u : anal tmp (KCase e cs) (deps, u) =
    (let u1 := kread tmp deps e u in
     let A := anal_cases tmp cs (deps, u1) in
     ([VCase (krw tmp deps e) (fst (fst A))],
      (deps ++ snd (fst A), combine u1 (if has_default cs then snd A else snd A ++ [u1])))).
  Proof.
    assert (E : forall cs s, (fix all (cs : list (option Z * list ch)) : list (option Z * list vst) * list var * list usage :=
          match cs with
          | [] => ([], [], [])
          | (v, l) :: r =>
              let (c1, s1) := anals tmp l s in
              let '(bs, d, us) := all r in
              ((v, c1) :: bs, fst s1 ++ d, snd s1 :: us)
          end) cs = anal_cases tmp cs s).
    { intros l s. induction l as [|[v k] r IH]; [reflexivity|]. cbn [anal_cases]. now rewrite IH. }
    cbv zeta. rewrite <- E.
    change (anal tmp (KCase e cs) (deps, u)) with
      (let u1 := kread tmp deps e u in
       let '(bs, d, us) := (fix all (cs : list (option Z * list ch)) : list (option Z * list vst) * list var * list usage :=
          match cs with
          | [] => ([], [], [])
          | (v, l) :: r =>
              let (c1, s1) := anals tmp l (deps, u1) in
              let '(bs, d, us) := all r in
              ((v, c1) :: bs, fst s1 ++ d, snd s1 :: us)
          end) cs in
       ([VCase (krw tmp deps e) bs], (deps ++ d, combine u1 (if has_default cs then us else us ++ [u1])))).
    cbv zeta. rewrite E. destruct (anal_cases tmp cs (deps, kread tmp deps e u)) as [[bs d] us]. reflexivity.
  Qed.
End Eqs.

(** Branches of a switch. *)
Lemma cases_cons tmp v l r s : anal_cases tmp ((v, l) :: r) s =
  ((v, fst (anals tmp l s)) :: fst (fst (anal_cases tmp r s)), fst (snd (anals tmp l s)) ++ snd (fst (anal_cases tmp r s)),
   snd (snd (anals tmp l s)) :: snd (anal_cases tmp r s)).
Proof. cbn [anal_cases]. destruct (anals tmp l s) as [c1 s1]. destruct (anal_cases tmp r s) as [[bs d] us]. reflexivity. Qed.

(** * Well formed usages *)
Definition wf (deps : list var) (u : usage) : Prop := forall x,
  (memb x deps = true -> fD (u x) = true) /\ (fN (u x) = true -> fD (u x) = true) /\ (fL (u x) = true -> fD (u x) = true) /\
  (fN (u x) = true -> fL (u x) = false).
Definition mono (u u' : usage) : Prop := forall x, (fD (u x) = true -> fD (u' x) = true) /\ (fQ (u x) = true -> fQ (u' x) = true).

Lemma mono_refl u : mono u u.
Proof. intros x; tauto. Qed.
Lemma mono_trans u v w : mono u v -> mono v w -> mono u w.
Proof. intros H1 H2 x. destruct (H1 x), (H2 x). tauto. Qed.

Lemma uset_same u x f : uset u x f x = f.
Proof. unfold uset. now rewrite Nat.eqb_refl. Qed.
Lemma uset_other u x f y : y <> x -> uset u x f y = u y.
Proof. intros H. unfold uset. destruct (Nat.eqb_spec y x); congruence. Qed.

Lemma memb_app x a b : memb x (a ++ b) = memb x a || memb x b.
Proof. unfold memb. apply existsb_app. Qed.

Ltac fl_cases :=
  repeat match goal with
         | |- context [Nat.eqb ?a ?b] => destruct (Nat.eqb_spec a b); subst
         | |- context [if ?b then _ else _] => destruct b
         end.

Lemma kread_mono tmp deps e u : mono u (kread tmp deps e u).
Proof.
  revert u. induction e as [n|x|f a IH|f a IHa b IHb]; intros u; cbn [kread].
  - apply mono_refl.
  - intros y. unfold uset. destruct (Nat.eqb_spec y x); [subst|tauto].
    destruct (tmp x || memb x deps); cbn [upd_d upd_q fD fQ]; split; auto; intros ->; reflexivity.
  - apply IH.
  - eapply mono_trans; [apply IHa|apply IHb].
Qed.

Lemma wf_upd_d deps u x r : wf deps u -> wf deps (uset u x (upd_d r (u x))).
Proof.
  intros H y. unfold uset. destruct (Nat.eqb_spec y x); [subst y|apply H].
  destruct (H x) as (A & B & C & D). cbn [upd_d fD fQ fL fN]. tauto.
Qed.
Lemma wf_upd_q deps u x : wf deps u -> wf deps (uset u x (upd_q (u x))).
Proof.
  intros H y. unfold uset. destruct (Nat.eqb_spec y x); [subst y|apply H].
  destruct (H x) as (A & B & C & D). cbn [upd_q fD fQ fL fN]. tauto.
Qed.
Lemma kread_wf tmp deps d0 e u : wf d0 u -> wf d0 (kread tmp deps e u).
Proof.
  revert u. induction e as [n|x|f a IH|f a IHa b IHb]; intros u H; cbn [kread]; auto.
  destruct (tmp x || memb x deps); [now apply wf_upd_d|now apply wf_upd_q].
Qed.
Lemma wf_write deps u x : wf deps u -> wf (x :: deps) (kwrite x u).
Proof.
  intros H y. unfold kwrite, uset. destruct (Nat.eqb_spec y x) as [->|N].
  - destruct (H x) as (A & B & C & D). cbn [upd_d fD fQ fL fN]. tauto.
  - destruct (H y) as (A & B & C & D). repeat split; try tauto.
    cbn [memb existsb]. destruct (Nat.eqb_spec y x); [congruence|]. exact A.
Qed.
Lemma kwrite_mono x u : mono u (kwrite x u).
Proof. intros y. unfold kwrite, uset. destruct (Nat.eqb_spec y x); [subst|tauto]. cbn [upd_d fD fQ]. split; auto. intros ->. reflexivity. Qed.
Lemma updq_mono x u : mono u (uset u x (upd_q (u x))).
Proof. intros y. unfold uset. destruct (Nat.eqb_spec y x); [subst|tauto]. cbn [upd_q fD fQ]. tauto. Qed.
Lemma combine_mono u brs : mono u (combine u brs).
Proof. intros x. cbn [combine fD fQ]. split; intros ->; reflexivity. Qed.
Lemma combine_mono_br u brs b : In b brs -> mono b (combine u brs).
Proof.
  intros I x. cbn [combine fD fQ]. split; intros H.
  - apply orb_true_iff. right. apply existsb_exists. exists b. auto.
  - apply orb_true_iff. left. apply orb_true_iff. right. apply existsb_exists. exists b. auto.
Qed.

Lemma combine_wf deps u brs : wf deps u -> (forall b, In b brs -> exists d, wf d b) ->
  forall d', (forall x, memb x d' = true -> memb x deps = true \/ exists b d, In b brs /\ wf d b /\ memb x d = true) -> wf d' (combine u brs).
Proof.
  intros W WB d' HD x. cbn [combine fD fQ fL fN].
  assert (FN : d_in_all brs x = true -> existsb (fun br : usage => fD (br x)) brs = true).
  { intros H. destruct brs as [|b brs]; [discriminate|]. cbn [d_in_all forallb] in H. apply andb_true_iff in H as [H _].
    unfold exact_d in H. cbn [existsb]. destruct (fD (b x)); [reflexivity|discriminate]. }
  split; [|split; [|split]]; intros H.
  - destruct (HD x H) as [A|(b & d & I & Wb & A)].
    + destruct (W x) as (B & _). now rewrite (B A).
    + apply orb_true_iff. right. apply existsb_exists. exists b. split; [exact I|]. destruct (Wb x) as (B & _). auto.
  - apply orb_true_iff. right. exact (FN H).
  - apply andb_true_iff in H as [H _]. apply andb_true_iff in H as [H _]. apply existsb_exists in H as (b & I & H).
    apply andb_true_iff in H as [H _]. apply orb_true_iff. right. apply existsb_exists. exists b. split; [exact I|].
    destruct (WB b I) as (d & Wb). destruct (Wb x) as (_ & B & _). destruct (fD (b x)); [reflexivity|]. cbn in H. auto.
  - rewrite H. apply andb_false_r.
Qed.

Lemma memb_In x l : memb x l = true <-> In x l.
Proof.
  unfold memb. rewrite existsb_exists. split.
  - intros (y & I & E). apply Nat.eqb_eq in E. now subst.
  - intros I. exists x. split; [exact I|apply Nat.eqb_refl].
Qed.

(** Usage, dependencies after an instruction. *)
Definition grows (s s' : list var * usage) : Prop := mono (snd s) (snd s') /\ (forall x, memb x (fst s) = true -> memb x (fst s') = true).
Definition good_ch tmp (c : ch) : Prop := forall s, wf (fst s) (snd s) -> wf (fst (snd (anal tmp c s))) (snd (snd (anal tmp c s))) /\ grows s (snd (anal tmp c s)).
Definition good_list tmp (l : list ch) : Prop := forall s, wf (fst s) (snd s) -> wf (fst (snd (anals tmp l s))) (snd (snd (anals tmp l s))) /\ grows s (snd (anals tmp l s)).

Lemma grows_refl s : grows s s.
Proof. split; auto using mono_refl. Qed.
Lemma grows_trans a b c : grows a b -> grows b c -> grows a c.
Proof. intros [A B] [C D]. split; eauto using mono_trans. Qed.

Lemma good_app tmp l : Forall (good_ch tmp) l -> good_list tmp l.
Proof.
  induction 1 as [|c r Hc Hr IH]; intros s W.
  - cbn [anals snd]. split; [exact W|apply grows_refl].
  - rewrite anals_cons. cbn [snd]. destruct (Hc s W) as [W1 G1]. destruct (IH _ W1) as [W2 G2].
    split; [exact W2|]. eapply grows_trans; eassumption.
Qed.

Lemma good_cases tmp cs s : wf (fst s) (snd s) -> Forall (fun c => good_list tmp (snd c)) cs ->
  forall b, In b (snd (anal_cases tmp cs s)) -> exists c, In c cs /\ b = snd (snd (anals tmp (snd c) s)) /\
     wf (fst (snd (anals tmp (snd c) s))) b /\ grows s (fst (snd (anals tmp (snd c) s)), b).
Proof.
  intros W. induction 1 as [|[v l] r Hc Hr IH]; intros b I.
  - destruct I.
  - rewrite cases_cons in I. cbn [snd] in I. destruct I as [<-|I].
    + exists (v, l). cbn [snd] in *. destruct (Hc s W) as [W1 G1]. repeat split; auto; try (now left); try apply W1; try apply G1.
    + destruct (IH b I) as (c & Ic & E & W1 & G1). exists c. split; [now right|]. auto.
Qed.
Lemma cases_deps tmp cs s x : memb x (snd (fst (anal_cases tmp cs s))) = true ->
  exists c, In c cs /\ memb x (fst (snd (anals tmp (snd c) s))) = true.
Proof.
  induction cs as [|[v l] r IH]; intros H.
  - discriminate.
  - rewrite cases_cons in H. cbn [fst snd] in H. rewrite memb_app in H. apply orb_true_iff in H as [H|H].
    + exists (v, l). split; [now left|exact H].
    + destruct (IH H) as (c & I & E). exists c. split; [now right|exact E].
Qed.
Lemma cases_usage tmp cs s c : In c cs -> In (snd (snd (anals tmp (snd c) s))) (snd (anal_cases tmp cs s)).
Proof.
  induction cs as [|[v l] r IH]; intros H; [destruct H|]. rewrite cases_cons. cbn [snd].
  destruct H as [<-|H]; [now left|right; auto].
Qed.

Lemma good_all tmp c : good_ch tmp c.
Proof.
  induction c as [x e|x g h i e|x h e|e|n|l|e a b Ha Hb|e cs Hcs|e a b Ha Hb|e cs Hcs|e a n Ha] using ch_ind2; intros [deps u] W; cbn [fst snd] in *.
  - cbn [anal fst snd]. split.
    + apply kread_wf, wf_write, W.
    + split; cbn [fst snd].
      * eapply mono_trans; [apply kwrite_mono|apply kread_mono].
      * intros y Hy. cbn [memb existsb]. unfold memb in Hy. rewrite Hy. apply orb_true_r.
  - cbn [anal fst snd]. split.
    + apply kread_wf, wf_upd_q, wf_write, kread_wf, W.
    + split; cbn [fst snd].
      * eapply mono_trans; [|apply kread_mono]. eapply mono_trans; [|apply updq_mono]. eapply mono_trans; [apply kread_mono|apply kwrite_mono].
      * intros y Hy. cbn [memb existsb]. unfold memb in Hy. rewrite Hy. apply orb_true_r.
  - cbn [anal fst snd]. split.
    + apply kread_wf, wf_write, W.
    + split; cbn [fst snd].
      * eapply mono_trans; [apply kwrite_mono|apply kread_mono].
      * intros y Hy. cbn [memb existsb]. unfold memb in Hy. rewrite Hy. apply orb_true_r.
  - cbn [anal fst snd]. split; [now apply kread_wf|]. split; cbn [fst snd]; auto. apply kread_mono.
  - cbn [anal fst snd]. split; [exact W|apply grows_refl].
  - cbn [anal fst snd]. split; [exact W|apply grows_refl].
  - rewrite anal_rawif. cbn [snd]. split; [exact W|apply grows_refl].
  - rewrite anal_rawcase. cbn [snd]. split; [exact W|apply grows_refl].
  - rewrite anal_if. cbv zeta. cbn [fst snd].
    assert (W1 : wf deps (kread tmp deps e u)) by now apply kread_wf.
    destruct (good_app tmp a Ha (deps, kread tmp deps e u) W1) as [WA [GA GA']].
    destruct (good_app tmp b Hb (deps, kread tmp deps e u) W1) as [WB [GB GB']].
    split.
    + eapply combine_wf; [exact W1| |].
      * intros v [<-|[<-|[]]]; eexists; eassumption.
      * intros x Hx. rewrite !memb_app in Hx. apply orb_true_iff in Hx as [Hx|Hx]; [now left|]. right.
        apply orb_true_iff in Hx as [Hx|Hx]; do 2 eexists; (split; [|split; [|exact Hx]]); eauto; cbn; auto.
    + split; cbn [fst snd].
      * eapply mono_trans; [apply kread_mono|apply combine_mono].
      * intros x Hx. rewrite memb_app, Hx. reflexivity.
  - rewrite anal_case. cbv zeta. cbn [fst snd].
    assert (W1 : wf deps (kread tmp deps e u)) by now apply kread_wf.
    assert (GC : Forall (fun c => good_list tmp (snd c)) cs).
    { eapply Forall_impl; [|exact Hcs]. intros c Hc. now apply good_app. }
    split.
    + eapply combine_wf; [exact W1| |].
      * intros v I.
        assert (In v (snd (anal_cases tmp cs (deps, kread tmp deps e u))) \/ v = kread tmp deps e u) as [I'| ->].
        { destruct (has_default cs); [now left|]. apply in_app_or in I as [I|[<-|[]]]; auto. }
        -- destruct (good_cases tmp cs (deps, kread tmp deps e u) W1 GC v I') as (c & _ & _ & Wv & _). eexists; exact Wv.
        -- eexists; exact W1.
      * intros x Hx. rewrite memb_app in Hx. apply orb_true_iff in Hx as [Hx|Hx]; [now left|]. right.
        destruct (cases_deps tmp cs _ x Hx) as (c & Ic & Ec).
        exists (snd (snd (anals tmp (snd c) (deps, kread tmp deps e u)))), (fst (snd (anals tmp (snd c) (deps, kread tmp deps e u)))).
        split; [|split; [|exact Ec]].
        -- pose proof (cases_usage tmp cs (deps, kread tmp deps e u) c Ic) as I. destruct (has_default cs); [exact I|]. apply in_or_app. now left.
        -- rewrite Forall_forall in GC. apply (GC c Ic (deps, kread tmp deps e u) W1).
    + split; cbn [fst snd].
      * eapply mono_trans; [apply kread_mono|apply combine_mono].
      * intros x Hx. rewrite memb_app, Hx. reflexivity.
  - rewrite anal_while. cbv zeta. cbn [fst snd].
    assert (W1 : wf deps (kread tmp deps e u)) by now apply kread_wf.
    destruct (good_app tmp a Ha (deps, kread tmp deps e u) W1) as [WA [GA GA']].
    split.
    + eapply combine_wf; [exact W1| |].
      * intros v [<-|[]]; eexists; eassumption.
      * intros x Hx. rewrite !memb_app in Hx. apply orb_true_iff in Hx as [Hx|Hx]; [now left|].
        apply orb_true_iff in Hx as [Hx|Hx]; [|now left]. right. do 2 eexists; (split; [|split; [|exact Hx]]); eauto; cbn; auto.
    + split; cbn [fst snd].
      * eapply mono_trans; [apply kread_mono|apply combine_mono].
      * intros x Hx. rewrite memb_app, Hx. reflexivity.
Qed.
Lemma good_lists tmp l : good_list tmp l.
Proof. apply good_app, Forall_forall. intros c _. apply good_all. Qed.
