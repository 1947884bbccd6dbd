(** Values which the code does not depend on: registers whose Q side is not recorded as used. *)
From Coq Require Import List Bool Arith ZArith Lia.
Import ListNotations.
From Verif Require Import FsmModel FsmRun FsmEmit UseModel UseProofs.

(** Variables named in the text of the compiler. *)
Fixpoint vvars (e : vexp) : list var :=
  match e with VC _ => [] | VQ x | VD x => [x] | VU _ a => vvars a | VB _ a b => vvars a ++ vvars b end.
(** The branches of wait and return: index, registers of the compiler. *)
Definition inert (c : ch) : bool := match c with KIdx _ | KRaw _ => true | _ => false end.

(** * Chains considered. [q]: registers which are not demoted; [p]: variables which are read.
    No assignment of a bitfield member (but of a variable in [q]), no loop followed by another state. *)
Section Ok.
  Variables q p : var -> bool.
  Fixpoint okc (c : ch) : bool :=
    let all := fix all (l : list ch) : bool := match l with [] => true | c :: r => okc c && all r end in
    match c with
    | KSet _ e => forallb p (evars e)
    | KPart _ _ _ i e => forallb p (evars i) && forallb p (evars e)
    | KField x _ e => q x && forallb p (evars e)
    | KRead e => forallb p (evars e)
    | KIdx _ => true
    | KRaw l => forallb (fun a => q (fst a) && forallb q (vvars (snd a))) l
    | KRawIf e a b => forallb q (vvars e) && (forallb inert a && forallb inert b) && (all a && all b)
    | KRawCase e cs => forallb q (vvars e) && forallb (fun c => forallb inert (snd c)) cs
                       && (fix go (cs : list (option Z * list ch)) := match cs with [] => true | (_, l) :: r => all l && go r end) cs
    | KIf e a b => forallb p (evars e) && (all a && all b)
    | KCase e cs => forallb p (evars e) && (fix go (cs : list (option Z * list ch)) := match cs with [] => true | (_, l) :: r => all l && go r end) cs
    | KWhile _ _ _ => false
    end.
  Definition oks (l : list ch) : bool := forallb okc l.
  Lemma ok_fix l : (fix all (l : list ch) : bool := match l with [] => true | c :: r => okc c && all r end) l = oks l.
  Proof. unfold oks. induction l as [|c r IH]; [reflexivity|]. cbn [forallb]. now rewrite <- IH. Qed.
  Lemma ok_cases_fix cs :
    (fix go (cs : list (option Z * list ch)) := match cs with [] => true | (_, l) :: r => (fix all (l : list ch) : bool := match l with [] => true | c :: r => okc c && all r end) l && go r end) cs
    = forallb (fun c => oks (snd c)) cs.
  Proof. induction cs as [|[v l] r IH]; [reflexivity|]. cbn [forallb snd]. now rewrite <- IH, ok_fix. Qed.
  Lemma ok_if e a b : okc (KIf e a b) = forallb p (evars e) && (oks a && oks b).
  Proof. cbn [okc]. now rewrite !ok_fix. Qed.
  Lemma ok_rawif e a b : okc (KRawIf e a b) = forallb q (vvars e) && (forallb inert a && forallb inert b) && (oks a && oks b).
  Proof. cbn [okc]. now rewrite !ok_fix. Qed.
  Lemma ok_case e cs : okc (KCase e cs) = forallb p (evars e) && forallb (fun c => oks (snd c)) cs.
  Proof. cbn [okc]. now rewrite ok_cases_fix. Qed.
  Lemma ok_rawcase e cs : okc (KRawCase e cs) = forallb q (vvars e) && forallb (fun c => forallb inert (snd c)) cs && forallb (fun c => oks (snd c)) cs.
  Proof. cbn [okc]. now rewrite ok_cases_fix. Qed.
End Ok.

(** * The two executions *)
Definition tmp0 : var -> bool := fun _ => false.

Lemma kread_write deps e x u : mono (kread tmp0 deps e u) (kread tmp0 deps e (kwrite x u)).
Proof.
  assert (G : forall u v, mono u v -> (forall y, fL (u y) = fL (v y)) -> mono (kread tmp0 deps e u) (kread tmp0 deps e v) /\ (forall y, fL (kread tmp0 deps e u y) = fL (kread tmp0 deps e v y))).
  { induction e as [n|z|f a IH|f a IHa b IHb]; intros v w M L; cbn [kread]; auto.
    - cbn [tmp0 orb]. split; intros y; unfold uset; destruct (Nat.eqb_spec y z) as [->|N]; try apply M; try apply L.
      + destruct (M z) as [M1 M2]. specialize (L z). destruct (memb z deps); cbn [upd_d upd_q fD fQ]; split; auto.
        rewrite L. intros F. apply orb_true_iff in F as [F|F]; [rewrite (M2 F); reflexivity|]. cbn [andb] in *. rewrite F. apply orb_true_r.
      + specialize (L z). destruct (memb z deps); exact L.
    - destruct (IHa v w M L) as [Ma La]. exact (IHb _ _ Ma La). }
  apply G; [apply kwrite_mono|]. intros y. unfold kwrite, uset. destruct (Nat.eqb_spec y x); [subst|]; reflexivity.
Qed.
Lemma wf_write' deps u x : wf deps u -> wf deps (kwrite x u).
Proof.
  intros W y. pose proof (wf_write deps u x W y) as (B1 & B2). split; [|exact B2]. intros F. apply B1.
  cbn [memb existsb]. unfold memb in F. rewrite F. apply orb_true_r.
Qed.

Section Two.
  Variables Q1 Q2 : store.
  Variable p : var -> bool.

  Definition inv (u : usage) (D1 D2 : store) : Prop := forall x, p x = true ->
    fQ (u x) = true \/ fD (u x) = false \/ fL (u x) = true \/ D1 x = D2 x.
  (** The registers agree where a use of Q is recorded. *)
  Definition agr (u : usage) (D1 D2 : store) : Prop := forall x, fQ (u x) = true -> Q1 x = Q2 x /\ D1 x = D2 x.
  Definition keeps (D1 D2 D1' D2' : store) : Prop := forall x, D1 x = D2 x -> D1' x = D2' x.
  Definition sound (code : list vst) (u u' : usage) : Prop := forall D1 D2 i, inv u D1 D2 -> agr u' D1 D2 ->
    snd (vexecs Q1 code (D1, i)) = snd (vexecs Q2 code (D2, i)) /\
    keeps D1 D2 (fst (vexecs Q1 code (D1, i))) (fst (vexecs Q2 code (D2, i))) /\
    inv u' (fst (vexecs Q1 code (D1, i))) (fst (vexecs Q2 code (D2, i))).

  Lemma agr_mono u u' D1 D2 : mono u u' -> agr u' D1 D2 -> agr u D1 D2.
  Proof. intros M A x H. apply A, M, H. Qed.
  Lemma agr_keeps u D1 D2 D1' D2' : keeps D1 D2 D1' D2' -> agr u D1 D2 -> agr u D1' D2'.
  Proof. intros K A x H. destruct (A x H). auto. Qed.
  Lemma keeps_refl D1 D2 : keeps D1 D2 D1 D2.
  Proof. intros x H; exact H. Qed.
  Lemma keeps_trans A1 A2 B1 B2 C1 C2 : keeps A1 A2 B1 B2 -> keeps B1 B2 C1 C2 -> keeps A1 A2 C1 C2.
  Proof. intros H K x E. auto. Qed.
  Lemma keeps_upd D1 D2 x v : keeps D1 D2 (upd D1 x v) (upd D2 x v).
  Proof. intros y H. unfold upd. destruct (Nat.eqb y x); auto. Qed.

  (** Reading. *)
  Lemma read_ok deps e : forall u D1 D2, forallb p (evars e) = true -> wf deps u -> inv u D1 D2 -> agr (kread tmp0 deps e u) D1 D2 ->
    inv (kread tmp0 deps e u) D1 D2 /\ veval Q1 D1 (krw tmp0 deps e) = veval Q2 D2 (krw tmp0 deps e).
  Proof.
    induction e as [n|x|f a IH|f a IHa b IHb]; intros u D1 D2 P W H A; cbn [kread krw evars forallb] in *.
    - split; [exact H|reflexivity].
    - apply andb_true_iff in P as [P _].
      assert (I : inv (uset u x (if tmp0 x || memb x deps then upd_d true (u x) else upd_q (u x))) D1 D2).
      { intros y Py. unfold uset. destruct (Nat.eqb_spec y x) as [->|N]; [|now apply H]. cbn [tmp0 orb].
        destruct (memb x deps) eqn:E; cbn [upd_d upd_q fQ fD fL]; [|now left]. destruct (W x) as (W1 & _). specialize (W1 E).
        destruct (H x P) as [B|[B|[B|B]]]; [rewrite B; auto|congruence|rewrite B; left; apply orb_true_r|auto]. }
      split; [exact I|]. specialize (A x). rewrite uset_same in A. cbn [tmp0 orb] in A |- *.
      destruct (memb x deps) eqn:E; cbn [upd_d upd_q fQ veval] in *; [|now apply A]. destruct (W x) as (W1 & _). specialize (W1 E).
      destruct (H x P) as [B|[B|[B|B]]]; [rewrite B in A; now apply A|congruence|rewrite B, orb_true_r in A; now apply A|exact B].
    - destruct (IH u D1 D2 P W H A) as [I V]. split; [exact I|]. cbn [veval]. now rewrite V.
    - rewrite forallb_app in P. apply andb_true_iff in P as [Pa Pb].
      assert (Aa : agr (kread tmp0 deps a u) D1 D2) by (eapply agr_mono; [apply kread_mono|exact A]).
      destruct (IHa u D1 D2 Pa W H Aa) as [Ia Va].
      destruct (IHb (kread tmp0 deps a u) D1 D2 Pb (kread_wf _ _ _ _ _ W) Ia A) as [Ib Vb]. split; [exact Ib|]. cbn [veval]. now rewrite Va, Vb.
  Qed.

  Lemma write_inv x u D1 D2 v : inv u D1 D2 -> inv (kwrite x u) (upd D1 x v) (upd D2 x v).
  Proof.
    intros H y Py. unfold kwrite, uset, upd. destruct (Nat.eqb_spec y x) as [->|N]; [auto|now apply H].
  Qed.
  Lemma updq_inv x u D1 D2 : inv u D1 D2 -> inv (uset u x (upd_q (u x))) D1 D2.
  Proof. intros H y Py. unfold uset. destruct (Nat.eqb_spec y x) as [->|N]; [now left|now apply H]. Qed.

  (** Merging branches: [b] is the one which is executed. *)
  Lemma combine_inv u brs b deps D1 D2 D1' D2' :
    wf deps u -> (forall b', In b' brs -> (exists d, wf d b') /\ mono u b') ->
    In b brs -> inv u D1 D2 -> keeps D1 D2 D1' D2' -> inv b D1' D2' -> inv (combine u brs) D1' D2'.
  Proof.
    intros W WB I Hu K Hb x Px. cbn [combine fQ fD fL].
    destruct (WB b I) as [[db Wb] Mb].
    destruct (Z.eq_dec (D1' x) (D2' x)) as [E|NE]; [auto|].
    assert (NE0 : D1 x <> D2 x) by (intros F; apply NE, K, F).
    destruct (fQ (u x)) eqn:EQ; [left; reflexivity|]. cbn [orb].
    destruct (existsb (fun br : usage => fQ (br x)) brs) eqn:EQB; [left; reflexivity|]. cbn [orb].
    assert (NQ : forall b', In b' brs -> fQ (b' x) = false).
    { intros b' I'. destruct (fQ (b' x)) eqn:F; [|reflexivity].
      assert (existsb (fun br : usage => fQ (br x)) brs = true) as G by (apply existsb_exists; eauto). congruence. }
    assert (NN : fN (u x) = false).
    { destruct (fN (u x)) eqn:F; [|reflexivity]. destruct (W x) as (_ & W2 & _ & W4). specialize (W2 F). specialize (W4 F).
      destruct (Hu x Px) as [B|[B|[B|B]]]; congruence. }
    rewrite NN. cbn [negb]. rewrite andb_true_r.
    destruct (fL (u x)) eqn:EL.
    { left. rewrite andb_true_r. apply existsb_exists. exists b. split; [exact I|]. rewrite (NQ b I). cbn [negb]. rewrite andb_true_r.
      apply Mb. destruct (W x) as (_ & _ & W3 & _). auto. }
    rewrite andb_false_r.
    assert (NA : d_in_all brs x = true -> exact_d (b x) = true).
    { intros F. destruct brs as [|b0 brs]; [discriminate|]. unfold d_in_all in F. rewrite forallb_forall in F. now apply F. }
    assert (DA : d_in_all brs x = false).
    { destruct (d_in_all brs x); [|reflexivity]. specialize (NA eq_refl). unfold exact_d in NA.
      apply andb_true_iff in NA as [N1 N2]. apply andb_true_iff in N1 as [N1 N3].
      destruct (Hb x Px) as [B|[B|[B|B]]]; [rewrite B in N3; discriminate|congruence|rewrite B in N2; discriminate|congruence]. }
    rewrite DA. cbn [negb]. rewrite andb_true_r.
    destruct (fD (u x)) eqn:ED.
    { right. right. left. apply existsb_exists. exists b. split; [exact I|]. rewrite (NQ b I). cbn [negb]. rewrite andb_true_r.
      destruct (Mb x) as [Md _]. now rewrite (Md ED). }
    destruct (existsb (fun br : usage => fD (br x)) brs) eqn:EB; [|now (right; left)].
    right. right. left. apply existsb_exists in EB as (b' & I' & B). apply existsb_exists. exists b'. split; [exact I'|].
    now rewrite B, (NQ b' I').
  Qed.

  Lemma sound_nil u : sound [] u u.
  Proof. intros D1 D2 i H A. cbn [vexecs fst snd]. split; [reflexivity|]. split; [apply keeps_refl|exact H]. Qed.
  Lemma sound_app c1 c2 u u1 u2 : mono u1 u2 -> sound c1 u u1 -> sound c2 u1 u2 -> sound (c1 ++ c2) u u2.
  Proof.
    intros M S1 S2 D1 D2 i H A. rewrite !vexecs_app.
    destruct (S1 D1 D2 i H (agr_mono _ _ _ _ M A)) as (E1 & K1 & I1).
    destruct (vexecs Q1 c1 (D1, i)) as [D1' i1] eqn:X1. destruct (vexecs Q2 c1 (D2, i)) as [D2' i2] eqn:X2. cbn [fst snd] in *. subst i2.
    destruct (S2 D1' D2' i1 I1 (agr_keeps _ _ _ _ _ K1 A)) as (E2 & K2 & I2).
    split; [exact E2|]. split; [|exact I2]. eapply keeps_trans; eassumption.
  Qed.

  (** Registers of the compiler. *)
  Variable q : var -> bool.
  Lemma vvars_eval e u D1 D2 : (forall x, q x = true -> fQ (u x) = true) -> forallb q (vvars e) = true -> agr u D1 D2 -> veval Q1 D1 e = veval Q2 D2 e.
  Proof.
    intros HQ. induction e as [n|x|x|f a IH|f a IHa b IHb]; intros H A; cbn [vvars veval forallb] in *.
    - reflexivity.
    - apply andb_true_iff in H as [H _]. now apply A, HQ.
    - apply andb_true_iff in H as [H _]. now apply A, HQ.
    - now rewrite IH.
    - rewrite forallb_app in H. apply andb_true_iff in H as [H1 H2]. now rewrite IHa, IHb.
  Qed.
  Lemma raw_sound l u : (forall x, q x = true -> fQ (u x) = true) -> forallb (fun a => q (fst a) && forallb q (vvars (snd a))) l = true ->
    sound (map (fun a => VSet (fst a) (snd a)) l) u u.
  Proof.
    intros HQ. induction l as [|[x e] l IH]; intros H; cbn [map forallb fst snd] in *.
    - apply sound_nil.
    - apply andb_true_iff in H as [H1 H2]. apply andb_true_iff in H1 as [Hx He].
      change (sound ([VSet x e] ++ map (fun a => VSet (fst a) (snd a)) l) u u). apply sound_app with (u1 := u); [apply mono_refl| |now apply IH].
      intros D1 D2 i Hi A. cbn [vexecs vexec fst snd]. split; [reflexivity|]. rewrite (vvars_eval e u D1 D2 HQ He A). split; [apply keeps_upd|].
      intros y Py. unfold upd. destruct (Nat.eqb_spec y x); [auto|now apply Hi].
  Qed.
  Lemma inert_sound l s : (forall x, q x = true -> fQ (snd s x) = true) -> forallb inert l = true -> oks q p l = true ->
    sound (fst (anals tmp0 l s)) (snd s) (snd s) /\ snd (anals tmp0 l s) = s.
  Proof.
    intros HQ. induction l as [|c l IH]; intros H R.
    - cbn [anals fst snd]. split; [apply sound_nil|reflexivity].
    - unfold oks in R, IH. cbn [forallb] in H, R. apply andb_true_iff in H as [Hc Hl]. apply andb_true_iff in R as [Rc Rl].
      destruct (IH Hl Rl) as [S E]. rewrite anals_cons. destruct s as [d u]. cbn [fst snd] in *.
      destruct c; try discriminate; cbn [anal fst snd].
      + split; [|exact E]. apply sound_app with (u1 := u); [apply mono_refl| |exact S].
        intros D1 D2 i Hi A. cbn [vexecs vexec fst snd]. split; [reflexivity|]. split; [apply keeps_refl|exact Hi].
      + split; [|exact E]. apply sound_app with (u1 := u); [apply mono_refl| |exact S]. apply raw_sound; [exact HQ|exact Rc].
  Qed.

  Lemma if_sound e ca cb deps u ua ub :
    let u1 := kread tmp0 deps e u in
    forallb p (evars e) = true -> wf deps u -> (exists d, wf d ua) -> (exists d, wf d ub) -> mono u1 ua -> mono u1 ub ->
    sound ca u1 ua -> sound cb u1 ub -> sound [VIf (krw tmp0 deps e) ca cb] u (combine u1 [ua; ub]).
  Proof.
    cbv zeta. intros P W Wa Wb Ma Mb Sa Sb D1 D2 i H A.
    assert (A1 : agr (kread tmp0 deps e u) D1 D2) by (eapply agr_mono; [apply combine_mono|exact A]).
    destruct (read_ok deps e u D1 D2 P W H A1) as [H1 V].
    cbn [vexecs]. rewrite !vexec_if. cbn [fst]. rewrite V.
    assert (WF : forall b', In b' [ua; ub] -> (exists d, wf d b') /\ mono (kread tmp0 deps e u) b').
    { intros b' [<-|[<-|[]]]; split; assumption. }
    destruct (truth (veval Q2 D2 (krw tmp0 deps e))).
    - destruct (Sa D1 D2 i H1) as (E & K & I).
      { eapply agr_mono; [|exact A]. apply combine_mono_br. now left. }
      split; [exact E|]. split; [exact K|]. eapply combine_inv; [apply kread_wf, W|exact WF| |exact H1|exact K|exact I]. now left.
    - destruct (Sb D1 D2 i H1) as (E & K & I).
      { eapply agr_mono; [|exact A]. apply combine_mono_br. right. now left. }
      split; [exact E|]. split; [exact K|]. eapply combine_inv; [apply kread_wf, W|exact WF| |exact H1|exact K|exact I]. right. now left.
  Qed.

  Definition sound_list (l : list ch) : Prop := forall s, wf (fst s) (snd s) -> (forall x, q x = true -> fQ (snd s x) = true) ->
    sound (fst (anals tmp0 l s)) (snd s) (snd (snd (anals tmp0 l s))).
  Definition sound_ch (c : ch) : Prop := forall s, wf (fst s) (snd s) -> (forall x, q x = true -> fQ (snd s x) = true) ->
    sound (fst (anal tmp0 c s)) (snd s) (snd (snd (anal tmp0 c s))).

  Lemma sound_lists l : Forall sound_ch l -> sound_list l.
  Proof.
    induction 1 as [|c r Hc Hr IH]; intros s W HQ.
    - cbn [anals fst snd]. apply sound_nil.
    - rewrite anals_cons. cbn [fst snd]. destruct (good_all tmp0 c s W) as [W1 [G1 _]].
      destruct (good_lists tmp0 r _ W1) as [W2 [G2 _]]. eapply sound_app; [exact G2|apply Hc; assumption|].
      apply IH; [exact W1|]. intros x Hx. apply G1, HQ, Hx.
  Qed.

  (** The branch selected by a switch. *)
  Lemma pick_cases v cs s : match pick v (fst (fst (anal_cases tmp0 cs s))) with
    | Some code => exists c, In c cs /\ code = fst (anals tmp0 (snd c) s)
    | None => has_default cs = false
    end.
  Proof.
    assert (PC : forall cs, match pick_case v (fst (fst (anal_cases tmp0 cs s))) with Some code => exists c, In c cs /\ code = fst (anals tmp0 (snd c) s) | None => True end).
    { induction cs0 as [|[w l] r IH]; [exact I|]. rewrite cases_cons. cbn [fst pick_case].
      destruct w as [z|].
      - destruct (z =? v)%Z; [exists (Some z, l); split; [now left|reflexivity]|].
        destruct (pick_case v _); [|exact I]. destruct IH as (c & Ic & Ec). exists c. split; [now right|exact Ec].
      - destruct (pick_case v _); [|exact I]. destruct IH as (c & Ic & Ec). exists c. split; [now right|exact Ec]. }
    assert (PD : forall cs, match pick_default (fst (fst (anal_cases tmp0 cs s))) with Some code => exists c, In c cs /\ code = fst (anals tmp0 (snd c) s) | None => has_default cs = false end).
    { induction cs0 as [|[w l] r IH]; [reflexivity|]. rewrite cases_cons. cbn [fst pick_default].
      destruct w as [z|].
      - destruct (pick_default _).
        + destruct IH as (c & Ic & Ec). exists c. split; [now right|exact Ec].
        + exact IH.
      - exists (None, l). split; [now left|reflexivity]. }
    unfold pick. specialize (PC cs). destruct (pick_case v (fst (fst (anal_cases tmp0 cs s)))); [exact PC|apply PD].
  Qed.

  Lemma pick_raw v cs s code : pick v (raw_cases tmp0 cs s) = Some code -> exists c, In c cs /\ code = fst (anals tmp0 (snd c) s).
  Proof.
    intros H. unfold pick in H.
    destruct (pick_case v (raw_cases tmp0 cs s)) as [c'|] eqn:E.
    - injection H as ->. unfold raw_cases in E. induction cs as [|[w l] r IH]; [discriminate|]. cbn [map fst snd pick_case] in E.
      destruct w as [z|]; [destruct (z =? v)%Z; [injection E as <-; exists (Some z, l); split; [now left|reflexivity]|]|];
        destruct (IH E) as (c & Ic & Ec); exists c; (split; [now right|exact Ec]).
    - clear E. unfold raw_cases in H. induction cs as [|[w l] r IH]; [discriminate|]. cbn [map fst snd pick_default] in H.
      destruct w as [z|]; [|injection H as <-; exists (None, l); split; [now left|reflexivity]].
      destruct (IH H) as (c & Ic & Ec); exists c; (split; [now right|exact Ec]).
  Qed.

  Lemma sound_all c : okc q p c = true -> sound_ch c.
  Proof.
    induction c as [x e|x g h i e|x h e|e|n|l|e a b Ha Hb|e cs Hcs|e a b Ha Hb|e cs Hcs|e a n Ha] using ch_ind2;
      intros P [deps u] W HQ; cbn [fst snd] in *.
    - (* KSet *) cbn [okc] in P. cbn [anal fst snd]. intros D1 D2 i H A.
      assert (A1 : agr (kread tmp0 deps e u) D1 D2) by (eapply agr_mono; [apply kread_write|exact A]).
      destruct (read_ok deps e u D1 D2 P W H A1) as [_ V].
      cbn [vexecs vexec fst snd]. split; [reflexivity|]. rewrite V. split; [apply keeps_upd|].
      assert (I1 : inv (kwrite x u) (upd D1 x (veval Q2 D2 (krw tmp0 deps e))) (upd D2 x (veval Q2 D2 (krw tmp0 deps e)))) by now apply write_inv.
      eapply read_ok; [exact P| |exact I1|].
      + now apply wf_write'.
      + eapply agr_keeps; [apply keeps_upd|exact A].
    - (* KPart *) cbn [okc] in P. apply andb_true_iff in P as [Pi Pe]. cbn [anal fst snd]. intros D1 D2 j H A.
      set (u0 := kread tmp0 deps i u) in *. set (u1 := kwrite x u0) in *. set (u2 := uset u1 x (upd_q (u1 x))) in *.
      assert (A2 : agr u2 D1 D2) by (eapply agr_mono; [apply kread_mono|exact A]).
      assert (A1 : agr u1 D1 D2) by (eapply agr_mono; [apply updq_mono|exact A2]).
      assert (A0 : agr u0 D1 D2) by (eapply agr_mono; [apply kwrite_mono|exact A1]).
      destruct (read_ok deps i u D1 D2 Pi W H A0) as [I0 V0].
      assert (W0 : wf deps u0) by now apply kread_wf.
      assert (W1 : wf deps u1) by now apply wf_write'.
      assert (EX : D1 x = D2 x) by (apply A2; unfold u2; now rewrite uset_same).
      assert (I1 : inv u1 D1 D2).
      { intros y Py. unfold u1, kwrite, uset. destruct (Nat.eqb_spec y x) as [->|N]; [auto|now apply I0]. }
      assert (I2 : inv u2 D1 D2) by (unfold u2; now apply updq_inv).
      assert (W2 : wf deps u2) by (unfold u2; now apply wf_upd_q).
      destruct (read_ok deps e u2 D1 D2 Pe W2 I2 A) as [I3 V3].
      cbn [vexecs vexec fst snd veval]. split; [reflexivity|]. rewrite V0, V3, EX. split; [apply keeps_upd|].
      intros y Py. unfold upd. destruct (Nat.eqb_spec y x) as [->|N]; [auto|now apply I3].
    - (* KField *) cbn [okc] in P. apply andb_true_iff in P as [Qx P]. cbn [anal fst snd]. intros D1 D2 i H A.
      assert (A1 : agr (kread tmp0 deps e u) D1 D2) by (eapply agr_mono; [apply kread_write|exact A]).
      destruct (read_ok deps e u D1 D2 P W H A1) as [_ V].
      assert (EX : D1 x = D2 x) by (apply A1; apply kread_mono, HQ, Qx).
      cbn [vexecs vexec fst snd veval]. split; [reflexivity|]. rewrite V, EX. split; [apply keeps_upd|].
      set (v := h (D2 x) (veval Q2 D2 (krw tmp0 deps e))).
      assert (I1 : inv (kwrite x u) (upd D1 x v) (upd D2 x v)) by now apply write_inv.
      eapply read_ok; [exact P| |exact I1|].
      + now apply wf_write'.
      + eapply agr_keeps; [apply keeps_upd|exact A].
    - (* KRead *) cbn [okc] in P. cbn [anal fst snd]. intros D1 D2 i H A. cbn [vexecs fst snd]. split; [reflexivity|]. split; [apply keeps_refl|].
      eapply read_ok; eassumption.
    - cbn [anal fst snd]. intros D1 D2 i H A. cbn [vexecs vexec fst snd]. split; [reflexivity|]. split; [apply keeps_refl|exact H].
    - cbn [okc] in P. cbn [anal fst snd]. apply raw_sound; [exact HQ|exact P].
    - (* KRawIf *) rewrite anal_rawif. cbn [fst snd]. rewrite ok_rawif in P. apply andb_true_iff in P as [P1 P2].
      apply andb_true_iff in P1 as [Pe P1]. apply andb_true_iff in P1 as [Ta Tb]. apply andb_true_iff in P2 as [Pa Pb].
      destruct (inert_sound a (deps, u) HQ Ta Pa) as [Sa _]. destruct (inert_sound b (deps, u) HQ Tb Pb) as [Sb _]. cbn [snd] in Sa, Sb.
      intros D1 D2 i H A. cbn [vexecs]. rewrite !vexec_if. cbn [fst]. rewrite (vvars_eval e u D1 D2 HQ Pe A).
      destruct (truth (veval Q2 D2 e)); [now apply Sa|now apply Sb].
    - (* KRawCase *) rewrite anal_rawcase. cbn [fst snd]. rewrite ok_rawcase in P. apply andb_true_iff in P as [P1 Pc]. apply andb_true_iff in P1 as [Pe T].
      intros D1 D2 i H A. cbn [vexecs]. rewrite !vexec_case. cbn [fst]. rewrite (vvars_eval e u D1 D2 HQ Pe A).
      destruct (pick (veval Q2 D2 e) (raw_cases tmp0 cs (deps, u))) as [code|] eqn:EP.
      + apply pick_raw in EP as (c & Ic & ->). rewrite forallb_forall in Pc, T.
        destruct (inert_sound (snd c) (deps, u) HQ (T c Ic) (Pc c Ic)) as [S _]. now apply S.
      + cbn [fst snd]. split; [reflexivity|]. split; [apply keeps_refl|exact H].
    - (* KIf *) rewrite anal_if. cbv zeta. cbn [fst snd]. rewrite ok_if in P. apply andb_true_iff in P as [Pe P]. apply andb_true_iff in P as [Pa Pb].
      assert (W1 : wf deps (kread tmp0 deps e u)) by now apply kread_wf.
      assert (HQ1 : forall x, q x = true -> fQ (kread tmp0 deps e u x) = true) by (intros x Hx; apply kread_mono, HQ, Hx).
      assert (SA : sound_list a). { apply sound_lists. unfold oks in *. rewrite Forall_forall in *. rewrite forallb_forall in *. intros c Ic. apply Ha; auto. }
      assert (SB : sound_list b). { apply sound_lists. unfold oks in *. rewrite Forall_forall in *. rewrite forallb_forall in *. intros c Ic. apply Hb; auto. }
      destruct (good_lists tmp0 a (deps, kread tmp0 deps e u) W1) as [WA [GA _]].
      destruct (good_lists tmp0 b (deps, kread tmp0 deps e u) W1) as [WB [GB _]].
      apply if_sound; try assumption; try (eexists; eassumption).
      + exact (SA (deps, kread tmp0 deps e u) W1 HQ1).
      + exact (SB (deps, kread tmp0 deps e u) W1 HQ1).
    - (* KCase *) rewrite anal_case. cbv zeta. cbn [fst snd]. rewrite ok_case in P. apply andb_true_iff in P as [Pe P].
      assert (W1 : wf deps (kread tmp0 deps e u)) by now apply kread_wf.
      assert (HQ1 : forall x, q x = true -> fQ (kread tmp0 deps e u x) = true) by (intros x Hx; apply kread_mono, HQ, Hx).
      set (u1 := kread tmp0 deps e u) in *.
      set (brs := if has_default cs then snd (anal_cases tmp0 cs (deps, u1)) else snd (anal_cases tmp0 cs (deps, u1)) ++ [u1]).
      assert (GC : Forall (fun c => good_list tmp0 (snd c)) cs) by (apply Forall_forall; intros c _; apply good_lists).
      assert (IB : forall c, In c cs -> In (snd (snd (anals tmp0 (snd c) (deps, u1)))) brs).
      { intros c Ic. pose proof (cases_usage tmp0 cs (deps, u1) c Ic) as I. unfold brs. destruct (has_default cs); [exact I|]. apply in_or_app. now left. }
      assert (WF : forall b', In b' brs -> (exists d, wf d b') /\ mono u1 b').
      { intros b' I. assert (In b' (snd (anal_cases tmp0 cs (deps, u1))) \/ b' = u1) as [I'| ->].
        { unfold brs in I. destruct (has_default cs); [now left|]. apply in_app_or in I as [I|[<-|[]]]; auto. }
        - destruct (good_cases tmp0 cs (deps, u1) W1 GC b' I') as (c & _ & _ & Wv & G & _). split; [eexists; exact Wv|exact G].
        - split; [eexists; exact W1|apply mono_refl]. }
      intros D1 D2 i H A.
      assert (A1 : agr u1 D1 D2) by (eapply agr_mono; [apply combine_mono|exact A]).
      destruct (read_ok deps e u D1 D2 Pe W H A1) as [H1 V]. fold u1 in H1.
      cbn [vexecs]. rewrite !vexec_case. cbn [fst]. rewrite V.
      pose proof (pick_cases (veval Q2 D2 (krw tmp0 deps e)) cs (deps, u1)) as PK.
      destruct (pick (veval Q2 D2 (krw tmp0 deps e)) (fst (fst (anal_cases tmp0 cs (deps, u1))))) as [code|].
      + destruct PK as (c & Ic & ->).
        assert (SC : sound_list (snd c)).
        { apply sound_lists. rewrite forallb_forall in P. specialize (P c Ic).
          unfold oks in P. rewrite Forall_forall in Hcs. specialize (Hcs c Ic). rewrite Forall_forall in *. rewrite forallb_forall in P. intros k Ik. apply Hcs; auto. }
        destruct (SC (deps, u1) W1 HQ1 D1 D2 i H1) as (E & K & I).
        { eapply agr_mono; [|exact A]. apply combine_mono_br, IB, Ic. }
        split; [exact E|]. split; [exact K|]. eapply combine_inv; [exact W1|exact WF|apply IB, Ic|exact H1|exact K|exact I].
      + cbn [fst snd]. split; [reflexivity|]. split; [apply keeps_refl|].
        eapply combine_inv with (b := u1); [exact W1|exact WF| |exact H1|apply keeps_refl|exact H1].
        unfold brs. rewrite PK. apply in_or_app. right. now left.
    - discriminate.
  Qed.
  Lemma sound_chain l : oks q p l = true -> sound_list l.
  Proof.
    intros P. apply sound_lists. unfold oks in *. rewrite forallb_forall in *. apply Forall_forall. intros c Ic. apply sound_all; auto.
  Qed.
End Two.
