(** Units: the second writing, with demoted variables, and executions of whole cycles. *)
From Coq Require Import List Bool Arith ZArith Lia.
Import ListNotations.
From Verif Require Import FsmModel FsmRun FsmEmit UseModel UseProofs UseSound.

(** * The second writing yields the same code *)
Section Second.
  Variable tmp : var -> bool.
  Definition same_on (u' : usage) : Prop := forall x, tmp x = true -> fQ (u' x) = false.
  Lemma same_mono u v : mono u v -> same_on v -> same_on u.
  Proof. intros M H x T. specialize (H x T). destruct (fQ (u x)) eqn:E; [|reflexivity]. apply M in E. congruence. Qed.

  Lemma same_krw deps e u : same_on (kread tmp0 deps e u) -> krw tmp deps e = krw tmp0 deps e.
  Proof.
    revert u. induction e as [n|x|f a IH|f a IHa b IHb]; intros u H; cbn [krw kread] in *.
    - reflexivity.
    - cbn [tmp0 orb] in *. destruct (tmp x) eqn:T; [|reflexivity]. cbn [orb]. specialize (H x T). rewrite uset_same in H.
      destruct (memb x deps); [reflexivity|discriminate].
    - now rewrite (IH u).
    - rewrite (IHb (kread tmp0 deps a u) H). rewrite (IHa u); [reflexivity|]. eapply same_mono; [|exact H]; apply kread_mono.
  Qed.

  Definition same_ch (c : ch) : Prop := forall d u u2, wf d u -> same_on (snd (snd (anal tmp0 c (d, u)))) ->
    fst (anal tmp c (d, u2)) = fst (anal tmp0 c (d, u)) /\ fst (snd (anal tmp c (d, u2))) = fst (snd (anal tmp0 c (d, u))).
  Definition same_list (l : list ch) : Prop := forall d u u2, wf d u -> same_on (snd (snd (anals tmp0 l (d, u)))) ->
    fst (anals tmp l (d, u2)) = fst (anals tmp0 l (d, u)) /\ fst (snd (anals tmp l (d, u2))) = fst (snd (anals tmp0 l (d, u))).

  Lemma same_lists l : Forall same_ch l -> same_list l.
  Proof.
    induction 1 as [|c r Hc Hr IH]; intros d u u2 W S.
    - split; reflexivity.
    - rewrite !anals_cons in *. cbn [fst snd] in *. destruct (good_all tmp0 c (d, u) W) as [W1 [G1 _]].
      destruct (good_lists tmp0 r _ W1) as [W2 [G2 _]].
      destruct (Hc d u u2 W) as [E1 E2]; [eapply same_mono; [|exact S]; exact G2|].
      destruct (anal tmp c (d, u2)) as [c1 [d1 v1]]. destruct (anal tmp0 c (d, u)) as [c2 [d2 v2]]. cbn [fst snd] in *. subst c1 d1.
      destruct (IH d2 v2 v1 W1 S) as [F1 F2]. now rewrite F1, F2.
  Qed.

  Lemma inert_same l s s2 : forallb inert l = true -> fst (anals tmp l s) = fst (anals tmp0 l s2).
  Proof.
    revert s s2. induction l as [|c l IH]; intros s s2 H; [reflexivity|]. cbn [forallb] in H. apply andb_true_iff in H as [Hc Hl].
    rewrite !anals_cons. cbn [fst]. rewrite (IH (snd (anal tmp c s)) (snd (anal tmp0 c s2)) Hl). f_equal.
    destruct s, s2. destruct c; try discriminate; reflexivity.
  Qed.

  Lemma same_all q p c : okc q p c = true \/ (exists e a n, c = KWhile e a n /\ oks q p a = true) -> same_ch c.
  Proof.
    revert p. induction c as [x e|x g h i e|x h e|e|n|l|e a b Ha Hb|e cs Hcs|e a b Ha Hb|e cs Hcs|e a n Ha] using ch_ind2;
      intros p P d u u2 W S.
    1-10: destruct P as [P|(? & ? & ? & E & _)]; [|discriminate E].
    - cbn [anal fst snd] in *. rewrite (same_krw _ _ _ S). now split.
    - cbn [anal fst snd] in *. rewrite (same_krw _ _ _ S). rewrite (same_krw d i u); [now split|].
      eapply same_mono; [|exact S]. eapply mono_trans; [|apply kread_mono]. eapply mono_trans; [|apply updq_mono]. apply kwrite_mono.
    - cbn [anal fst snd] in *. rewrite (same_krw _ _ _ S). now split.
    - now split.
    - now split.
    - now split.
    - rewrite !anal_rawif. cbn [fst snd]. rewrite ok_rawif in P. apply andb_true_iff in P as [P _]. apply andb_true_iff in P as [_ P].
      apply andb_true_iff in P as [Pa Pb]. now rewrite (inert_same a (d, u2) (d, u) Pa), (inert_same b (d, u2) (d, u) Pb).
    - rewrite !anal_rawcase. cbn [fst snd]. rewrite ok_rawcase in P. apply andb_true_iff in P as [P _]. apply andb_true_iff in P as [_ P].
      split; [|reflexivity]. f_equal. f_equal. unfold raw_cases. apply map_ext_in. intros c Ic. rewrite forallb_forall in P.
      now rewrite (inert_same _ (d, u2) (d, u) (P c Ic)).
    - rewrite !anal_if in *. cbv zeta in *. cbn [fst snd] in *. rewrite ok_if in P. apply andb_true_iff in P as [_ P]. apply andb_true_iff in P as [Pa Pb].
      set (u1 := kread tmp0 d e u) in *. set (v1 := kread tmp d e u2).
      assert (W1 : wf d u1) by now apply kread_wf.
      assert (Sa : same_list a). { apply same_lists. rewrite Forall_forall in *. unfold oks in Pa. rewrite forallb_forall in Pa. intros c Ic. eapply Ha; [exact Ic|left; now apply Pa]. }
      assert (Sb : same_list b). { apply same_lists. rewrite Forall_forall in *. unfold oks in Pb. rewrite forallb_forall in Pb. intros c Ic. eapply Hb; [exact Ic|left; now apply Pb]. }
      destruct (Sa d u1 v1 W1) as [A1 A2]; [eapply same_mono; [|exact S]; apply combine_mono_br; now left|].
      destruct (Sb d u1 v1 W1) as [B1 B2]; [eapply same_mono; [|exact S]; apply combine_mono_br; right; now left|].
      rewrite A1, A2, B1, B2. rewrite (same_krw d e u); [now split|]. eapply same_mono; [|exact S]; apply combine_mono.
    - rewrite !anal_case in *. cbv zeta in *. cbn [fst snd] in *. rewrite ok_case in P. apply andb_true_iff in P as [_ P].
      set (u1 := kread tmp0 d e u) in *. set (v1 := kread tmp d e u2).
      assert (W1 : wf d u1) by now apply kread_wf.
      rewrite (same_krw d e u); [|eapply same_mono; [|exact S]; apply combine_mono].
      assert (G : fst (anal_cases tmp cs (d, v1)) = fst (anal_cases tmp0 cs (d, u1))).
      { assert (SC : forall c, In c cs -> same_on (snd (snd (anals tmp0 (snd c) (d, u1))))).
        { intros c Ic. eapply same_mono; [|exact S]. apply combine_mono_br. pose proof (cases_usage tmp0 cs (d, u1) c Ic) as I.
          destruct (has_default cs); [exact I|]. apply in_or_app. now left. }
        clear S. rewrite forallb_forall in P. rewrite Forall_forall in Hcs.
        induction cs as [|[v l] r IH]; [reflexivity|]. rewrite !cases_cons. cbn [fst].
        assert (Sl : same_list l).
        { apply same_lists. specialize (Hcs (v, l) (or_introl eq_refl)). specialize (P (v, l) (or_introl eq_refl)). cbn [snd] in *.
          rewrite Forall_forall in *. unfold oks in P. rewrite forallb_forall in P. intros c Ic. eapply Hcs; [exact Ic|left; now apply P]. }
        destruct (Sl d u1 v1 W1 (SC (v, l) (or_introl eq_refl))) as [A1 A2]. rewrite A1, A2.
        rewrite IH; [reflexivity| | |]; intros c Ic; [apply Hcs|apply P|apply SC]; now right. }
      rewrite G. now split.
    - rewrite !anal_while in *. cbv zeta in *. cbn [fst snd] in *. destruct P as [P|(e' & a' & n' & E & P)]; [discriminate P|].
      injection E as <- <- <-.
      set (u1 := kread tmp0 d e u) in *. set (v1 := kread tmp d e u2).
      assert (W1 : wf d u1) by now apply kread_wf.
      assert (Sa : same_list a). { apply same_lists. rewrite Forall_forall in *. unfold oks in P. rewrite forallb_forall in P. intros c Ic. eapply Ha; [exact Ic|left; now apply P]. }
      destruct (Sa d u1 v1 W1) as [A1 A2]; [eapply same_mono; [|exact S]; apply combine_mono_br; now left|].
      rewrite A1, A2. rewrite (same_krw d e u); [now split|]. eapply same_mono; [|exact S]; apply combine_mono.
  Qed.
End Second.

(** States: a chain, possibly ending with a loop followed by another state. *)
Section Tail.
  Variables q p : var -> bool.
  Fixpoint toks (l : list ch) : bool :=
    match l with
    | [] => true
    | c :: r => match r with
                | [] => okc q p c || match c with KWhile e a _ => forallb p (evars e) && oks q p a | _ => false end
                | _ => okc q p c && toks r
                end
    end.
  Lemma toks_cons c c' r : toks (c :: c' :: r) = okc q p c && toks (c' :: r).
  Proof. reflexivity. Qed.
  Lemma oks_toks l : oks q p l = true -> toks l = true.
  Proof.
    unfold oks. induction l as [|c r IH]; [reflexivity|]. cbn [forallb]. intros H. apply andb_true_iff in H as [Hc Hr].
    destruct r as [|c' r]; [cbn [toks]; now rewrite Hc|]. rewrite toks_cons, Hc. now apply IH.
  Qed.
  Lemma same_tail tmp l : toks l = true -> same_list tmp l.
  Proof.
    intros H. apply same_lists. induction l as [|c r IH]; [constructor|]. destruct r as [|c' r].
    - cbn [toks] in H. constructor; [|constructor]. apply (same_all tmp q p). apply orb_true_iff in H as [H|H]; [now left|].
      right. destruct c; try discriminate. apply andb_true_iff in H as [_ H]. eauto.
    - rewrite toks_cons in H. apply andb_true_iff in H as [Hc Hr]. constructor; [|now apply IH]. apply (same_all tmp q p). now left.
  Qed.

  Lemma tail_sound Q1 Q2 l : toks l = true -> forall s D1 D2 i, wf (fst s) (snd s) -> (forall x, q x = true -> fQ (snd s x) = true) ->
    inv p (snd s) D1 D2 -> agr Q1 Q2 (snd (snd (anals tmp0 l s))) D1 D2 ->
    snd (vexecs Q1 (fst (anals tmp0 l s)) (D1, i)) = snd (vexecs Q2 (fst (anals tmp0 l s)) (D2, i)) /\
    keeps D1 D2 (fst (vexecs Q1 (fst (anals tmp0 l s)) (D1, i))) (fst (vexecs Q2 (fst (anals tmp0 l s)) (D2, i))).
  Proof.
    induction l as [|c r IH]; intros H s D1 D2 i W HQ Hi A.
    - cbn [anals fst snd vexecs]. split; [reflexivity|apply keeps_refl].
    - assert (OK : okc q p c = true -> toks r = true ->
        snd (vexecs Q1 (fst (anals tmp0 (c :: r) s)) (D1, i)) = snd (vexecs Q2 (fst (anals tmp0 (c :: r) s)) (D2, i)) /\
        keeps D1 D2 (fst (vexecs Q1 (fst (anals tmp0 (c :: r) s)) (D1, i))) (fst (vexecs Q2 (fst (anals tmp0 (c :: r) s)) (D2, i)))).
      { intros Hc Hr. rewrite anals_cons in *. cbn [fst snd] in *. destruct (good_all tmp0 c s W) as [W1 [G1 _]].
        destruct (good_lists tmp0 r _ W1) as [W2 [G2 _]].
        destruct (sound_all Q1 Q2 p q c Hc s W HQ D1 D2 i Hi (agr_mono _ _ _ _ _ _ G2 A)) as (E & K & I).
        rewrite !vexecs_app. destruct (vexecs Q1 (fst (anal tmp0 c s)) (D1, i)) as [D1' i1]. destruct (vexecs Q2 (fst (anal tmp0 c s)) (D2, i)) as [D2' i2].
        cbn [fst snd] in *. subst i2.
        destruct (IH Hr (snd (anal tmp0 c s)) D1' D2' i1 W1) as [E2 K2]; [intros x Hx; apply G1, HQ, Hx|exact I|eapply agr_keeps; eassumption|].
        split; [exact E2|]. eapply keeps_trans; eassumption. }
      destruct r as [|c' r].
      + cbn [toks] in H. apply orb_true_iff in H as [H|H]; [apply OK; [exact H|reflexivity]|].
        destruct c as [| | | | | | | | | |e a n]; try discriminate. apply andb_true_iff in H as [He Ha]. clear OK IH.
        rewrite anals_cons in *. cbn [anals fst snd] in *. rewrite app_nil_r in *. destruct s as [d u]. cbn [fst snd] in *.
        rewrite anal_while in *. cbv zeta in *. cbn [fst snd] in *.
        assert (A1 : agr Q1 Q2 (kread tmp0 d e u) D1 D2) by (eapply agr_mono; [apply combine_mono|exact A]).
        destruct (read_ok Q1 Q2 p d e u D1 D2 He W Hi A1) as [H1 V].
        cbn [vexecs]. rewrite !vexec_if. cbn [fst]. rewrite V.
        destruct (truth (veval Q2 D2 (krw tmp0 d e))).
        * assert (W1 : wf d (kread tmp0 d e u)) by now apply kread_wf.
          destruct (sound_chain Q1 Q2 p q a Ha (d, kread tmp0 d e u) W1) with (D1 := D1) (D2 := D2) (i := i) as (E & K & _).
          { intros x Hx. apply kread_mono, HQ, Hx. }
          { exact H1. }
          { eapply agr_mono; [|exact A]. apply combine_mono_br. now left. }
          now split.
        * cbn [vexecs vexec fst snd]. split; [reflexivity|apply keeps_refl].
      + rewrite toks_cons in H. apply andb_true_iff in H as [Hc Hr]. now apply OK.
  Qed.
End Tail.

(** * Variables assigned by a chain *)
Fixpoint cwrites (c : ch) : list var :=
  let all := fix all (l : list ch) : list var := match l with [] => [] | c :: r => cwrites c ++ all r end in
  let go := fix go (cs : list (option Z * list ch)) : list var := match cs with [] => [] | (_, l) :: r => all l ++ go r end in
  match c with
  | KSet x _ | KPart x _ _ _ _ | KField x _ _ => [x]
  | KRead _ | KIdx _ => []
  | KRaw l => map fst l
  | KRawIf _ a b | KIf _ a b => all a ++ all b
  | KRawCase _ cs | KCase _ cs => go cs
  | KWhile _ a _ => all a
  end.
Definition lwrites (l : list ch) : list var := concat (map cwrites l).
Lemma writes_fix l : (fix all (l : list ch) : list var := match l with [] => [] | c :: r => cwrites c ++ all r end) l = lwrites l.
Proof. unfold lwrites. induction l as [|c r IH]; [reflexivity|]. cbn [map concat]. now rewrite <- IH. Qed.
Lemma writes_go cs :
  (fix go (cs : list (option Z * list ch)) : list var := match cs with [] => [] | (_, l) :: r => (fix all (l : list ch) : list var := match l with [] => [] | c :: r => cwrites c ++ all r end) l ++ go r end) cs
  = concat (map (fun c => lwrites (snd c)) cs).
Proof. induction cs as [|[v l] r IH]; [reflexivity|]. cbn [map concat snd]. now rewrite <- IH, writes_fix. Qed.
Lemma writes_if e a b : cwrites (KIf e a b) = lwrites a ++ lwrites b.
Proof. cbn [cwrites]. now rewrite !writes_fix. Qed.
Lemma writes_case e cs : cwrites (KCase e cs) = concat (map (fun c => lwrites (snd c)) cs).
Proof. cbn [cwrites]. now rewrite writes_go. Qed.
Lemma writes_while e a n : cwrites (KWhile e a n) = lwrites a.
Proof. cbn [cwrites]. now rewrite writes_fix. Qed.

(** A variable which is not assigned: its D side is only used when it was assigned before. *)
Section Unw.
  Variable x : var.
  Definition unw (f : fl) : Prop := fQ f = true \/ fD f = false.
  Lemma kread_unw d e u : wf d u -> unw (u x) -> unw (kread tmp0 d e u x).
  Proof.
    revert u. induction e as [n|y|f a IH|f a IHa b IHb]; intros u W H; cbn [kread]; auto.
    - cbn [tmp0 orb]. unfold uset. destruct (Nat.eqb_spec x y) as [<-|N]; [|exact H].
      destruct (memb x d) eqn:E; [|now left]. destruct (W x) as (W1 & _). specialize (W1 E). destruct H as [H|H]; [|congruence].
      left. cbn [upd_d fQ]. now rewrite H.
    - apply IHb; [now apply kread_wf|]. now apply IHa.
  Qed.
  Lemma combine_unw u brs : unw (u x) -> (forall b, In b brs -> unw (b x)) -> unw (combine u brs x).
  Proof.
    intros H HB. unfold unw. cbn [combine fQ fD]. destruct (fQ (u x)) eqn:EQ; [now left|]. destruct H as [H|H]; [congruence|]. rewrite H. cbn [orb].
    destruct (existsb (fun br : usage => fQ (br x)) brs) eqn:E1; [now left|]. right.
    destruct (existsb (fun br : usage => fD (br x)) brs) eqn:E2; [|reflexivity].
    apply existsb_exists in E2 as (b & Ib & Eb). destruct (HB b Ib) as [F|F]; [|congruence].
    assert (existsb (fun br : usage => fQ (br x)) brs = true) by (apply existsb_exists; eauto). congruence.
  Qed.
  Definition unw_ch (c : ch) : Prop := forall s, wf (fst s) (snd s) -> ~ In x (cwrites c) -> unw (snd s x) -> unw (snd (snd (anal tmp0 c s)) x).
  Definition unw_list (l : list ch) : Prop := forall s, wf (fst s) (snd s) -> ~ In x (lwrites l) -> unw (snd s x) -> unw (snd (snd (anals tmp0 l s)) x).
  Lemma unw_app l : Forall unw_ch l -> unw_list l.
  Proof.
    unfold unw_list, lwrites. induction 1 as [|c r Hc Hr IH]; intros s W NI H; [exact H|].
    rewrite anals_cons. cbn [snd map concat] in *. destruct (good_all tmp0 c s W) as [W1 _].
    apply IH; [exact W1| |apply Hc; [exact W| |exact H]]; intros F; apply NI, in_or_app; auto.
  Qed.
  Lemma unw_all c : unw_ch c.
  Proof.
    induction c as [y e|y g h i e|y h e|e|n|l|e a b Ha Hb|e cs Hcs|e a b Ha Hb|e cs Hcs|e a n Ha] using ch_ind2; intros [d u] W NI H; cbn [fst snd] in *.
    - cbn [cwrites anal fst snd] in *. apply kread_unw; [now apply wf_write'|]. unfold kwrite. rewrite uset_other; [exact H|]. intros ->; apply NI; now left.
    - cbn [cwrites anal fst snd] in *. assert (N : x <> y) by (intros ->; apply NI; now left).
      apply kread_unw; [apply wf_upd_q, wf_write', kread_wf, W|]. rewrite uset_other by exact N. unfold kwrite. rewrite uset_other by exact N. now apply kread_unw.
    - cbn [cwrites anal fst snd] in *. apply kread_unw; [now apply wf_write'|]. unfold kwrite. rewrite uset_other; [exact H|]. intros ->; apply NI; now left.
    - cbn [anal fst snd]. now apply kread_unw.
    - exact H.
    - exact H.
    - rewrite anal_rawif. exact H.
    - rewrite anal_rawcase. exact H.
    - rewrite anal_if. cbv zeta. cbn [fst snd]. rewrite writes_if in NI.
      assert (W1 : wf d (kread tmp0 d e u)) by now apply kread_wf. assert (H1 : unw (kread tmp0 d e u x)) by now apply kread_unw.
      apply combine_unw; [exact H1|]. intros v [<-|[<-|[]]].
      + apply (unw_app a Ha (d, kread tmp0 d e u)); auto. intros F; apply NI, in_or_app; now left.
      + apply (unw_app b Hb (d, kread tmp0 d e u)); auto. intros F; apply NI, in_or_app; now right.
    - rewrite anal_case. cbv zeta. cbn [fst snd]. rewrite writes_case in NI.
      assert (W1 : wf d (kread tmp0 d e u)) by now apply kread_wf. assert (H1 : unw (kread tmp0 d e u x)) by now apply kread_unw.
      apply combine_unw; [exact H1|]. intros v I.
      assert (In v (snd (anal_cases tmp0 cs (d, kread tmp0 d e u))) \/ v = kread tmp0 d e u) as [I'| ->].
      { destruct (has_default cs); [now left|]. apply in_app_or in I as [I|[<-|[]]]; auto. }
      + destruct (good_cases tmp0 cs (d, kread tmp0 d e u) W1) with (b := v) as (c & Ic & E & _); [apply Forall_forall; intros; apply good_lists|exact I'|].
        subst v. rewrite Forall_forall in Hcs. apply (unw_app (snd c) (Hcs c Ic) (d, kread tmp0 d e u)); auto.
        intros F. apply NI. apply in_concat. exists (lwrites (snd c)). split; [|exact F]. apply in_map_iff. eauto.
      + exact H1.
    - rewrite anal_while. cbv zeta. cbn [fst snd]. rewrite writes_while in NI.
      assert (W1 : wf d (kread tmp0 d e u)) by now apply kread_wf. assert (H1 : unw (kread tmp0 d e u x)) by now apply kread_unw.
      apply combine_unw; [exact H1|]. intros v [<-|[]]. apply (unw_app a Ha (d, kread tmp0 d e u)); auto.
  Qed.
  Lemma unw_lists l : unw_list l.
  Proof. apply unw_app. apply Forall_forall. intros; apply unw_all. Qed.
End Unw.

(** An assigned variable has the flag D (registers of the compiler excepted). *)
Fixpoint csets (c : ch) : list var :=
  let all := fix all (l : list ch) : list var := match l with [] => [] | c :: r => csets c ++ all r end in
  let go := fix go (cs : list (option Z * list ch)) : list var := match cs with [] => [] | (_, l) :: r => all l ++ go r end in
  match c with
  | KSet x _ | KPart x _ _ _ _ | KField x _ _ => [x]
  | KRead _ | KIdx _ | KRaw _ | KRawIf _ _ _ | KRawCase _ _ => []
  | KIf _ a b => all a ++ all b
  | KCase _ cs => go cs
  | KWhile _ a _ => all a
  end.
Definition lsets (l : list ch) : list var := concat (map csets l).
Lemma sets_fix l : (fix all (l : list ch) : list var := match l with [] => [] | c :: r => csets c ++ all r end) l = lsets l.
Proof. unfold lsets. induction l as [|c r IH]; [reflexivity|]. cbn [map concat]. now rewrite <- IH. Qed.
Lemma sets_go cs :
  (fix go (cs : list (option Z * list ch)) : list var := match cs with [] => [] | (_, l) :: r => (fix all (l : list ch) : list var := match l with [] => [] | c :: r => csets c ++ all r end) l ++ go r end) cs
  = concat (map (fun c => lsets (snd c)) cs).
Proof. induction cs as [|[v l] r IH]; [reflexivity|]. cbn [map concat snd]. now rewrite <- IH, sets_fix. Qed.

Section Sets.
  Variable x : var.
  Definition setd_ch (c : ch) : Prop := forall s, In x (csets c) -> memb x (fst (snd (anal tmp0 c s))) = true.
  Definition setd_list (l : list ch) : Prop := forall s, In x (lsets l) -> memb x (fst (snd (anals tmp0 l s))) = true.
  Lemma deps_ch c s : memb x (fst s) = true -> memb x (fst (snd (anal tmp0 c s))) = true.
  Proof.
    destruct s as [d u]; cbn [fst]; intros H.
    assert (K : forall y, memb x (y :: d) = true) by (intros y; unfold memb in *; cbn [existsb]; rewrite H; apply orb_true_r).
    destruct c.
    1-6: cbn [anal fst snd]; auto.
    - now rewrite anal_rawif.
    - now rewrite anal_rawcase.
    - rewrite anal_if. cbv zeta. cbn [fst snd]. now rewrite !memb_app, H.
    - rewrite anal_case. cbv zeta. cbn [fst snd]. now rewrite !memb_app, H.
    - rewrite anal_while. cbv zeta. cbn [fst snd]. now rewrite !memb_app, H.
  Qed.
  Lemma deps_list l s : memb x (fst s) = true -> memb x (fst (snd (anals tmp0 l s))) = true.
  Proof. revert s. induction l as [|c r IH]; intros s H; [exact H|]. rewrite anals_cons. cbn [snd]. apply IH. now apply deps_ch. Qed.
  Lemma setd_app l : Forall setd_ch l -> setd_list l.
  Proof.
    unfold setd_list, lsets. induction 1 as [|c r Hc Hr IH]; intros s I; [destruct I|].
    rewrite anals_cons. cbn [snd map concat] in *. apply in_app_or in I as [I|I].
    - apply deps_list. now apply Hc.
    - now apply IH.
  Qed.
  Lemma setd_all c : setd_ch c.
  Proof.
    induction c as [y e|y g h i e|y h e|e|n|l|e a b Ha Hb|e cs Hcs|e a b Ha Hb|e cs Hcs|e a n Ha] using ch_ind2; intros [d u] I.
    1-3: cbn [csets anal fst snd] in *; destruct I as [->|[]]; unfold memb; cbn [existsb]; now rewrite Nat.eqb_refl.
    1-5: destruct I.
    - cbn [csets] in I. rewrite !sets_fix in I. rewrite anal_if. cbv zeta. cbn [fst snd]. rewrite !memb_app.
      apply in_app_or in I as [I|I]; [rewrite (setd_app a Ha _ I)|rewrite (setd_app b Hb _ I)]; rewrite ?orb_true_r; reflexivity.
    - cbn [csets] in I. rewrite sets_go in I. rewrite anal_case. cbv zeta. cbn [fst snd]. rewrite memb_app.
      apply orb_true_iff. right. apply in_concat in I as (l & I1 & I2). apply in_map_iff in I1 as (c & <- & Ic).
      rewrite Forall_forall in Hcs. pose proof (setd_app (snd c) (Hcs c Ic) (d, kread tmp0 d e u) I2) as M.
      clear Hcs I2. induction cs as [|[v l] r IH]; [destruct Ic|]. rewrite cases_cons. cbn [fst snd]. rewrite memb_app.
      destruct Ic as [<-|Ic]; [cbn [snd] in M; now rewrite M|]. rewrite (IH Ic). apply orb_true_r.
    - cbn [csets] in I. rewrite sets_fix in I. rewrite anal_while. cbv zeta. cbn [fst snd]. rewrite !memb_app. rewrite (setd_app a Ha _ I).
      now rewrite ?orb_true_r.
  Qed.
  Lemma setd_lists l : setd_list l.
  Proof. apply setd_app. apply Forall_forall. intros; apply setd_all. Qed.
End Sets.
