(** The macros: one definition each, defined before they are named, expansions which end. *)
From Coq Require Import List Bool Arith ZArith Lia.
Import ListNotations.
From Verif Require Import FsmModel FsmRun FsmEmit UseModel UseProofs UseSound UseTwo UseCycle DefineModel DefineProofs DefineSim.

(** Expressions of a text. *)
Fixpoint cexps (c : vst) : list vexp :=
  let all := fix all (l : list vst) : list vexp := match l with [] => [] | c :: r => cexps c ++ all r end in
  match c with
  | VSet _ e => [e]
  | VIdx _ => []
  | VIf e a b => e :: all a ++ all b
  | VCase e cs => e :: (fix go (cs : list (option Z * list vst)) : list vexp := match cs with [] => [] | (_, l) :: r => all l ++ go r end) cs
  end.
Definition lexps (l : list vst) : list vexp := concat (map cexps l).
Lemma exps_fix l : (fix all (l : list vst) : list vexp := match l with [] => [] | c :: r => cexps c ++ all r end) l = lexps l.
Proof. unfold lexps. induction l as [|c r IH]; [reflexivity|]. cbn [map concat]. now rewrite <- IH. Qed.
Lemma exps_if e a b : cexps (VIf e a b) = e :: lexps a ++ lexps b.
Proof. cbn [cexps]. now rewrite !exps_fix. Qed.
Lemma exps_case e cs : cexps (VCase e cs) = e :: concat (map (fun c => lexps (snd c)) cs).
Proof. cbn [cexps]. f_equal. induction cs as [|[v l] r IH]; [reflexivity|]. cbn [map concat snd]. now rewrite <- IH, exps_fix. Qed.
Lemma lexps_app a b : lexps (a ++ b) = lexps a ++ lexps b.
Proof. unfold lexps. now rewrite map_app, concat_app. Qed.
Lemma lexps_one c : lexps [c] = cexps c.
Proof. unfold lexps. cbn [map concat]. apply app_nil_r. Qed.

Section Order.
  Variable def : var -> bool.
  Definition okv (known : list var) (e : vexp) : Prop := forall z, In z (dv e) -> def z = true -> In z known.
  Fixpoint ordered (known : list var) (l : list (var * vexp)) : Prop :=
    match l with [] => True | (x, t) :: r => (def x = true -> okv known t) /\ ordered (x :: known) r end.
  Lemma okv_more a b e : (forall z, In z a -> In z b) -> okv a e -> okv b e.
  Proof. intros S H z I D. apply S. now apply H. Qed.
  Lemma ordered_more a b l : (forall z, In z a -> In z b) -> ordered a l -> ordered b l.
  Proof.
    revert a b. induction l as [|[x t] r IH]; intros a b S H; [exact I|]. destruct H as [H1 H2]. split.
    - intros X. eapply okv_more; [exact S|now apply H1].
    - eapply IH; [|exact H2]. intros z [<-|Hz]; [now left|right; now apply S].
  Qed.
  Lemma ordered_app known a b : ordered known a -> ordered (map fst a ++ known) b -> ordered known (a ++ b).
  Proof.
    revert known. induction a as [|[x t] r IH]; intros known H G; [exact G|]. destruct H as [H1 H2]. cbn [app]. split; [exact H1|].
    apply IH; [exact H2|]. eapply ordered_more; [|exact G]. intros z I. cbn [map fst app] in I. destruct I as [<-|I]; [apply in_or_app; right; now left|].
    apply in_app_or in I as [I|I]; apply in_or_app; [now left|right; now right].
  Qed.

  (** What holds of the text written for a chain. *)
  Definition names (code : list vst) : list var := map fst (lvsets code).
  Definition good_text (known : list var) (code : list vst) (ds' : list var) : Prop :=
    (forall e, In e (lexps code) -> okv (known ++ names code) e) /\ ordered known (lvsets code) /\
    (forall z, memb z ds' = true -> def z = true -> In z (known ++ names code)).
  Lemma names_app a b : names (a ++ b) = names a ++ names b.
  Proof. unfold names. now rewrite lvsets_app, map_app. Qed.
  Lemma good_nil known ds : (forall z, memb z ds = true -> def z = true -> In z known) -> good_text known [] ds.
  Proof. intros H. split; [|split]; [intros e []|exact I|]. intros z A B. apply in_or_app. left. now apply H. Qed.
  Lemma good_seq known a b d1 d2 : good_text known a d1 -> good_text (known ++ names a) b d2 -> good_text known (a ++ b) d2.
  Proof.
    intros (A1 & A2 & A3) (B1 & B2 & B3). unfold good_text. rewrite lexps_app, lvsets_app, names_app, app_assoc. split; [|split].
    - intros e I. apply in_app_or in I as [I|I]; [|now apply B1]. eapply okv_more; [|now apply A1]. intros z Hz. apply in_or_app. now left.
    - apply ordered_app; [exact A2|]. eapply ordered_more; [|exact B2]. intros z I. apply in_app_or in I. apply in_or_app. tauto.
    - exact B3.
  Qed.

  Variables (q p : var -> bool).
  Hypothesis defq : forall x, q x = true -> def x = false.
  Definition okw (c : ch) : Prop := okc q p c = true \/ exists e a k, c = KWhile e a k /\ oks q p a = true.
  Definition ord_ch (c : ch) : Prop := okw c -> forall ds u known, wf ds u -> noq def (snd (snd (anal tmp0 c (ds, u)))) ->
    (forall z, memb z ds = true -> def z = true -> In z known) ->
    good_text known (fst (anal tmp0 c (ds, u))) (fst (snd (anal tmp0 c (ds, u)))).
  Definition ord_list (l : list ch) : Prop := Forall okw l -> forall ds u known, wf ds u -> noq def (snd (snd (anals tmp0 l (ds, u)))) ->
    (forall z, memb z ds = true -> def z = true -> In z known) ->
    good_text known (fst (anals tmp0 l (ds, u))) (fst (snd (anals tmp0 l (ds, u)))).
  Lemma ord_app l : Forall ord_ch l -> ord_list l.
  Proof.
    induction 1 as [|c r Hc _ IH]; intros OK ds u known W N K.
    - now apply good_nil.
    - inversion OK as [|c0 r0 Oc Or]; subst. rewrite anals_cons in *. cbn [fst snd] in *.
      destruct (good_all tmp0 c (ds, u) W) as [W1 [G1 _]].
      destruct (snd (anal tmp0 c (ds, u))) as [ds1 u1] eqn:EA. cbn [fst snd] in *.
      destruct (good_lists tmp0 r (ds1, u1) W1) as [W2 [G2 _]]. cbn [fst snd] in *.
      assert (G : good_text known (fst (anal tmp0 c (ds, u))) ds1).
      { replace ds1 with (fst (snd (anal tmp0 c (ds, u)))) by now rewrite EA. apply (Hc Oc ds u known W); [|exact K]. rewrite EA. cbn [snd]. eapply noq_mono; eassumption. }
      eapply good_seq; [exact G|]. apply IH; [exact Or|exact W1|exact N|apply G].
  Qed.
  Lemma oks_okw l : oks q p l = true -> Forall okw l.
  Proof. intros H. apply Forall_forall. intros c I. left. unfold oks in H. rewrite forallb_forall in H. now apply H. Qed.
  Lemma toks_okw l : toks q p l = true -> Forall okw l.
  Proof.
    induction l as [|c r IH]; intros H; [constructor|]. destruct r as [|c' r].
    - constructor; [|constructor]. cbn [toks] in H. apply orb_true_iff in H as [H|H]; [now left|]. right. destruct c; try discriminate. apply andb_true_iff in H as [_ H]. eauto.
    - rewrite toks_cons in H. apply andb_true_iff in H as [Hc Hr]. constructor; [now left|now apply IH].
  Qed.
  Lemma okv_krw ds known e : (forall z, memb z ds = true -> def z = true -> In z known) -> okv known (krw tmp0 ds e).
  Proof. intros K z I D. apply dv_krw in I as [_ I]. now apply K. Qed.
  Lemma okv_free known e : (forall z, In z (dv e) -> def z = false) -> okv known e.
  Proof. intros H z I D. rewrite (H z I) in D. discriminate. Qed.
  Lemma raw_free e : forallb q (vvars e) = true -> forall z, In z (dv e) -> def z = false.
  Proof.
    intros H z I. apply defq. induction e as [k|x|x|f a IH|f a IHa b IHb]; cbn [vvars forallb dv] in *.
    - destruct I.
    - destruct I.
    - destruct I as [<-|[]]. now apply andb_true_iff in H as [H _].
    - now apply IH.
    - rewrite forallb_app in H. apply andb_true_iff in H as [H1 H2]. apply in_app_or in I as [I|I]; auto.
  Qed.
  (** Only registers of the compiler. *)
  Definition plain (code : list vst) : Prop := (forall e, In e (lexps code) -> forall z, In z (dv e) -> def z = false) /\ forall x, In x (names code) -> def x = false.
  Lemma plain_ordered known code : plain code -> ordered known (lvsets code).
  Proof.
    intros [_ H]. unfold names in H. revert known. induction (lvsets code) as [|[x t] r IH]; intros known; [exact I|]. split.
    - intros X. rewrite (H x (or_introl eq_refl)) in X. discriminate.
    - apply IH. intros y Iy. apply H. now right.
  Qed.
  Lemma plain_good known code ds : plain code -> (forall z, memb z ds = true -> def z = true -> In z known) -> good_text known code ds.
  Proof.
    intros H K. split; [|split; [now apply plain_ordered|]].
    - intros e I. apply okv_free. now apply (proj1 H).
    - intros z A B. apply in_or_app. left. now apply K.
  Qed.
  Lemma plain_app a b : plain a -> plain b -> plain (a ++ b).
  Proof.
    intros [A1 A2] [B1 B2]. split.
    - intros e I. rewrite lexps_app in I. apply in_app_or in I as [I|I]; [now apply A1|now apply B1].
    - intros x I. rewrite names_app in I. apply in_app_or in I as [I|I]; auto.
  Qed.
  Lemma plain_raw l : forallb (fun a => q (fst a) && forallb q (vvars (snd a))) l = true -> plain (map (fun a => VSet (fst a) (snd a)) l).
  Proof.
    induction l as [|[x e] r IH]; cbn [map forallb]; intros H; [split; intros ? []|]. apply andb_true_iff in H as [H1 H2]. apply andb_true_iff in H1 as [Hx He]. cbn [fst snd] in *.
    apply (plain_app [VSet x e]); [|now apply IH]. split.
    - intros e' I. cbn in I. destruct I as [<-|[]]. now apply raw_free.
    - intros y I. cbn in I. destruct I as [<-|[]]. now apply defq.
  Qed.
  Lemma plain_inert l s : forallb inert l = true -> oks q p l = true -> plain (fst (anals tmp0 l s)) /\ fst (snd (anals tmp0 l s)) = fst s.
  Proof.
    revert s. induction l as [|c l IH]; intros s H R; [split; [split; intros ? []|reflexivity]|].
    unfold oks in *. cbn [forallb] in H, R. apply andb_true_iff in H as [Hc Hl]. apply andb_true_iff in R as [Rc Rl]. rewrite anals_cons. cbn [fst snd].
    destruct (IH (snd (anal tmp0 c s)) Hl Rl) as [P E]. rewrite E. destruct s as [ds u].
    destruct c; try discriminate; cbn [anal fst snd] in *; (split; [|reflexivity]); apply plain_app; try exact P.
    - split; intros ? [].
    - cbn [okc] in Rc. now apply plain_raw.
  Qed.

  Lemma good_branches known e ds cs : okv known e -> (forall z, memb z ds = true -> def z = true -> In z known) ->
    (forall c, In c cs -> exists d, good_text known (snd c) d /\ True) -> 
    forall e', In e' (cexps (VCase e cs)) -> okv (known ++ names [VCase e cs]) e'.
  Proof.
    intros E K H e' I. rewrite exps_case in I. destruct I as [<-|I].
    - eapply okv_more; [|exact E]. intros z Z. apply in_or_app. now left.
    - apply in_concat in I as (l & Il & Ie). apply in_map_iff in Il as (c & <- & Ic). destruct (H c Ic) as (d & (G & _) & _).
      eapply okv_more; [|now apply G]. intros z Z. apply in_app_or in Z as [Z|Z]; apply in_or_app; [now left|right].
      unfold names in *. rewrite lvsets_one, vsets_case. apply in_map_iff in Z as (v & <- & Iv). apply in_map. apply in_concat. eexists. split; [|exact Iv].
      apply in_map_iff. eauto.
  Qed.
  Lemma ordered_concat {A} known (cs : list (A * list vst)) : (forall c, In c cs -> ordered known (lvsets (snd c))) -> ordered known (concat (map (fun c => lvsets (snd c)) cs)).
  Proof.
    revert known. induction cs as [|c r IH]; intros known H; [exact I|]. cbn [map concat]. apply ordered_app; [apply H; now left|].
    apply IH. intros c' I. eapply ordered_more; [|apply H; now right]. intros z Z. apply in_or_app. now right.
  Qed.

  Lemma cases_code cs s v code : In (v, code) (fst (fst (anal_cases tmp0 cs s))) -> exists c, In c cs /\ code = fst (anals tmp0 (snd c) s).
  Proof.
    induction cs as [|[w l] r IH]; [intros []|]. rewrite cases_cons. cbn [fst]. intros [H|H].
    - injection H as _ <-. exists (w, l). split; [now left|reflexivity].
    - destruct (IH H) as (c & Ic & E). exists c. split; [now right|exact E].
  Qed.
  Lemma cases_code' cs s c : In c cs -> In (fst c, fst (anals tmp0 (snd c) s)) (fst (fst (anal_cases tmp0 cs s))).
  Proof.
    induction cs as [|[w l] r IH]; [intros []|]. rewrite cases_cons. cbn [fst]. intros [<-|H]; [now left|right; now apply IH].
  Qed.
  Lemma raw_code cs s v code : In (v, code) (raw_cases tmp0 cs s) -> exists c, In c cs /\ code = fst (anals tmp0 (snd c) s).
  Proof.
    induction cs as [|[w l] r IH]; [intros []|]. cbn [raw_cases]. intros [H|H].
    - injection H as _ <-. exists (w, l). split; [now left|reflexivity].
    - destruct (IH H) as (c & Ic & E). exists c. split; [now right|exact E].
  Qed.

  Lemma ord_all c : ord_ch c.
  Proof.
    induction c as [x e|x g h i e|x h e|e|k|l|e a b Ha Hb|e cs Hcs|e a b Ha Hb|e cs Hcs|e a k Ha] using ch_ind2; intros OK ds u known W N K.
    - (* KSet *) cbn [anal fst snd] in *. split; [|split].
      + intros e' I. rewrite lexps_one in I. destruct I as [<-|[]]. apply (okv_more known); [|apply okv_krw; exact K]. intros z Z. apply in_or_app. now left.
      + rewrite lvsets_one. split; [intros _; apply okv_krw; exact K|exact I].
      + intros z Z D. rewrite memb_cons in Z. apply in_or_app. apply orb_true_iff in Z as [Z|Z]; [right; apply Nat.eqb_eq in Z; subst; now left|left; now apply K].
    - (* KPart *) cbn [anal fst snd] in *.
      assert (X : def x = false).
      { destruct (def x) eqn:X; [|reflexivity]. eapply noq_mono in N; [|apply kread_mono]. specialize (N x X). rewrite uset_same in N. discriminate. }
      split; [|split].
      + intros e' I. rewrite lexps_one in I. destruct I as [<-|[]]. intros z Iz Dz. apply in_or_app. left. cbn [dv] in Iz.
        repeat (apply in_app_or in Iz as [Iz|Iz] || cbn [dv] in Iz); try (apply dv_krw in Iz as [_ Iz]; now apply K).
        destruct Iz as [<-|[]]. congruence.
      + rewrite lvsets_one. split; [congruence|exact I].
      + intros z Z D. rewrite memb_cons in Z. apply in_or_app. left. apply orb_true_iff in Z as [Z|Z]; [apply Nat.eqb_eq in Z; congruence|now apply K].
    - (* KField *) destruct OK as [OK|(? & ? & ? & E & _)]; [|discriminate]. cbn [okc] in OK. apply andb_true_iff in OK as [Qx _]. pose proof (defq x Qx) as X.
      cbn [anal fst snd] in *. split; [|split].
      + intros e' I. rewrite lexps_one in I. destruct I as [<-|[]]. intros z Iz Dz. apply in_or_app. left. cbn [dv] in Iz.
        repeat (apply in_app_or in Iz as [Iz|Iz] || cbn [dv] in Iz); try (apply dv_krw in Iz as [_ Iz]; now apply K).
        destruct Iz as [<-|[]]. congruence.
      + rewrite lvsets_one. split; [congruence|exact I].
      + intros z Z D. rewrite memb_cons in Z. apply in_or_app. left. apply orb_true_iff in Z as [Z|Z]; [apply Nat.eqb_eq in Z; congruence|now apply K].
    - cbn [anal fst snd]. now apply good_nil.
    - cbn [anal fst snd]. apply plain_good; [|exact K]. split; intros ? [].
    - destruct OK as [OK|(? & ? & ? & E & _)]; [|discriminate]. cbn [okc] in OK. cbn [anal fst snd]. apply plain_good; [|exact K]. now apply plain_raw.
    - (* KRawIf *) destruct OK as [OK|(? & ? & ? & E & _)]; [|discriminate]. rewrite ok_rawif in OK. apply andb_true_iff in OK as [OK O2].
      apply andb_true_iff in OK as [Pe O1]. apply andb_true_iff in O1 as [Ta Tb]. apply andb_true_iff in O2 as [Pa Pb]. rewrite anal_rawif. cbn [fst snd].
      destruct (plain_inert a (ds, u) Ta Pa) as [PA _]. destruct (plain_inert b (ds, u) Tb Pb) as [PB _]. apply plain_good; [|exact K]. split.
      + intros e' I. rewrite lexps_one, exps_if in I. destruct I as [<-|I]; [now apply raw_free|]. apply in_app_or in I as [I|I]; [now apply PA|now apply PB].
      + intros y I. unfold names in I. rewrite lvsets_one, vsets_if, map_app in I. apply in_app_or in I as [I|I]; [now apply PA|now apply PB].
    - (* KRawCase *) destruct OK as [OK|(? & ? & ? & E & _)]; [|discriminate]. rewrite ok_rawcase in OK. apply andb_true_iff in OK as [OK Pc].
      apply andb_true_iff in OK as [Pe Tc]. rewrite forallb_forall in Pc, Tc. rewrite anal_rawcase. cbn [fst snd]. apply plain_good; [|exact K]. split.
      + intros e' I. rewrite lexps_one, exps_case in I. destruct I as [<-|I]; [now apply raw_free|]. apply in_concat in I as (l & Il & Ie). apply in_map_iff in Il as ([v code] & <- & Ic).
        apply raw_code in Ic as (c & Ic & ->). cbn [snd] in Ie. destruct (plain_inert (snd c) (ds, u) (Tc c Ic) (Pc c Ic)) as [PC _]. now apply PC.
      + intros y I. unfold names in I. rewrite lvsets_one, vsets_case in I. apply in_map_iff in I as (w & <- & Iw). apply in_concat in Iw as (l & Il & Ie). apply in_map_iff in Il as ([v code] & <- & Ic).
        apply raw_code in Ic as (c & Ic & ->). cbn [snd] in Ie. destruct (plain_inert (snd c) (ds, u) (Tc c Ic) (Pc c Ic)) as [PC _]. apply PC. unfold names. now apply in_map.
    - (* KIf *) destruct OK as [OK|(? & ? & ? & E & _)]; [|discriminate]. rewrite ok_if in OK. apply andb_true_iff in OK as [_ OK]. apply andb_true_iff in OK as [Oa Ob].
      rewrite anal_if in *. cbv zeta in *. cbn [fst snd] in *. set (u1 := kread tmp0 ds e u) in *.
      assert (W1 : wf ds u1) by now apply kread_wf.
      destruct (ord_app a Ha (oks_okw a Oa) ds u1 known W1) as (A1 & A2 & A3); [eapply noq_mono; [|exact N]; apply combine_mono_br; now left|exact K|].
      destruct (ord_app b Hb (oks_okw b Ob) ds u1 known W1) as (B1 & B2 & B3); [eapply noq_mono; [|exact N]; apply combine_mono_br; right; now left|exact K|].
      unfold good_text, names. rewrite lexps_one, exps_if, lvsets_one, vsets_if, map_app. split; [|split].
      + intros e' [<-|I].
        * apply (okv_more known); [|apply okv_krw; exact K]. intros z Z. apply in_or_app. now left.
        * apply in_app_or in I as [I|I]; [eapply okv_more; [|now apply A1]|eapply okv_more; [|now apply B1]]; intros z Z; apply in_app_or in Z as [Z|Z]; apply in_or_app; auto; right; apply in_or_app; auto.
      + apply ordered_app; [exact A2|]. eapply ordered_more; [|exact B2]. intros z Z. apply in_or_app. now right.
      + intros z Z D. rewrite !memb_app in Z. apply orb_true_iff in Z as [Z|Z]; [apply in_or_app; left; now apply K|].
        apply orb_true_iff in Z as [Z|Z]; [specialize (A3 z Z D)|specialize (B3 z Z D)]; [apply in_app_or in A3 as [Y|Y]|apply in_app_or in B3 as [Y|Y]]; apply in_or_app; auto; right; apply in_or_app; auto.
    - (* KCase *) destruct OK as [OK|(? & ? & ? & E & _)]; [|discriminate]. rewrite ok_case in OK. apply andb_true_iff in OK as [_ OK]. rewrite forallb_forall in OK. rewrite Forall_forall in Hcs.
      rewrite anal_case in *. cbv zeta in *. cbn [fst snd] in *. set (u1 := kread tmp0 ds e u) in *.
      assert (W1 : wf ds u1) by now apply kread_wf.
      assert (G : forall c, In c cs -> good_text known (fst (anals tmp0 (snd c) (ds, u1))) (fst (snd (anals tmp0 (snd c) (ds, u1))))).
      { intros c Ic. apply (ord_app (snd c) (Hcs c Ic) (oks_okw _ (OK c Ic)) ds u1 known W1); [|exact K]. eapply noq_mono; [|exact N]. apply combine_mono_br.
        pose proof (cases_usage tmp0 cs (ds, u1) c Ic) as J. destruct (has_default cs); [exact J|]. apply in_or_app. now left. }
      split; [|split].
      + intros e' I. rewrite lexps_one in I. eapply (good_branches known (krw tmp0 ds e) ds); [apply okv_krw; exact K|exact K| |exact I].
        intros [v code] Ic. apply cases_code in Ic as (c & Ic & ->). cbn [snd]. eexists. split; [apply (G c Ic)|exact Logic.I].
      + rewrite lvsets_one, vsets_case. apply ordered_concat. intros [v code] Ic. apply cases_code in Ic as (c & Ic & ->). cbn [snd]. apply (G c Ic).
      + intros z Z D. rewrite memb_app in Z. apply orb_true_iff in Z as [Z|Z]; [apply in_or_app; left; now apply K|].
        apply cases_deps in Z as (c & Ic & Z). destruct (G c Ic) as (_ & _ & G3). specialize (G3 z Z D). apply in_app_or in G3 as [Y|Y]; apply in_or_app; [now left|right].
        unfold names in *. rewrite lvsets_one, vsets_case. apply in_map_iff in Y as (v & <- & Iv). apply in_map. apply in_concat. eexists. split; [|exact Iv].
        apply in_map_iff. eexists. split; [|apply (cases_code' cs (ds, u1) c Ic)]. reflexivity.
    - (* KWhile *) destruct OK as [OK|(e0 & a0 & k0 & E & OK)]; [discriminate|]. injection E as <- <- <-.
      rewrite anal_while in *. cbv zeta in *. cbn [fst snd] in *. set (u1 := kread tmp0 ds e u) in *.
      assert (W1 : wf ds u1) by now apply kread_wf.
      destruct (ord_app a Ha (oks_okw a OK) ds u1 known W1) as (A1 & A2 & A3); [eapply noq_mono; [|exact N]; apply combine_mono_br; now left|exact K|].
      unfold good_text, names. rewrite lexps_one, exps_if, lvsets_one, vsets_if, map_app. cbn [lexps lvsets map concat cexps vsets app]. rewrite !app_nil_r. split; [|split].
      + intros e' [<-|I]; [apply (okv_more known); [|apply okv_krw; exact K]; intros z Z; apply in_or_app; now left|now apply A1].
      + exact A2.
      + intros z Z D. rewrite !memb_app in Z. apply orb_true_iff in Z as [Z|Z]; [apply in_or_app; left; now apply K|].
        apply orb_true_iff in Z as [Z|Z]; [now apply A3|apply in_or_app; left; now apply K].
  Qed.
  Lemma ord_lists l : ord_list l.
  Proof. apply ord_app, Forall_forall. intros c _. apply ord_all. Qed.

  (** Number of assignments. *)
  Definition cnt_ch (c : ch) : Prop := okw c -> forall s x, def x = true -> occ x (names (fst (anal tmp0 c s))) = occ x (csets c).
  Definition cnt_list (l : list ch) : Prop := Forall okw l -> forall s x, def x = true -> occ x (names (fst (anals tmp0 l s))) = occ x (lsets l).
  Lemma occ_app x a b : occ x (a ++ b) = occ x a + occ x b.
  Proof. apply count_occ_app. Qed.
  Lemma cnt_app l : Forall cnt_ch l -> cnt_list l.
  Proof.
    induction 1 as [|c r Hc _ IH]; intros OK s x X; [reflexivity|]. inversion OK as [|c0 r0 Oc Or]; subst. rewrite anals_cons. cbn [fst]. rewrite names_app, occ_app, (Hc Oc s x X), (IH Or _ x X).
    unfold lsets. cbn [map concat]. symmetry. apply occ_app.
  Qed.
  Lemma occ_none x l : ~ In x l -> occ x l = 0.
  Proof. apply count_occ_not_In. Qed.
  Lemma plain_none code x : plain code -> def x = true -> occ x (names code) = 0.
  Proof. intros [_ P] X. apply occ_none. intros I. apply P in I. congruence. Qed.
  Lemma cnt_all c : cnt_ch c.
  Proof.
    induction c as [y e|y g h i e|y h e|e|k|l|e a b Ha Hb|e cs Hcs|e a b Ha Hb|e cs Hcs|e a k Ha] using ch_ind2; intros OK [ds u] x X.
    1-3: reflexivity.
    1-2: reflexivity.
    - destruct OK as [OK|(? & ? & ? & E & _)]; [|discriminate]. cbn [okc] in OK. cbn [anal fst csets]. rewrite plain_none; [reflexivity|now apply plain_raw|exact X].
    - destruct OK as [OK|(? & ? & ? & E & _)]; [|discriminate]. rewrite ok_rawif in OK. apply andb_true_iff in OK as [OK O2].
      apply andb_true_iff in OK as [Pe O1]. apply andb_true_iff in O1 as [Ta Tb]. apply andb_true_iff in O2 as [Pa Pb]. rewrite anal_rawif. cbn [fst csets].
      destruct (plain_inert a (ds, u) Ta Pa) as [PA _]. destruct (plain_inert b (ds, u) Tb Pb) as [PB _].
      unfold names. rewrite lvsets_one, vsets_if, map_app, occ_app. change (occ x (names (fst (anals tmp0 a (ds, u)))) + occ x (names (fst (anals tmp0 b (ds, u)))) = 0). now rewrite !plain_none.
    - destruct OK as [OK|(? & ? & ? & E & _)]; [|discriminate]. rewrite ok_rawcase in OK. apply andb_true_iff in OK as [OK Pc].
      apply andb_true_iff in OK as [Pe Tc]. rewrite forallb_forall in Pc, Tc. rewrite anal_rawcase. cbn [fst csets]. apply occ_none.
      intros I. unfold names in I. rewrite lvsets_one, vsets_case in I. apply in_map_iff in I as (w & <- & Iw). apply in_concat in Iw as (l & Il & Ie). apply in_map_iff in Il as ([v code] & <- & Ic).
      apply raw_code in Ic as (c & Ic & ->). cbn [snd] in Ie. destruct (plain_inert (snd c) (ds, u) (Tc c Ic) (Pc c Ic)) as [[_ PC] _].
      rewrite PC in X; [discriminate|]. unfold names. now apply in_map.
    - destruct OK as [OK|(? & ? & ? & E & _)]; [|discriminate]. rewrite ok_if in OK. apply andb_true_iff in OK as [_ OK]. apply andb_true_iff in OK as [Oa Ob].
      rewrite anal_if. cbv zeta. cbn [fst csets]. rewrite !sets_fix. unfold names. rewrite lvsets_one, vsets_if, map_app, !occ_app. f_equal; [apply (cnt_app a Ha (oks_okw a Oa) _ x X)|apply (cnt_app b Hb (oks_okw b Ob) _ x X)].
    - destruct OK as [OK|(? & ? & ? & E & _)]; [|discriminate]. rewrite ok_case in OK. apply andb_true_iff in OK as [_ OK]. rewrite forallb_forall in OK. rewrite Forall_forall in Hcs.
      rewrite anal_case. cbv zeta. cbn [fst csets]. rewrite sets_go. unfold names. rewrite lvsets_one, vsets_case. set (s1 := (ds, kread tmp0 ds e u)). clearbody s1. clear -OK Hcs X.
      induction cs as [|[v l] r IH]; [reflexivity|]. rewrite cases_cons. cbn [fst map concat snd]. rewrite map_app, !occ_app. f_equal.
      + apply (cnt_app l (Hcs (v, l) (or_introl eq_refl)) (oks_okw l (OK (v, l) (or_introl eq_refl))) s1 x X).
      + apply IH; [intros c Ic; apply Hcs; now right|intros c Ic; apply OK; now right].
    - destruct OK as [OK|(e0 & a0 & k0 & E & OK)]; [discriminate|]. injection E as <- <- <-.
      rewrite anal_while. cbv zeta. cbn [fst csets]. rewrite sets_fix. unfold names. rewrite lvsets_one, vsets_if. cbn [lvsets map concat vsets app]. rewrite app_nil_r.
      apply (cnt_app a Ha (oks_okw a OK) _ x X).
  Qed.
  Lemma cnt_lists l : cnt_list l.
  Proof. apply cnt_app, Forall_forall. intros c _. apply cnt_all. Qed.
End Order.
