(** Expansion of the macros of a unit. *)
From Coq Require Import List Bool Arith ZArith Lia.
Import ListNotations.
From Verif Require Import FsmModel FsmRun FsmEmit FsmArms UseModel UseProofs UseSound UseTwo UseCycle DefineModel DefineProofs DefineSim DefineCycle DefineExpand.

Section Expand.
  Variable def : var -> bool.
  Lemma ex_d f l x : expand def (S f) l (VD x) = if def x then (do t <- last_def x l; expand def f l t) else Some (VD x).
  Proof. reflexivity. Qed.
  Lemma ex_u f l g a : expand def (S f) l (VU g a) = (do a' <- expand def (S f) l a; Some (VU g a')).
  Proof. reflexivity. Qed.
  Lemma ex_b f l g a b : expand def (S f) l (VB g a b) = (do a' <- expand def (S f) l a; do b' <- expand def (S f) l b; Some (VB g a' b')).
  Proof. reflexivity. Qed.

  Lemma expand_more l f : forall e r, expand def f l e = Some r -> expand def (S f) l e = Some r.
  Proof.
    induction f as [|f IHf]; [discriminate|]. induction e as [k|x|x|g a IHa|g a IHa b IHb]; intros r H.
    - exact H.
    - exact H.
    - rewrite ex_d in *. destruct (def x); [|exact H]. destruct (last_def x l) as [t|]; [|discriminate]. cbn [obind] in *. now apply IHf.
    - rewrite ex_u in *. destruct (expand def (S f) l a) as [a'|]; [|discriminate]. now rewrite (IHa a' eq_refl).
    - rewrite ex_b in *. destruct (expand def (S f) l a) as [a'|]; [|discriminate]. rewrite (IHa a' eq_refl). cbn [obind] in *.
      destruct (expand def (S f) l b) as [b'|]; [|discriminate]. now rewrite (IHb b' eq_refl).
  Qed.
  Lemma expand_closed l f : forall e r, expand def f l e = Some r -> forall y, In y (dv r) -> def y = false.
  Proof.
    induction f as [|f IHf]; [discriminate|]. induction e as [k|x|x|g a IHa|g a IHa b IHb]; intros r H y I.
    - injection H as <-. destruct I.
    - injection H as <-. destruct I.
    - rewrite ex_d in H. destruct (def x) eqn:X.
      + destruct (last_def x l) as [t|]; [|discriminate]. cbn [obind] in H. now apply (IHf t r H).
      + injection H as <-. destruct I as [<-|[]]. exact X.
    - rewrite ex_u in H. destruct (expand def (S f) l a) as [a'|]; [|discriminate]. injection H as <-. now apply (IHa a' eq_refl).
    - rewrite ex_b in H. destruct (expand def (S f) l a) as [a'|]; [|discriminate]. cbn [obind] in H.
      destruct (expand def (S f) l b) as [b'|]; [|discriminate]. injection H as <-. cbn [dv] in I. apply in_app_or in I as [I|I]; [now apply (IHa a' eq_refl)|now apply (IHb b' eq_refl)].
  Qed.

  Lemma last_none x l : ~ In x (map fst l) -> last_def x l = None.
  Proof.
    induction l as [|[y t] r IH]; intros H; [reflexivity|]. cbn [map fst] in H. cbn [last_def]. rewrite IH by (intros I; apply H; now right).
    destruct (Nat.eqb_spec y x) as [->|_]; [exfalso; apply H; now left|reflexivity].
  Qed.
  Lemma last_one x t l : occ x (map fst l) <= 1 -> In (x, t) l -> last_def x l = Some t.
  Proof.
    induction l as [|[y v] r IH]; intros H I; [destruct I|]. cbn [map fst occ] in H. unfold occ in H. cbn [count_occ] in H. cbn [last_def].
    destruct (Nat.eq_dec y x) as [->|N].
    - assert (Z : count_occ Nat.eq_dec (map fst r) x = 0) by lia. rewrite last_none by now apply (count_occ_not_In Nat.eq_dec). rewrite Nat.eqb_refl.
      destruct I as [E|I]; [now injection E as ->|]. exfalso. apply (count_occ_not_In Nat.eq_dec) in Z. apply Z. now apply (in_map fst) in I.
    - destruct I as [E|I]; [congruence|]. now rewrite (IH H I).
  Qed.
  Lemma ordered_at known l1 x t l2 : ordered def known (l1 ++ (x, t) :: l2) -> def x = true -> okv def (map fst l1 ++ known) t.
  Proof.
    revert known. induction l1 as [|[y v] r IH]; intros known H X; [now apply H|]. destruct H as [_ H]. apply IH in H; [|exact X].
    eapply okv_more; [|exact H]. intros z I. cbn [map fst app]. apply in_app_or in I as [I|[<-|I]]; [right; apply in_or_app; now left|now left|right; apply in_or_app; now right].
  Qed.
  Lemma ordered_filter known known' l : (forall z, def z = true -> In z known -> In z known') -> ordered def known l -> ordered def known' (filter (fun a => def (fst a)) l).
  Proof.
    revert known known'. induction l as [|[x t] r IH]; intros known known' S H; [exact I|]. destruct H as [H1 H2]. cbn [filter fst]. destruct (def x) eqn:X.
    - split; [intros _; intros z Iz Dz; apply S; [exact Dz|now apply H1]|]. eapply IH; [|exact H2]. intros z Dz [<-|Iz]; [now left|right; now apply S].
    - eapply IH; [|exact H2]. intros z Dz [<-|Iz]; [congruence|now apply S].
  Qed.

  Section L.
    Variable l : list (var * vexp).
    Hypothesis uniq : forall x, def x = true -> occ x (map fst l) <= 1.
    Hypothesis ord : ordered def [] l.
    Lemma expand_ok f : forall e, okv def (map fst (firstn f l)) e -> exists r, expand def (S f) l e = Some r.
    Proof.
      induction f as [|f IHf]; induction e as [k|x|x|g a IHa|g a IHa b IHb]; intros H; try (eexists; reflexivity).
      1,4: rewrite ex_d; destruct (def x) eqn:X; [|eexists; reflexivity].
      - specialize (H x (or_introl eq_refl) X). destruct H.
      - specialize (H x (or_introl eq_refl) X). apply in_map_iff in H as ([z t] & Ez & I). cbn [fst] in Ez. subst z.
        assert (IL : In (x, t) l). { rewrite <- (firstn_skipn (S f) l). apply in_or_app. now left. }
        rewrite (last_one x t l (uniq x X) IL). cbn [obind]. apply IHf.
        apply in_split in I as (a & b & E). assert (LA : length a <= f). { pose proof (firstn_le_length (S f) l) as LF. pose proof (f_equal (@length _) E) as LE. rewrite app_length in LE. cbn [length] in LE. rewrite firstn_length in LE. lia. }
        assert (EL : l = a ++ (x, t) :: (b ++ skipn (S f) l)) by (rewrite <- (firstn_skipn (S f) l) at 1; rewrite E, <- app_assoc; reflexivity).
        pose proof ord as O. rewrite EL in O. apply ordered_at in O; [|exact X]. rewrite app_nil_r in O. eapply okv_more; [|exact O].
        intros z I. rewrite EL, firstn_app, map_app. apply in_or_app. left. rewrite firstn_all2 by exact LA. exact I.
      - rewrite ex_u. destruct IHa as [a' ->]; [exact H|]. cbn [obind]. eauto.
      - rewrite ex_b. destruct IHa as [a' ->]; [intros z I; apply H; cbn [dv]; apply in_or_app; now left|]. cbn [obind].
        destruct IHb as [b' ->]; [intros z I; apply H; cbn [dv]; apply in_or_app; now right|]. cbn [obind]. eauto.
      - rewrite ex_u. destruct IHa as [a' ->]; [exact H|]. cbn [obind]. eauto.
      - rewrite ex_b. destruct IHa as [a' ->]; [intros z I; apply H; cbn [dv]; apply in_or_app; now left|]. cbn [obind].
        destruct IHb as [b' ->]; [intros z I; apply H; cbn [dv]; apply in_or_app; now right|]. cbn [obind]. eauto.
    Qed.

    (** The full text of a macro. *)
    Definition full (x : var) : vexp := match expand def (fuel_for l) l (VD x) with Some t => t | None => VC 0 end.
    Lemma full_ok x : In x (map fst l) -> expand def (fuel_for l) l (VD x) = Some (full x).
    Proof.
      intros H. unfold full. destruct (expand_ok (S (length l)) (VD x)) as [r E].
      - intros z [<-|[]] _. rewrite firstn_all2 by lia. exact H.
      - change (fuel_for l) with (S (S (length l))). now rewrite E.
    Qed.
    Lemma expand_sub e : okv def (map fst l) e -> expand def (fuel_for l) l e = Some (sub def full e).
    Proof.
      induction e as [k|x|x|g a IHa|g a IHa b IHb]; intros H.
      - reflexivity.
      - reflexivity.
      - cbn [sub]. destruct (def x) eqn:X; [apply full_ok; apply H; [now left|exact X]|]. change (fuel_for l) with (S (S (length l))). rewrite ex_d, X. reflexivity.
      - change (fuel_for l) with (S (S (length l))) in *. rewrite ex_u, IHa by exact H. reflexivity.
      - change (fuel_for l) with (S (S (length l))) in *. rewrite ex_b, IHa by (intros z I; apply H; cbn [dv]; apply in_or_app; now left).
        cbn [obind]. rewrite IHb by (intros z I; apply H; cbn [dv]; apply in_or_app; now right). reflexivity.
    Qed.
    Lemma full_text x t : In (x, t) l -> def x = true -> full x = sub def full t.
    Proof.
      intros I X. pose proof (full_ok x (in_map fst _ _ I)) as F. change (fuel_for l) with (S (S (length l))) in F. rewrite ex_d, X in F.
      rewrite (last_one x t l (uniq x X) I) in F. cbn [obind] in F. apply expand_more in F.
      assert (O : okv def (map fst l) t).
      { apply in_split in I as (a & b & E). pose proof ord as O. rewrite E in O. apply ordered_at in O; [|exact X]. rewrite app_nil_r in O. eapply okv_more; [|exact O].
        intros z I. rewrite E, map_app. apply in_or_app. now left. }
      apply expand_sub in O. change (fuel_for l) with (S (S (length l))) in O. congruence.
    Qed.

    Lemma exput_if ex e a b : exput def ex (VIf e a b) = (do e' <- ex e; do a' <- exputs def ex a; do b' <- exputs def ex b; Some [VIf e' a' b']).
    Proof. reflexivity. Qed.
    Lemma exput_ok c : (forall e, In e (cexps c) -> okv def (map fst l) e) -> exput def (expand def (fuel_for l) l) c = Some (put def full c).
    Proof.
      assert (LS : forall ll, Forall (fun c => (forall e, In e (cexps c) -> okv def (map fst l) e) -> exput def (expand def (fuel_for l) l) c = Some (put def full c)) ll ->
        (forall e, In e (lexps ll) -> okv def (map fst l) e) -> exputs def (expand def (fuel_for l) l) ll = Some (puts def full ll)).
      { induction 1 as [|a r Ha _ IH]; intros H; [reflexivity|]. cbn [exputs puts]. unfold lexps in H. cbn [map concat] in H.
        rewrite Ha by (intros e I; apply H, in_or_app; now left). cbn [obind]. rewrite IH by (intros e I; apply H, in_or_app; now right). reflexivity. }
      induction c as [x e|k|e a b Ha Hb|e cs Hcs] using vst_ind'; intros H.
      - cbn [exput put]. destruct (def x); [reflexivity|]. rewrite expand_sub by (apply H; now left). reflexivity.
      - reflexivity.
      - rewrite exps_if in H. rewrite exput_if, put_if. rewrite expand_sub by (apply H; now left). cbn [obind].
        rewrite (LS a Ha) by (intros e' I; apply H; right; apply in_or_app; now left). cbn [obind]. rewrite (LS b Hb) by (intros e' I; apply H; right; apply in_or_app; now right). reflexivity.
      - rewrite exps_case in H. rewrite put_case.
        change (exput def (expand def (fuel_for l) l) (VCase e cs)) with
          (do e' <- expand def (fuel_for l) l e;
           do cs' <- (fix go (cs : list (option Z * list vst)) : option (list (option Z * list vst)) :=
                       match cs with [] => Some [] | (v, k) :: r => do l' <- exputs def (expand def (fuel_for l) l) k; do r' <- go r; Some ((v, l') :: r') end) cs;
           Some [VCase e' cs']).
        rewrite expand_sub by (apply H; now left). cbn [obind].
        assert (G : (fix go (cs : list (option Z * list vst)) : option (list (option Z * list vst)) :=
                       match cs with [] => Some [] | (v, k) :: r => do l' <- exputs def (expand def (fuel_for l) l) k; do r' <- go r; Some ((v, l') :: r') end) cs
                    = Some (map (fun c => (fst c, puts def full (snd c))) cs)).
        { assert (H' : forall e', In e' (concat (map (fun c => lexps (snd c)) cs)) -> okv def (map fst l) e') by (intros e' I; apply H; now right). clear H.
          induction cs as [|[v k] r IH]; [reflexivity|]. inversion Hcs as [|c0 r0 Hk Hr]; subst. cbn [map concat snd fst] in *.
          rewrite (LS k Hk) by (intros e' I; apply H', in_or_app; now left). cbn [obind]. rewrite IH; [reflexivity|exact Hr|]. intros e' I. apply H', in_or_app. now right. }
        rewrite G. reflexivity.
    Qed.
    Lemma exputs_ok ll : (forall e, In e (lexps ll) -> okv def (map fst l) e) -> exputs def (expand def (fuel_for l) l) ll = Some (puts def full ll).
    Proof.
      induction ll as [|a r IH]; intros H; [reflexivity|]. cbn [exputs puts]. unfold lexps in H. cbn [map concat] in H.
      rewrite exput_ok by (intros e I; apply H, in_or_app; now left). cbn [obind]. rewrite IH by (intros e I; apply H, in_or_app; now right). reflexivity.
    Qed.
    Lemma exput_arms_ok ll : (forall k c, In (k, c) ll -> forall e, In e (lexps c) -> okv def (map fst l) e) ->
      exput_arms def (expand def (fuel_for l) l) ll = Some (map (fun a => (fst a, puts def full (snd a))) ll).
    Proof.
      induction ll as [|[k c] r IH]; intros H; [reflexivity|]. cbn [exput_arms map fst snd]. rewrite exputs_ok by (apply (H k); now left). cbn [obind].
      rewrite IH by (intros k' c' I; apply (H k'); now right). reflexivity.
    Qed.
  End L.
End Expand.

(** * The macros of a unit *)
Section Unit.
  Variables (n : nat) (raw : var -> bool) (m : kmod) (def : var -> bool) (s : sst).
  Let o := module_use tmp0 m.
  Hypothesis st_eq : module_stable n m = Some s.
  Hypothesis stable : forall x, def x = true -> t_st s x = Some true.
  Hypothesis noq_m : noq def (o_use o).
  Hypothesis shape_pre : shapes n raw (k_pre m) = true.
  Hypothesis shape_st : forall st, In st (k_states m) -> shapes n raw (snd st) = true.
  Hypothesis shape_post : shapes n raw (k_post m) = true.
  Variable idx : nat.
  Hypothesis OK : unit_ok m idx = true.

  Let all := lvsets (o_pre o) ++ concat (map (fun a => lvsets (snd a)) (o_arms o)) ++ lvsets (o_post o).
  Let dfq := defq_m m def noq_m.

  Lemma ok_pre : Forall (okw (k_q m) all_p) (k_pre m).
  Proof. unfold unit_ok in OK. apply andb_true_iff in OK as [H _]. apply andb_true_iff in H as [H _]. now apply oks_okw. Qed.
  Lemma ok_st st : In st (k_states m) -> Forall (okw (k_q m) all_p) (snd st).
  Proof. unfold unit_ok in OK. apply andb_true_iff in OK as [H _]. apply andb_true_iff in H as [_ H]. rewrite forallb_forall in H. intros I. now apply toks_okw, H. Qed.
  Lemma ok_post : Forall (okw (k_q m) (settled m idx)) (k_post m).
  Proof. unfold unit_ok in OK. apply andb_true_iff in OK as [_ H]. now apply oks_okw. Qed.

  Lemma good_pre : good_text def [] (fst (s_pre tmp0 m)) (d1 tmp0 m).
  Proof.
    apply (ord_lists def (k_q m) all_p dfq (k_pre m) ok_pre [] (u_start m) [] (start_wf m)); [|discriminate].
    eapply noq_mono; [apply clear_mono|apply (noq1 m def noq_m)].
  Qed.
  Lemma good_st st : In st (k_states m) -> good_text def (names (fst (s_pre tmp0 m))) (fst (st_an tmp0 m st)) (fst (snd (st_an tmp0 m st))).
  Proof.
    intros I. apply (ord_lists def (k_q m) all_p dfq (snd st) (ok_st st I) (d1 tmp0 m) (u1 tmp0 m) _ (wf1 m)).
    - eapply noq_mono; [apply (mono_st m st I)|apply (noq2 m def noq_m)].
    - apply good_pre.
  Qed.
  Definition arms_names : list var := map fst (concat (map (fun a : nat * list vst => lvsets (snd a)) (o_arms o))).
  Lemma arms_in st z : In st (k_states m) -> In z (names (fst (st_an tmp0 m st))) -> In z arms_names.
  Proof.
    intros I H. unfold arms_names, o. rewrite module_use_eq. cbn [o_arms]. rewrite map_map. cbn [snd]. unfold names in H. apply in_map_iff in H as (v & <- & Iv). apply in_map.
    apply in_concat. eexists. split; [|exact Iv]. apply in_map_iff. eauto.
  Qed.
  Lemma good_post : good_text def (names (fst (s_pre tmp0 m)) ++ arms_names) (fst (s_post tmp0 m)) (fst (snd (s_post tmp0 m))).
  Proof.
    apply (ord_lists def (k_q m) (settled m idx) dfq (k_post m) ok_post (d2 tmp0 m) (u2 tmp0 m) _ (wf2 m)).
    - eapply noq_mono; [apply clear_mono|apply (noq3 m def noq_m)].
    - intros z Z D. apply d2_case in Z as [Z|(st & Ist & Z)].
      + apply in_or_app. left. now apply good_pre.
      + destruct (good_st st Ist) as (_ & _ & G). specialize (G z Z D). apply in_app_or in G as [G|G]; apply in_or_app; [now left|right]. eapply arms_in; eassumption.
  Qed.
  Lemma all_eq : all = lvsets (fst (s_pre tmp0 m)) ++ concat (map (fun st => lvsets (fst (st_an tmp0 m st))) (k_states m)) ++ lvsets (fst (s_post tmp0 m)).
  Proof. unfold all, o. rewrite module_use_eq. cbn [o_pre o_arms o_post]. now rewrite map_map. Qed.
  Lemma all_ordered : ordered def [] all.
  Proof.
    unfold all, o. rewrite module_use_eq. cbn [o_pre o_arms o_post]. apply ordered_app; [apply good_pre|].
    apply ordered_app.
    - apply ordered_concat. intros c Ic. apply in_map_iff in Ic as (st & <- & Ist). cbn [snd]. eapply ordered_more; [|apply (good_st st Ist)]. intros z Z. apply in_or_app. now left.
    - eapply ordered_more; [|apply good_post]. intros z Z. apply in_app_or in Z as [Z|Z]; apply in_or_app; [right; apply in_or_app; now left|left].
      unfold arms_names, o in Z. rewrite module_use_eq in Z. exact Z.
  Qed.
  Lemma all_once x : def x = true -> occ x (map fst all) = 1.
  Proof.
    intros X. rewrite all_eq, !map_app, !occ_app.
    change (occ x (names (fst (s_pre tmp0 m))) + (occ x (map fst (concat (map (fun st => lvsets (fst (st_an tmp0 m st))) (k_states m)))) + occ x (names (fst (s_post tmp0 m)))) = 1).
    unfold s_pre at 1, s_post at 1.
    rewrite (cnt_lists def (k_q m) all_p dfq (k_pre m) ok_pre _ x X), (cnt_lists def (k_q m) (settled m idx) dfq (k_post m) ok_post _ x X).
    assert (ES : occ x (map fst (concat (map (fun st => lvsets (fst (st_an tmp0 m st))) (k_states m)))) = sums (map (fun st => occ x (lsets (snd st))) (k_states m))).
    { assert (G : forall st, In st (k_states m) -> Forall (okw (k_q m) all_p) (snd st)) by apply ok_st. revert G. generalize (k_states m).
      induction l as [|st r IH]; intros G; [reflexivity|]. cbn [map concat sums]. rewrite map_app, occ_app, IH by (intros st' I; apply G; now right).
      f_equal. unfold st_an. apply (cnt_lists def (k_q m) all_p dfq (snd st) (G st (or_introl eq_refl)) _ x X). }
    rewrite ES. clear ES.
    destruct (stages n m s st_eq) as (t1 & ss & H1 & HS & H3).
    pose proof (once_lists n raw x (k_pre m) [] s_none t1 shape_pre (none_inv n) H1) as O1.
    pose proof (inv_lists n raw (k_pre m) [] (u_start m) s_none t1 shape_pre (none_inv n) H1) as I1. fold (s_pre tmp0 m) in I1. fold (d1 tmp0 m) in I1.
    assert (O2 : once (sums (map (fun st => occ x (lsets (snd st))) (k_states m))) (t_st t1 x) (t_st (match ss with [] => t1 | _ => djoin t1 ss ss end) x) /\
                 exists d, Inv n d (match ss with [] => t1 | _ => djoin t1 ss ss end)).
    { destruct ss as [|b0 ss'] eqn:ESS.
      - inversion HS as [E0|]. split; [apply once_refl|eauto].
      - rewrite <- ESS in *. split.
        + apply join_once. eapply F2_map; [exact HS|]. intros st b Ist Hb. apply (once_lists n raw x (snd st) (d1 tmp0 m) t1 b (shape_st st Ist) I1 Hb).
        + exists (d2 tmp0 m). eapply inv_join; [exact I1| |apply d12| |auto|auto].
          * intros b Ib. destruct (F2_right _ _ _ HS b Ib) as (st & Ist & Hb). exists (fst (snd (st_an tmp0 m st))). split; [|intros z; now apply d2_in].
            apply (inv_lists n raw (snd st) (d1 tmp0 m) (u1 tmp0 m) t1 b (shape_st st Ist) I1 Hb).
          * intros z Hz. apply d2_case in Hz as [Hz|(st & Ist & Hz)]; [now left|right]. destruct (F2_left _ _ _ HS st Ist) as (b & Ib & Hb). exists b. split; [exact Ib|].
            destruct (inv_lists n raw (snd st) (d1 tmp0 m) (u1 tmp0 m) t1 b (shape_st st Ist) I1 Hb) as (_ & B & _). rewrite B. exact Hz. }
    destruct O2 as [O2 [d I2]].
    pose proof (once_lists n raw x (k_post m) d _ s shape_post I2 H3) as O3.
    destruct (once_trans _ _ _ _ _ O1 (once_trans _ _ _ _ _ O2 O3)) as [_ O]. destruct (O (stable x X)) as [[F _]|[_ ->]]; [discriminate F|reflexivity].
  Qed.

  Let l := macros def o.
  Lemma macros_ordered : ordered def [] l.
  Proof. unfold l, macros. apply (ordered_filter def [] []); [intros z _ []|exact all_ordered]. Qed.
  Lemma filter_occ x k : def x = true -> occ x (map fst (filter (fun a : var * vexp => def (fst a)) k)) = occ x (map fst k).
  Proof.
    intros X. unfold occ. induction k as [|[y t] r IH]; [reflexivity|]. cbn [filter fst]. destruct (def y) eqn:Y; cbn [map fst count_occ]; [now rewrite IH|].
    destruct (Nat.eq_dec y x) as [->|_]; [congruence|exact IH].
  Qed.
  Lemma macros_once x : def x = true -> occ x (map fst l) = 1.
  Proof. intros X. unfold l, macros. rewrite filter_occ by exact X. now apply all_once. Qed.
  Lemma macros_uniq x : def x = true -> occ x (map fst l) <= 1.
  Proof. intros X. rewrite macros_once; auto. Qed.
  Lemma macros_in x t : In (x, t) all -> def x = true -> In (x, t) l.
  Proof. intros I X. unfold l, macros. apply filter_In. split; [exact I|exact X]. Qed.
  Lemma names_known z : def z = true -> In z (map fst all) -> In z (map fst l).
  Proof. intros D I. apply in_map_iff in I as ([y t] & <- & I). apply (in_map fst _ (y, t)). now apply macros_in. Qed.

  Definition MM : var -> vexp := full def l.
  Lemma all_texts : texts def MM all.
  Proof. intros x t I X. apply (full_text def l macros_uniq macros_ordered x t); [now apply macros_in|exact X]. Qed.
  Lemma texts_pre : texts def MM (lvsets (o_pre o)).
  Proof. intros x t I. apply all_texts. unfold all. apply in_or_app. now left. Qed.
  Lemma texts_st st : In st (k_states m) -> texts def MM (lvsets (fst (st_an tmp0 m st))).
  Proof.
    intros Ist x t I. apply all_texts. rewrite all_eq. apply in_or_app. right. apply in_or_app. left. apply in_concat. eexists. split; [|exact I]. apply in_map_iff. eauto.
  Qed.
  Lemma texts_post : texts def MM (lvsets (o_post o)).
  Proof. intros x t I. apply all_texts. unfold all. apply in_or_app. right. apply in_or_app. now right. Qed.

  Lemma with_macros_ok : with_macros def o = Some (put_out def MM o).
  Proof.
    unfold with_macros. fold l.
    assert (KN : forall known, (forall z, In z known -> In z (map fst all)) -> forall e, okv def known e -> okv def (map fst l) e).
    { intros known S e H z I D. apply names_known; [exact D|]. now apply S, H. }
    assert (N1 : forall z, In z (names (fst (s_pre tmp0 m))) -> In z (map fst all)).
    { intros z Z. rewrite all_eq, map_app. apply in_or_app. now left. }
    assert (N2 : forall z, In z arms_names -> In z (map fst all)).
    { intros z Z. unfold all. rewrite !map_app. apply in_or_app. right. apply in_or_app. now left. }
    assert (N3 : forall z, In z (names (fst (s_post tmp0 m))) -> In z (map fst all)).
    { intros z Z. rewrite all_eq, !map_app. apply in_or_app. right. apply in_or_app. now right. }
    rewrite (exputs_ok def l macros_uniq macros_ordered).
    2:{ intros e I. unfold o in I. rewrite module_use_eq in I. cbn [o_pre] in I. eapply KN; [|apply good_pre; exact I]. exact N1. }
    cbn [obind]. rewrite (exput_arms_ok def l macros_uniq macros_ordered).
    2:{ intros k c Ic e I. unfold o in Ic. rewrite module_use_eq in Ic. cbn [o_arms] in Ic. apply in_map_iff in Ic as (st & E & Ist). injection E as <- <-.
        eapply KN; [|apply (good_st st Ist); exact I]. intros z Z. apply in_app_or in Z as [Z|Z]; [now apply N1|]. apply N2. eapply arms_in; eassumption. }
    cbn [obind]. rewrite (exputs_ok def l macros_uniq macros_ordered).
    2:{ intros e I. unfold o in I. rewrite module_use_eq in I. cbn [o_post] in I. eapply KN; [|apply good_post; exact I].
        intros z Z. apply in_app_or in Z as [Z|Z]; [apply in_app_or in Z as [Z|Z]; auto|auto]. }
    reflexivity.
  Qed.
  Lemma seen_ok Q D x : def x = true -> seen def o Q D x = Some (veval Q D (MM x)).
  Proof.
    intros X. unfold seen. fold l. unfold MM. rewrite (full_ok def l macros_uniq macros_ordered); [reflexivity|].
    destruct (in_dec Nat.eq_dec x (map fst l)) as [I|N]; [exact I|]. apply (count_occ_not_In Nat.eq_dec) in N. pose proof (macros_once x X) as O. unfold occ in O. congruence.
  Qed.
  Lemma seen_plain Q D x : def x = false -> seen def o Q D x = Some (D x).
  Proof. intros X. unfold seen. change (fuel_for (macros def o)) with (S (S (length (macros def o)))). rewrite ex_d, X. reflexivity. Qed.
End Unit.
