From Coq Require Import ZArith String List Bool Lia ZifyBool.
From Verif Require Import BitfieldModel.
Import ListNotations.
Local Open Scope Z_scope.

(** Sum of widths, independent of the model's accumulators. *)
Definition widths (f : bitfield) : Z := fold_right (fun m a => m_width m + a) 0 f.

Arguments widths : simpl never.
Lemma widths_nil : widths [] = 0. Proof. reflexivity. Qed.
Lemma widths_cons : forall m f, widths (m :: f) = m_width m + widths f. Proof. reflexivity. Qed.
Ltac fsplit := repeat match goal with
  | H : Forall _ (_ ++ _) |- _ => apply Forall_app in H; destruct H
  | H : Forall _ (_ :: _) |- _ => apply Forall_cons_iff in H; destruct H
  end.
Ltac wsimp := rewrite ?widths_cons, ?widths_nil in *.

Lemma bitfieldWidth_widths : forall f, bitfieldWidth f = widths f.
Proof.
  unfold bitfieldWidth. intros f.
  enough (H : forall a, fold_left (fun tot m => tot + m_width m) f a = a + widths f) by (rewrite H; lia).
  induction f as [|m f IH]; intros a; cbn; wsimp; [lia|]. rewrite IH. lia.
Qed.

Lemma widths_app : forall a b, widths (a ++ b) = widths a + widths b.
Proof. induction a as [|m a IH]; intros b; cbn; wsimp; [lia|]. rewrite IH. lia. Qed.

Lemma widths_nonneg : forall f, Forall (fun m => 0 <= m_width m) f -> 0 <= widths f.
Proof. induction 1; wsimp; lia. Qed.
Ltac wpos := fsplit; repeat match goal with
  | H : Forall (fun m => 0 <= m_width m) _ |- _ => apply widths_nonneg in H end.

Lemma widths_rev : forall f, widths (rev f) = widths f.
Proof. induction f as [|m f IH]; cbn; [reflexivity|]. rewrite widths_app. wsimp. lia. Qed.

Lemma offset_loop_skip : forall r1 r2 name off,
  ~ In name (map m_name r1) ->
  member_offset_loop (r1 ++ r2) name off = member_offset_loop r2 name (off + widths r1).
Proof.
  induction r1 as [|m r1 IH]; intros r2 name off H; cbn in *; wsimp.
  - f_equal. lia.
  - destruct (String.eqb_spec name (m_name m)) as [->|Hne]; [tauto|].
    rewrite IH by tauto. f_equal. lia.
Qed.

Lemma member_offset : forall l1 m l2,
  ~ In (m_name m) (map m_name l2) ->
  bitfieldMemberTypeAndOffset (l1 ++ m :: l2) (m_name m) = Some (m_width m, widths l2).
Proof.
  intros l1 m l2 H. unfold bitfieldMemberTypeAndOffset.
  rewrite rev_app_distr. cbn. rewrite <- app_assoc. rewrite offset_loop_skip.
  - cbn. rewrite String.eqb_refl, widths_rev. reflexivity.
  - rewrite map_rev. rewrite <- in_rev. assumption.
Qed.

Lemma member_offset_loop_in : forall r name off w o,
  member_offset_loop r name off = Some (w, o) ->
  exists r1 m r2, r = r1 ++ m :: r2 /\ m_name m = name /\ m_width m = w /\ o = off + widths r1.
Proof.
  induction r as [|m r IH]; intros name off w o H; cbn in H; [discriminate|].
  destruct (String.eqb_spec name (m_name m)) as [->|Hne].
  - inversion H; subst. exists [], m, r. wsimp. repeat split; lia.
  - apply IH in H. destruct H as (r1 & m' & r2 & -> & A & B & C).
    exists (m :: r1), m', r2. wsimp. repeat split; try assumption. lia.
Qed.

Lemma member_range_inside : forall f name w o,
  Forall (fun m => 0 <= m_width m) f ->
  bitfieldMemberTypeAndOffset f name = Some (w, o) -> 0 <= o /\ 0 <= w /\ o + w <= bitfieldWidth f.
Proof.
  intros f name w o HF H. apply member_offset_loop_in in H.
  destruct H as (r1 & m & r2 & E & _ & <- & ->).
  assert (Ef : f = rev r2 ++ m :: rev r1).
  { rewrite <- (rev_involutive f), E, rev_app_distr. cbn. rewrite <- app_assoc. reflexivity. }
  rewrite bitfieldWidth_widths. subst f. wpos.
  rewrite widths_rev in *. rewrite widths_app. wsimp. rewrite !widths_rev. lia.
Qed.

(** Exactly one member owns each bit. *)
Lemma bit_owner : forall f, Forall (fun m => 0 <= m_width m) f -> NoDup (map m_name f) ->
  forall b, 0 <= b < bitfieldWidth f ->
  exists! name, In name (map m_name f) /\
    exists w o, bitfieldMemberTypeAndOffset f name = Some (w, o) /\ o <= b < o + w.
Proof.
  intros f HF HN b Hb. rewrite bitfieldWidth_widths in Hb.
  assert (Hex : exists l1 m l2, f = l1 ++ m :: l2 /\ widths l2 <= b < widths l2 + m_width m).
  { clear HN. induction f as [|m f IH]; wsimp; [lia|].
    inversion HF; subst. destruct (Z.lt_ge_cases b (widths f)) as [Hlt|Hge].
    - destruct IH as (l1 & m' & l2 & -> & H); [assumption|lia|]. exists (m :: l1), m', l2. auto.
    - exists [], m, f. split; [reflexivity|lia]. }
  destruct Hex as (l1 & m & l2 & -> & Hm).
  assert (Hoff : forall l1' m' l2', l1 ++ m :: l2 = l1' ++ m' :: l2' ->
     bitfieldMemberTypeAndOffset (l1 ++ m :: l2) (m_name m') = Some (m_width m', widths l2')).
  { intros l1' m' l2' E. rewrite E. apply member_offset. rewrite E in HN. rewrite map_app in HN. cbn in HN.
    apply NoDup_remove_2 in HN. intros Hin. apply HN. apply in_or_app. auto. }
  exists (m_name m). split.
  - split; [rewrite map_app; apply in_or_app; right; left; reflexivity|].
    exists (m_width m), (widths l2). split; [apply (Hoff l1 m l2 eq_refl)|lia].
  - intros name (Hin & w & o & E & Hr).
    apply in_map_iff in Hin. destruct Hin as (m' & <- & Hin).
    apply in_split in Hin. destruct Hin as (l1' & l2' & E2).
    rewrite (Hoff _ _ _ E2) in E. inversion E; subst w o; clear E.
    (* both splits of the same list contain b: they are the same split *)
    clear Hoff HN. revert l1' E2. revert Hb HF. induction l1 as [|x l1 IH]; intros Hb HF l1' E2.
    + destruct l1' as [|y l1']; cbn in E2; inversion E2; subst; [reflexivity|].
      exfalso. rewrite widths_app in Hm. wsimp. cbn in HF. wpos. lia.
    + destruct l1' as [|y l1']; cbn in E2; inversion E2; subst.
      * exfalso. rewrite widths_app in Hr. wsimp. wpos. lia.
      * cbn in HF. apply (IH) with (l1' := l1'); [|fsplit; apply Forall_app; auto|assumption].
        rewrite widths_app. wsimp. wpos. lia.
Qed.

(** Initializers. *)
Lemma concat_value_bound : forall l, Forall (fun e => 0 <= fst e) l ->
  0 <= concat_width l /\ 0 <= concat_value l < 2 ^ concat_width l.
Proof.
  induction 1 as [|[w v] l H HF [IH0 IH]]; cbn [concat_width concat_value fst] in *; [cbn; lia|].
  split; [lia|]. rewrite Z.pow_add_r by lia.
  assert (0 < 2 ^ w) by (apply Z.pow_pos_nonneg; lia).
  pose proof (Z.mod_pos_bound v (2 ^ w) ltac:(lia)). nia.
Qed.

Lemma concat_select : forall l1 w v l2,
  Forall (fun e => 0 <= fst e) (l1 ++ (w, v) :: l2) ->
  part_select (concat_value (l1 ++ (w, v) :: l2)) (concat_width l2) w = v mod 2 ^ w.
Proof.
  induction l1 as [|[w1 v1] l1 IH]; intros w v l2 HF; cbn [app concat_value].
  - cbn in HF. inversion HF as [|? ? Hw HF2]; subst. cbn in Hw.
    destruct (concat_value_bound l2 HF2) as [A B]. unfold part_select.
    rewrite Z.div_add_l by lia. rewrite (Z.div_small (concat_value l2)) by lia.
    rewrite Z.add_0_r. apply Z.mod_mod. apply Z.pow_nonzero; lia.
  - cbn in HF. inversion HF as [|? ? Hw HF2]; subst. cbn in Hw. rewrite <- (IH w v l2 HF2).
    unfold part_select.
    assert (HF3 := HF2). apply Forall_app in HF3. destruct HF3 as [F1 F3].
    inversion F3 as [|? ? Hw2 F2]; subst. cbn in Hw2.
    destruct (concat_value_bound _ F2) as [A2 _]. destruct (concat_value_bound _ F1) as [A1 _].
    assert (E : concat_width (l1 ++ (w, v) :: l2) = concat_width l1 + w + concat_width l2).
    { clear. induction l1 as [|[a b] l1 IH]; cbn; [lia|]. rewrite IH. lia. }
    rewrite E. rewrite !Z.pow_add_r by lia.
    replace (v1 mod 2 ^ w1 * (2 ^ concat_width l1 * 2 ^ w * 2 ^ concat_width l2))
       with ((v1 mod 2 ^ w1 * 2 ^ concat_width l1 * 2 ^ w) * 2 ^ concat_width l2) by ring.
    rewrite Z.div_add_l by (apply Z.pow_nonzero; lia).
    rewrite Z.add_comm, Z.mod_add by (apply Z.pow_nonzero; lia). reflexivity.
Qed.

(** Value the user wrote for a constant, ignoring width. *)
Definition const_fits (m : member) (c : const) : Prop :=
  match c with CSized w v => w = m_width m | CBare v => 0 <= v end.
Definition const_num (c : const) : Z := match c with CSized _ v => v | CBare v => v end.

Lemma concat_elements_widths : forall f vals l,
  (forall m c, In m f -> named_value vals (m_name m) = Some c -> const_fits m c) ->
  concat_elements f vals = Some l -> map fst l = map m_width f.
Proof.
  induction f as [|m f IH]; intros vals l HS H; cbn in H.
  - inversion H; reflexivity.
  - destruct (named_value vals (m_name m)) as [c|] eqn:En; [|discriminate].
    destruct (concat_element m c) as [e|] eqn:Ee; [|discriminate].
    destruct (concat_elements f vals) as [l'|] eqn:El; [|discriminate].
    inversion H; subst. cbn. f_equal.
    + specialize (HS m c (or_introl eq_refl) En). destruct c; cbn in *.
      * inversion Ee; subst. reflexivity.
      * destruct (v <? 0); inversion Ee; reflexivity.
    + apply (IH vals); [|assumption]. intros; apply HS; [right|]; assumption.
Qed.

Lemma widths_concat : forall f l, map fst l = map m_width f -> concat_width l = widths f.
Proof.
  induction f as [|m f IH]; intros [|[w v] l] H; cbn in *; try discriminate; [reflexivity|]. wsimp.
  inversion H; subst. rewrite (IH l) by assumption. reflexivity.
Qed.

Lemma bitfield_init_ok : forall f vals l,
  Forall (fun m => 0 <= m_width m) f -> NoDup (map m_name f) ->
  (forall m c, In m f -> named_value vals (m_name m) = Some c -> const_fits m c) ->
  gatherBitfieldValue f vals = Some l ->
  concat_width l = bitfieldWidth f /\
  forall m, In m f -> exists c w o, named_value vals (m_name m) = Some c /\
     bitfieldMemberTypeAndOffset f (m_name m) = Some (w, o) /\
     part_select (concat_value l) o w = const_num c mod 2 ^ w.
Proof.
  intros f vals l HF HN HS H. unfold gatherBitfieldValue in H.
  destruct (forallb _ vals && _); [|discriminate].
  assert (Hw := concat_elements_widths _ _ _ HS H).
  split; [rewrite bitfieldWidth_widths; apply widths_concat; assumption|].
  intros m Hin. apply in_split in Hin. destruct Hin as (f1 & f2 & ->).
  assert (Hoff : bitfieldMemberTypeAndOffset (f1 ++ m :: f2) (m_name m) = Some (m_width m, widths f2)).
  { apply member_offset. rewrite map_app in HN. cbn in HN. apply NoDup_remove_2 in HN.
    intros Hin. apply HN. apply in_or_app. auto. }
  assert (Hl : exists l1 c e l2, l = l1 ++ e :: l2 /\ named_value vals (m_name m) = Some c /\
             concat_element m c = Some e /\ map fst l2 = map m_width f2).
  { clear HF HN Hoff Hw. revert l H. induction f1 as [|x f1 IH]; intros l H; cbn [app concat_elements] in H.
    - destruct (named_value vals (m_name m)) as [c|] eqn:En; [|discriminate].
      destruct (concat_element m c) as [e|] eqn:Ee; [|discriminate].
      destruct (concat_elements f2 vals) as [l'|] eqn:El; [|discriminate].
      inversion H; subst. exists [], c, e, l'. repeat split; auto.
      apply (concat_elements_widths f2 vals); [|assumption].
      intros m' c' Hin Hc. apply HS; [right; assumption|assumption].
    - destruct (named_value vals (m_name x)) as [c|] eqn:En; [|discriminate].
      destruct (concat_element x c) as [e|] eqn:Ee; [|discriminate].
      destruct (concat_elements (f1 ++ m :: f2) vals) as [l'|] eqn:El; [|discriminate].
      inversion H; subst. destruct (IH ltac:(intros; apply HS; [right|]; assumption) l' eq_refl)
        as (l1 & c' & e' & l2 & -> & A). exists (e :: l1), c', e', l2. split; [reflexivity|exact A]. }
  destruct Hl as (l1 & c & [w v] & l2 & -> & Hc & He & Hl2).
  exists c, (m_width m), (widths f2). split; [assumption|]. split; [assumption|].
  assert (Hpos : Forall (fun e => 0 <= fst e) (l1 ++ (w, v) :: l2)).
  { rewrite Forall_forall. intros [w' v'] Hin. cbn.
    assert (In w' (map m_width (f1 ++ m :: f2))).
    { rewrite <- Hw. apply in_map_iff. exists (w', v'). auto. }
    apply in_map_iff in H0. destruct H0 as (x & <- & Hx). rewrite Forall_forall in HF. apply HF; assumption. }
  assert (Hfit := HS m c ltac:(apply in_or_app; right; left; reflexivity) Hc).
  assert (Ew : w = m_width m /\ v = const_num c mod 2 ^ m_width m).
  { destruct c; cbn in *.
    - inversion He; subst. auto.
    - destruct (v0 <? 0); inversion He; subst. auto. }
  destruct Ew as [-> ->].
  rewrite <- (widths_concat f2 l2 Hl2), concat_select by assumption.
  apply Z.mod_mod. apply Z.pow_nonzero; [lia|].
  apply Forall_app in Hpos. destruct Hpos as [_ Hp]. inversion Hp; subst. cbn in *. lia.
Qed.

(** Constant ranges. *)
Lemma bitfield_access_inside : forall f name p w o,
  Forall (fun m => 0 <= m_width m) f ->
  bitfieldAccess_ok f name (Some p) = true ->
  bitfieldConstBitRange f name None = Some (o, w) ->
  0 <= o /\ 0 <= w /\ o + w <= p.
Proof.
  intros f name p w o HF Hok H. unfold bitfieldAccess_ok, bitfieldConstBitRange in *.
  destruct (bitfieldMemberTypeAndOffset f name) as [[w' o']|] eqn:E; [|discriminate].
  inversion H; subst. apply member_range_inside in E; [|assumption]. lia.
Qed.

Lemma nested_range_inside : forall f name p r0 r1 mw mo,
  Forall (fun m => 0 <= m_width m) f ->
  bitfieldAccess_ok f name (Some p) = true ->
  bitfieldMemberTypeAndOffset f name = Some (mw, mo) ->
  0 <= r0 -> r0 + r1 <= mw ->
  bitfieldConstBitRange f name (Some (r0, r1)) = Some (mo + r0, r1) /\
  mo <= mo + r0 /\ mo + r0 + r1 <= mo + mw <= p.
Proof.
  intros f name p r0 r1 mw mo HF Hok E H0 H1. unfold bitfieldAccess_ok, bitfieldConstBitRange in *.
  rewrite E in *. replace (r0 >? -1) with true by lia. split; [reflexivity|]. lia.
Qed.

Lemma nested_select : forall x mo mw r0 r1, 0 <= mo -> 0 <= r0 -> 0 <= r1 -> r0 + r1 <= mw ->
  part_select (part_select x mo mw) r0 r1 = part_select x (mo + r0) r1.
Proof.
  intros x mo mw r0 r1 H1 H2 H3 H4. unfold part_select.
  apply Z.bits_inj'. intros k Hk.
  destruct (Z.lt_ge_cases k r1).
  - rewrite !Z.mod_pow2_bits_low by lia. rewrite !Z.div_pow2_bits by lia.
    rewrite Z.mod_pow2_bits_low by lia. rewrite Z.div_pow2_bits by lia. f_equal. lia.
  - rewrite !Z.mod_pow2_bits_high by lia. reflexivity.
Qed.

Lemma nested_range_full : forall f name p r0 r1 mw mo,
  Forall (fun m => 0 <= m_width m) f ->
  bitfieldAccess_ok f name (Some p) = true ->
  bitfieldMemberTypeAndOffset f name = Some (mw, mo) ->
  0 <= r0 -> 0 <= r1 -> r0 + r1 <= mw ->
  bitfieldConstBitRange f name (Some (r0, r1)) = Some (mo + r0, r1) /\
  mo <= mo + r0 /\ mo + r0 + r1 <= mo + mw <= p /\
  forall x, part_select (part_select x mo mw) r0 r1 = part_select x (mo + r0) r1.
Proof.
  intros f name p r0 r1 mw mo HF Hok E H0 H1 H2.
  destruct (nested_range_inside f name p r0 r1 mw mo HF Hok E H0 H2) as (A & B & C).
  split; [assumption|]. split; [assumption|]. split; [assumption|].
  intros x. apply nested_select; try assumption.
  apply member_range_inside in E; [|assumption]. lia.
Qed.

Lemma verify_spec f name : NoDup (map m_name f) ->
  (verifyMemberBitfield name f = true <-> exists m, In m f /\ m_name m = name /\ m_unsigned m = true /\ m_has_init m = false).
Proof.
  induction f as [|a f IH]; intros N; cbn [verifyMemberBitfield].
  - split; [discriminate|]. intros (m & [] & _).
  - inversion N; subst. destruct (String.eqb_spec (m_name a) name) as [<-|E].
    + split.
      * intros H. apply andb_true_iff in H. destruct H as [H3 H4]. exists a. repeat split; [left; reflexivity|exact H4|]. now destruct (m_has_init a).
      * intros (m & [->|I] & En & U & F); [rewrite U, F; reflexivity|]. exfalso. apply H1. rewrite <- En. now apply in_map.
    + rewrite IH by assumption. split; intros (m & I & R).
      * exists m. split; [right; exact I|exact R].
      * destruct I as [->|I]; [|exists m; tauto]. destruct R as [R _]. contradiction.
Qed.
Lemma member_found f name m : In m f -> m_name m = name -> exists w o, bitfieldMemberTypeAndOffset f name = Some (w, o).
Proof.
  intros I E. unfold bitfieldMemberTypeAndOffset. apply in_rev in I. generalize 0. induction (rev f) as [|a l IH]; intros z; [destruct I|].
  cbn [member_offset_loop]. destruct (String.eqb_spec name (m_name a)) as [Ha|Ha]; [eauto|]. destruct I as [->|I]; [congruence|]. apply IH; assumption.
Qed.
Lemma accessible f name : NoDup (map m_name f) ->
  (bitfieldAccess_ok f name None = true <-> exists m, In m f /\ m_name m = name /\ m_unsigned m = true /\ m_has_init m = false).
Proof.
  intros N. rewrite <- verify_spec by assumption. unfold bitfieldAccess_ok. split.
  - intros H. apply andb_true_iff in H. tauto.
  - intros H. rewrite H. cbn [andb]. apply verify_spec in H; [|assumption]. destruct H as (m & I & E & _).
    destruct (member_found f name m I E) as (w & o & ->). reflexivity.
Qed.
Lemma part_select_nonempty f name r0 r1 o w : 0 <= r0 -> partSelect_ok r0 r1 = true -> bitfieldConstBitRange f name (Some (r0, r1)) = Some (o, w) -> 0 < w.
Proof.
  intros R P B. unfold bitfieldConstBitRange in B. destruct (bitfieldMemberTypeAndOffset f name) as [[mw mo]|]; [|discriminate].
  rewrite (proj2 (Z.gtb_lt r0 (-1))) in B by lia. injection B as _ <-. unfold partSelect_ok in P. apply Z.ltb_lt in P. exact P.
Qed.
