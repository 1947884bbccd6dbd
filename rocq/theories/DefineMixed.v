(** When the rows of the dependencies never have both sides of a variable which is assigned again. *)
From Coq Require Import List Bool Arith ZArith Lia.
Import ListNotations.
From Verif Require Import FsmModel FsmRun FsmEmit UseModel UseProofs UseSound UseTwo UseCycle DefineModel DefineProofs DefineSim DefineCycle DefineExpand.
From Verif Require DepModel DepProofs.

(** * What the closure adds comes from other rows. *)
Section Rows.
  Variable P : var -> DepModel.ffu -> Prop.
  Hypothesis P0 : forall r, P r DepModel.f0.
  Hypothesis Por : forall r a b, P r a -> P r b -> P r (DepModel.for_ a b).
  Definition rows (d : DepModel.deps) : Prop := forall w r, P r (DepModel.dep d w r).
  Lemma close_rows n d w r : rows d -> P r (DepModel.close_row n d w r).
  Proof.
    intros H. unfold DepModel.close_row. destruct (Nat.lt_ge_cases r n) as [L|L].
    - rewrite DepProofs.tab_in by exact L. pose proof (H w r) as HA. revert HA. generalize (DepModel.dep d w r). induction (seq 0 n) as [|k ks IH]; intros acc HA; [exact HA|]. cbn [fold_left]. apply IH.
      destruct (_ && _); [|exact HA]. apply Por; [exact HA|apply H].
    - rewrite DepProofs.tab_out by exact L. apply P0.
  Qed.
  Lemma sweep_rows n ks : forall d c d' c', rows d -> DepModel.sweep n ks d c = (d', c') -> rows d'.
  Proof.
    induction ks as [|w ks IH]; intros d c d' c' H E; cbn [DepModel.sweep] in E; [now injection E as <- _|].
    eapply IH; [|exact E]. intros x r. cbn [DepModel.set_row DepModel.dep]. destruct (Nat.eqb x w); [now apply close_rows|apply H].
  Qed.
  Lemma closure_rows n f : forall d d', rows d -> DepModel.closure n f d = Some d' -> rows d'.
  Proof.
    induction f as [|f IH]; intros d d' H E; [discriminate|]. cbn [DepModel.closure] in E.
    destruct (DepModel.sweep n _ d false) as [d1 c] eqn:S. apply sweep_rows in S; [|exact H]. destruct c; [now apply (IH d1)|now injection E as <-].
  Qed.
  Lemma update_rows n d i d' : rows d -> (forall r, In r (DepModel.i_read i) ->
      P r (if DepModel.written d r then {| DepModel.fD := true; DepModel.fQ := false |} else {| DepModel.fD := false; DepModel.fQ := true |})) ->
    DepModel.update n d i = Some d' -> rows d'.
  Proof.
    intros H HR E. unfold DepModel.update in E. destruct (DepModel.closure n _ _) as [d1|] eqn:C; [|discriminate].
    destruct (existsb _ _); [discriminate|]. injection E as <-. eapply closure_rows; [|exact C]. intros w r. cbn [DepModel.dep].
    destruct (DepModel.mem w (DepModel.i_written i)); [|apply H]. destruct (DepModel.mem r (DepModel.i_read i)) eqn:M; [|apply P0]. apply HR. now apply DepProofs.mem_In.
  Qed.
End Rows.

Lemma kread_q ds e u r : In r (evars e) -> memb r ds = false -> fQ (kread tmp0 ds e u r) = true.
Proof.
  intros I M. revert u. induction e as [k|y|f a IH|f a IHa b IHb]; intros u; cbn [evars kread] in *.
  - destruct I.
  - destruct I as [->|[]]. rewrite uset_same, M. cbn [tmp0 orb]. reflexivity.
  - now apply IH.
  - apply in_app_or in I as [I|I]; [apply kread_mono; now apply IHa|now apply IHb].
Qed.

(** Variables met are those assigned. *)
Section Met.
  Variable x : var.
  Definition mets_ch (c : ch) : Prop := forall s, memb x (fst (snd (anal tmp0 c s))) = true -> memb x (fst s) = true \/ In x (csets c).
  Definition mets_list (l : list ch) : Prop := forall s, memb x (fst (snd (anals tmp0 l s))) = true -> memb x (fst s) = true \/ In x (lsets l).
  Lemma mets_app l : Forall mets_ch l -> mets_list l.
  Proof.
    induction 1 as [|c r Hc _ IH]; intros s H; [now left|]. rewrite anals_cons in H. cbn [snd] in H. unfold lsets. cbn [map concat].
    destruct (IH _ H) as [G|G]; [|right; apply in_or_app; now right]. destruct (Hc _ G) as [K|K]; [now left|right; apply in_or_app; now left].
  Qed.
  Lemma mets_all c : mets_ch c.
  Proof.
    induction c as [y e|y g h i e|y h e|e|k|l|e a b Ha Hb|e cs Hcs|e a b Ha Hb|e cs Hcs|e a k Ha] using ch_ind2; intros [d u] H.
    1-3: cbn [anal fst snd csets] in *; rewrite memb_cons in H; apply orb_true_iff in H as [H|H]; [right; left; symmetry; now apply Nat.eqb_eq|now left].
    1-3: now left.
    - rewrite anal_rawif in H. now left.
    - rewrite anal_rawcase in H. now left.
    - rewrite anal_if in H. cbv zeta in H. cbn [fst snd csets] in *. rewrite !sets_fix. rewrite !memb_app in H. apply orb_true_iff in H as [H|H]; [now left|].
      apply orb_true_iff in H as [H|H]; [apply (mets_app a Ha) in H|apply (mets_app b Hb) in H]; destruct H as [H|H]; auto; right; apply in_or_app; auto.
    - rewrite anal_case in H. cbv zeta in H. cbn [fst snd csets] in *. rewrite sets_go. rewrite memb_app in H. apply orb_true_iff in H as [H|H]; [now left|].
      apply cases_deps in H as (c & Ic & H). rewrite Forall_forall in Hcs. apply (mets_app (snd c) (Hcs c Ic)) in H as [H|H]; [now left|].
      right. apply in_concat. exists (lsets (snd c)). split; [apply in_map_iff; eauto|exact H].
    - rewrite anal_while in H. cbv zeta in H. cbn [fst snd csets] in *. rewrite sets_fix. rewrite !memb_app in H.
      apply orb_true_iff in H as [H|H]; [now left|]. apply orb_true_iff in H as [H|H]; [|now left].
      apply (mets_app a Ha) in H as [H|H]; [now left|now right].
  Qed.
  Lemma mets_lists l : mets_list l.
  Proof. apply mets_app, Forall_forall. intros c _. apply mets_all. Qed.
End Met.

Section Kept.
  Variables (n : nat) (raw R : var -> bool).
  (** Rows name on the Q side variables of [R], on the D side variables assigned before. *)
  Definition pure (d : DepModel.deps) : Prop := forall w r, (DepModel.fQ (DepModel.dep d w r) = true -> R r = true) /\ (DepModel.fD (DepModel.dep d w r) = true -> DepModel.written d r = true).
  Definition clean (t : sst) : Prop := pure (t_dep t) /\ forall x, t_kept t x = false.
  Definition spare (l : list var) (ds : list var) : Prop := forall x, R x = true -> occ x l + (if memb x ds then 1 else 0) <= 1.
  Definition within (u : usage) : Prop := forall x, fQ (u x) = true -> R x = true.
  Lemma within_mono u v : mono u v -> within v -> within u.
  Proof. intros M W x H. apply W. now apply M. Qed.

  Lemma update_pure d i d' : pure d -> (forall r, In r (DepModel.i_read i) -> DepModel.written d r = false -> R r = true) -> DepModel.update n d i = Some d' ->
    forall w r, (DepModel.fQ (DepModel.dep d' w r) = true -> R r = true) /\ (DepModel.fD (DepModel.dep d' w r) = true -> DepModel.written d r = true).
  Proof.
    intros H HR E. apply (update_rows (fun r f => (DepModel.fQ f = true -> R r = true) /\ (DepModel.fD f = true -> DepModel.written d r = true))) with (n := n) (d := d) (i := i) (d' := d').
    - intros r. split; discriminate.
    - intros r a b [A1 A2] [B1 B2]. cbn [DepModel.for_ DepModel.fD DepModel.fQ]. split; intros F; apply orb_true_iff in F as [F|F]; auto.
    - exact H.
    - intros r I. destruct (DepModel.written d r) eqn:W; cbn [DepModel.fD DepModel.fQ]; split; intros F; try discriminate F; [reflexivity|now apply HR].
    - exact E.
  Qed.
  Lemma update_written d i d' : DepModel.update n d i = Some d' -> DepProofs.inside n d -> rng n (DepModel.i_read i) = true -> forall w, DepModel.written d w = true -> DepModel.written d' w = true.
  Proof. intros E I RG w W. destruct (update_ok _ _ _ _ E I RG) as (_ & B & _). now rewrite B, W. Qed.

  Lemma clean_write ds x r t t' : Inv n ds t -> rng n r = true -> clean t -> (forall y, In y r -> memb y ds = false -> R y = true) ->
    spare [x] ds -> dwrite n x r t = Some t' -> clean t'.
  Proof.
    intros (A & B & _) RG [P K] HR SP H. unfold dwrite in H.
    destruct (DepModel.update n (t_dep t) _) as [d|] eqn:U; [|discriminate]. cbn [obind] in H. injection H as <-.
    assert (P' := update_pure _ {| DepModel.i_read := r; DepModel.i_written := [x] |} _ P (fun y I W => HR y I (eq_trans (eq_sym (B y)) W)) U). split; cbn [t_dep t_kept].
    - intros w z. destruct (P' w z) as [P1 P2]. split; [exact P1|]. intros F. eapply update_written; [exact U|exact A|exact RG|now apply P2].
    - intros z. unfold kept_write. rewrite K. cbn [orb]. apply not_true_iff_false. intros F. apply andb_true_iff in F as [F FQ]. apply andb_true_iff in F as [_ FD].
      destruct (P' z x) as [P1 P2]. specialize (P1 FQ). specialize (P2 FD). rewrite B in P2. specialize (SP x P1). unfold occ in SP. cbn [count_occ] in SP.
      destruct (Nat.eq_dec x x); [|congruence]. rewrite P2 in SP. lia.
  Qed.
  Lemma clean_read ds r t t' : Inv n ds t -> rng n r = true -> clean t -> (forall y, In y r -> memb y ds = false -> R y = true) -> dread n r t = Some t' -> clean t'.
  Proof.
    intros (A & B & _) RG [P K] HR H. unfold dread in H.
    destruct (DepModel.update n (t_dep t) _) as [d|] eqn:U; [|discriminate]. cbn [obind] in H. injection H as <-.
    assert (P' := update_pure _ {| DepModel.i_read := r; DepModel.i_written := [] |} _ P (fun y I W => HR y I (eq_trans (eq_sym (B y)) W)) U). split; cbn [t_dep t_kept]; [|exact K].
    intros w z. destruct (P' w z) as [P1 P2]. split; [exact P1|]. intros F. eapply update_written; [exact U|exact A|exact RG|now apply P2].
  Qed.
  Lemma merge_pure a b : pure a -> pure b -> pure (DepModel.merge a b).
  Proof.
    intros HA HB w r. cbn [DepModel.merge DepModel.dep DepModel.written]. destruct (DepModel.written b w).
    - destruct (HB w r) as [B1 B2]. split; [exact B1|]. intros F. now rewrite (B2 F).
    - destruct (HA w r) as [B1 B2]. split; [exact B1|]. intros F. rewrite (B2 F). apply orb_true_r.
  Qed.
  Lemma clean_join s bs us : clean s -> (forall b, In b bs -> clean b) -> clean (djoin s bs us).
  Proof.
    intros [P K] H. split; cbn [djoin t_dep t_kept].
    - apply merge_ind; [apply merge_pure|exact P|intros b I; now apply H].
    - intros x. rewrite K. cbn [orb]. apply not_true_iff_false. intros F. apply existsb_exists in F as (b & I & F). destruct (H b I) as [_ G]. rewrite G in F. discriminate.
  Qed.
  Lemma spare_le l l' ds : (forall x, occ x l' <= occ x l) -> spare l ds -> spare l' ds.
  Proof. intros L S x X. specialize (S x X). specialize (L x). lia. Qed.

  Definition clean_ch (c : ch) : Prop := forall ds u t t', shape n raw c = true -> wf ds u -> Inv n ds t -> within (snd (snd (anal tmp0 c (ds, u)))) -> spare (csets c) ds ->
    clean t -> dan n c t = Some t' -> clean t'.
  Definition clean_list (l : list ch) : Prop := forall ds u t t', shapes n raw l = true -> wf ds u -> Inv n ds t -> within (snd (snd (anals tmp0 l (ds, u)))) -> spare (lsets l) ds ->
    clean t -> dans n l t = Some t' -> clean t'.
  Lemma clean_app l : Forall clean_ch l -> clean_list l.
  Proof.
    induction 1 as [|c r Hc _ IH]; intros ds u t t' S W I N SP C H.
    - cbn in H. injection H as <-. exact C.
    - unfold shapes in S. cbn [forallb] in S. apply andb_true_iff in S as [Sc Sr].
      rewrite dans_cons in H. destruct (dan n c t) as [t1|] eqn:E; [|discriminate]. cbn [obind] in H.
      rewrite anals_cons in *. cbn [fst snd] in *. unfold lsets in SP. cbn [map concat] in SP. fold (lsets r) in SP.
      destruct (good_all tmp0 c (ds, u) W) as [W1 [G1 _]]. pose proof (inv_all n raw c ds u t t1 Sc I E) as I1.
      assert (SP1 : spare (lsets r) (fst (snd (anal tmp0 c (ds, u))))).
      { intros x X. specialize (SP x X). rewrite occ_app in SP. destruct (memb x (fst (snd (anal tmp0 c (ds, u))))) eqn:M; [|destruct (memb x ds); lia].
        apply mets_all in M as [M|M]; [cbn [fst] in M; rewrite M in SP; lia|]. apply (count_occ_In Nat.eq_dec) in M. fold (occ x (csets c)) in M. unfold occ in *. lia. }
      destruct (snd (anal tmp0 c (ds, u))) as [ds1 u1] eqn:EA. cbn [fst snd] in *.
      destruct (good_lists tmp0 r (ds1, u1) W1) as [W2 [G2 _]]. cbn [fst snd] in *.
      eapply (IH ds1 u1 t1 t' Sr W1 I1 N SP1); [|exact H]. eapply (Hc ds u t t1 Sc W I); [| |exact C|exact E].
      + rewrite EA. cbn [snd]. eapply within_mono; eassumption.
      + eapply spare_le; [|exact SP]. intros x. rewrite occ_app. lia.
  Qed.
  Lemma clean_all c : clean_ch c.
  Proof.
    induction c as [x e|x g h i e|x h e|e|k|l|e a b Ha Hb|e cs Hcs|e a b Ha Hb|e cs Hcs|e a k Ha] using ch_ind2; intros ds u t t' S W I N SP C H.
    - cbn [shape dan anal fst snd csets] in *. apply andb_true_iff in S as [S _]. apply andb_true_iff in S as [_ S].
      eapply clean_write; [exact I|exact S|exact C| |exact SP|exact H]. intros y Iy M. apply N. now apply kread_q.
    - cbn [shape dan anal fst snd csets] in *. apply andb_true_iff in S as [S _]. apply andb_true_iff in S as [_ S].
      eapply (clean_write ds x _ (unstable x t)); [now apply inv_unstable|unfold rng; rewrite forallb_app; exact S|exact C| |exact SP|exact H].
      intros y Iy M. apply N. apply in_app_or in Iy as [Iy|Iy]; [|now apply kread_q]. apply kread_mono, updq_mono, kwrite_mono. now apply kread_q.
    - cbn [shape dan anal fst snd csets] in *. apply andb_true_iff in S as [S _]. apply andb_true_iff in S as [_ S].
      eapply clean_write; [exact I|exact S|exact C| |exact SP|exact H]. intros y Iy M. apply N. now apply kread_q.
    - cbn [shape dan anal fst snd csets] in *. eapply clean_read; [exact I|exact S|exact C| |exact H]. intros y Iy M. apply N. now apply kread_q.
    - cbn [dan] in H. injection H as <-. exact C.
    - cbn [dan] in H. injection H as <-. exact C.
    - cbn [dan] in H. injection H as <-. exact C.
    - cbn [dan] in H. injection H as <-. exact C.
    - rewrite dan_if in H. rewrite shape_if in S. apply andb_true_iff in S as [_ S]. apply andb_true_iff in S as [Sa Sb].
      destruct (dans n a t) as [sa|] eqn:Ea; [|discriminate]. cbn [obind] in H. destruct (dans n b t) as [sb|] eqn:Eb; [|discriminate].
      cbn [obind] in H. injection H as <-. cbn [csets] in SP. rewrite !sets_fix in SP. rewrite anal_if in N. cbv zeta in N. cbn [fst snd] in N. set (u1 := kread tmp0 ds e u) in *.
      assert (W1 : wf ds u1) by now apply kread_wf.
      apply clean_join; [exact C|]. intros v [<-|[<-|[]]].
      + eapply (clean_app a Ha ds u1 t sa Sa W1 I); [| |exact C|exact Ea].
        * eapply within_mono; [|exact N]. apply combine_mono_br. now left.
        * eapply spare_le; [|exact SP]. intros x. rewrite occ_app. lia.
      + eapply (clean_app b Hb ds u1 t sb Sb W1 I); [| |exact C|exact Eb].
        * eapply within_mono; [|exact N]. apply combine_mono_br. right. now left.
        * eapply spare_le; [|exact SP]. intros x. rewrite occ_app. lia.
    - rewrite dan_case in H. rewrite shape_case in S. apply andb_true_iff in S as [_ S]. rewrite forallb_forall in S. rewrite Forall_forall in Hcs.
      destruct (dan_cases n cs t) as [ss|] eqn:Ec; [|discriminate]. cbn [obind] in H. injection H as <-. apply cases_in in Ec.
      cbn [csets] in SP. rewrite sets_go in SP. rewrite anal_case in N. cbv zeta in N. cbn [fst snd] in N. set (u1 := kread tmp0 ds e u) in *.
      assert (W1 : wf ds u1) by now apply kread_wf.
      apply clean_join; [exact C|]. intros b Ib. destruct (F2_right _ _ _ Ec b Ib) as (c & Ic & E).
      eapply (clean_app (snd c) (Hcs c Ic) ds u1 t b (S c Ic) W1 I); [| |exact C|exact E].
      + eapply within_mono; [|exact N]. apply combine_mono_br. pose proof (cases_usage tmp0 cs (ds, u1) c Ic) as J. destruct (has_default cs); [exact J|]. apply in_or_app. now left.
      + eapply spare_le; [|exact SP]. intros x. clear -Ic. induction cs as [|c0 r IH]; [destruct Ic|]. cbn [map concat]. rewrite occ_app. destruct Ic as [<-|Ic]; [lia|]. specialize (IH Ic). lia.
    - rewrite dan_while in H. rewrite shape_while in S. apply andb_true_iff in S as [_ S].
      destruct (dans n a t) as [sa|] eqn:Ea; [|discriminate]. cbn [obind] in H. injection H as <-. cbn [csets] in SP. rewrite sets_fix in SP.
      rewrite anal_while in N. cbv zeta in N. cbn [fst snd] in N. set (u1 := kread tmp0 ds e u) in *.
      assert (W1 : wf ds u1) by now apply kread_wf.
      apply clean_join; [exact C|]. intros v [<-|[<-|[]]]; [|exact C].
      eapply (clean_app a Ha ds u1 t sa S W1 I); [|exact SP|exact C|exact Ea]. eapply within_mono; [|exact N]. apply combine_mono_br. now left.
  Qed.
  Lemma clean_lists l : clean_list l.
  Proof. apply clean_app, Forall_forall. intros c _. apply clean_all. Qed.
End Kept.

(** Assignments of a unit, one per occurrence in the text. *)
Definition assignments (m : kmod) : list var := lsets (k_pre m) ++ concat (map (fun st => lsets (snd st)) (k_states m)) ++ lsets (k_post m).

Lemma unit_clean n raw m s : module_stable n m = Some s -> shapes n raw (k_pre m) = true -> (forall st, In st (k_states m) -> shapes n raw (snd st) = true) ->
  shapes n raw (k_post m) = true -> (forall x, fQ (o_use (module_use tmp0 m) x) = true -> occ x (assignments m) <= 1) -> forall x, t_kept s x = false.
Proof.
  intros ST S1 S2 S3 HO. set (R := fun x => fQ (o_use (module_use tmp0 m) x)).
  assert (N3 : within R (u3 tmp0 m)) by (intros x Hx; now apply mono3).
  assert (N2 : within R (u2 tmp0 m)) by (eapply within_mono; [apply mono23|exact N3]).
  assert (N1 : within R (u1 tmp0 m)) by (eapply within_mono; [apply mono12|exact N2]).
  destruct (stages n m s ST) as (t1 & ss & H1 & HS & H3).
  assert (C1 : clean R t1).
  { eapply (clean_lists n raw R (k_pre m) [] (u_start m) s_none t1 S1 (start_wf m) (none_inv n)); [| | |exact H1].
    - eapply within_mono; [apply clear_mono|exact N1].
    - intros x X. specialize (HO x X). unfold assignments in HO. rewrite !occ_app in HO. cbn [memb existsb]. lia.
    - split; [intros w r; split; discriminate|reflexivity]. }
  pose proof (inv_lists n raw (k_pre m) [] (u_start m) s_none t1 S1 (none_inv n) H1) as I1. fold (s_pre tmp0 m) in I1. fold (d1 tmp0 m) in I1.
  assert (M1 : forall x, memb x (d1 tmp0 m) = true -> 1 <= occ x (lsets (k_pre m))).
  { intros x M. unfold d1, s_pre in M. apply mets_lists in M as [M|M]; [discriminate|]. apply (count_occ_In Nat.eq_dec) in M. unfold occ. lia. }
  assert (OS : forall st, In st (k_states m) -> forall x, occ x (lsets (snd st)) <= occ x (concat (map (fun st => lsets (snd st)) (k_states m)))).
  { intros st Ist x. clear -Ist. induction (k_states m) as [|s0 r IH]; [destruct Ist|]. cbn [map concat]. rewrite occ_app. destruct Ist as [<-|Ist]; [lia|]. specialize (IH Ist). lia. }
  assert (CS : forall b, In b ss -> clean R b).
  { intros b Ib. destruct (F2_right _ _ _ HS b Ib) as (st & Ist & Hb).
    eapply (clean_lists n raw R (snd st) (d1 tmp0 m) (u1 tmp0 m) t1 b (S2 st Ist) (wf1 m) I1); [| |exact C1|exact Hb].
    - eapply within_mono; [apply (mono_st m st Ist)|exact N2].
    - intros x X. specialize (HO x X). unfold assignments in HO. rewrite !occ_app in HO. specialize (OS st Ist x). specialize (M1 x). destruct (memb x (d1 tmp0 m)); [specialize (M1 eq_refl)|]; lia. }
  assert (I2 : Inv n (d2 tmp0 m) (match ss with [] => t1 | _ => djoin t1 ss ss end)).
  { destruct ss as [|b0 ss'] eqn:ESS.
    - unfold d2. inversion HS as [E0|]. cbn [map concat]. rewrite app_nil_r. exact I1.
    - rewrite <- ESS in *. eapply inv_join; [exact I1| |apply d12| |auto|auto].
      + intros b Ib. destruct (F2_right _ _ _ HS b Ib) as (st & Ist & Hb). exists (fst (snd (st_an tmp0 m st))). split; [|intros x; now apply d2_in].
        apply (inv_lists n raw (snd st) (d1 tmp0 m) (u1 tmp0 m) t1 b (S2 st Ist) I1 Hb).
      + intros x Hx. apply d2_case in Hx as [Hx|(st & Ist & Hx)]; [now left|right]. destruct (F2_left _ _ _ HS st Ist) as (b & Ib & Hb). exists b. split; [exact Ib|].
        destruct (inv_lists n raw (snd st) (d1 tmp0 m) (u1 tmp0 m) t1 b (S2 st Ist) I1 Hb) as (_ & B & _). rewrite B. exact Hx. }
  assert (C2 : clean R (match ss with [] => t1 | _ => djoin t1 ss ss end)).
  { destruct ss as [|b0 ss'] eqn:ESS; [exact C1|]. rewrite <- ESS in *. now apply clean_join. }
  apply (clean_lists n raw R (k_post m) (d2 tmp0 m) (u2 tmp0 m) _ s S3 (wf2 m) I2).
  - eapply within_mono; [apply clear_mono|exact N3].
  - intros x X. specialize (HO x X). unfold assignments in HO. rewrite !occ_app in HO. specialize (M1 x).
    destruct (memb x (d2 tmp0 m)) eqn:M; [|lia]. apply d2_case in M as [M|(st & Ist & M)]; [specialize (M1 M); lia|].
    unfold st_an in M. apply mets_lists in M as [M|M]; [cbn [fst] in M; specialize (M1 M); lia|]. apply (count_occ_In Nat.eq_dec) in M. fold (occ x (lsets (snd st))) in M. specialize (OS st Ist x). unfold occ in *. lia.
  - exact C2.
  - exact H3.
Qed.
