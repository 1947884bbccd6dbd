(** Executions with macros follow executions with temporaries. *)
From Coq Require Import List Bool Arith ZArith Lia.
Import ListNotations.
From Verif Require Import FsmModel FsmRun FsmEmit UseModel UseProofs UseSound UseTwo UseCycle DefineModel DefineProofs.
From Verif Require DepModel DepProofs.

(** D sides named in a text. *)
Fixpoint dv (e : vexp) : list var :=
  match e with VC _ | VQ _ => [] | VD x => [x] | VU _ a => dv a | VB _ a b => dv a ++ dv b end.
Lemma dv_eval Q D D' e : (forall y, In y (dv e) -> D y = D' y) -> veval Q D e = veval Q D' e.
Proof.
  induction e as [k|x|x|f a IH|f a IHa b IHb]; intros H; cbn [veval dv] in *; auto.
  - apply H. now left.
  - now rewrite IH.
  - rewrite IHa, IHb; auto; intros y I; apply H, in_or_app; auto.
Qed.

Section Texts.
  Variable def : var -> bool.
  Variable M : var -> vexp.
  Fixpoint sub (e : vexp) : vexp :=
    match e with
    | VC _ | VQ _ => e
    | VD x => if def x then M x else e
    | VU g a => VU g (sub a)
    | VB g a b => VB g (sub a) (sub b)
    end.
  Fixpoint put (c : vst) : list vst :=
    let all := fix all (l : list vst) : list vst := match l with [] => [] | c :: r => put c ++ all r end in
    match c with
    | VSet x e => if def x then [] else [VSet x (sub e)]
    | VIdx k => [VIdx k]
    | VIf e a b => [VIf (sub e) (all a) (all b)]
    | VCase e cs => [VCase (sub e) ((fix go (cs : list (option Z * list vst)) := match cs with [] => [] | (v, l) :: r => (v, all l) :: go r end) cs)]
    end.
  Fixpoint puts (l : list vst) : list vst := match l with [] => [] | c :: r => put c ++ puts r end.
  Lemma put_if e a b : put (VIf e a b) = [VIf (sub e) (puts a) (puts b)].
  Proof. reflexivity. Qed.
  Lemma put_case e cs : put (VCase e cs) = [VCase (sub e) (map (fun c => (fst c, puts (snd c))) cs)].
  Proof.
    change (put (VCase e cs)) with [VCase (sub e) ((fix go (cs : list (option Z * list vst)) := match cs with [] => [] | (v, l) :: r => (v, puts l) :: go r end) cs)].
    f_equal. f_equal. induction cs as [|[v l] r IH]; [reflexivity|]. cbn [map fst snd]. now rewrite IH.
  Qed.
  Lemma puts_app a b : puts (a ++ b) = puts a ++ puts b.
  Proof. induction a as [|c a IH]; [reflexivity|]. cbn [app puts]. now rewrite IH, app_assoc. Qed.
  Lemma pick_put v cs : pick v (map (fun c => (fst c, puts (snd c))) cs) = match pick v cs with Some l => Some (puts l) | None => None end.
  Proof.
    assert (A : pick_case v (map (fun c : option Z * list vst => (fst c, puts (snd c))) cs) = match pick_case v cs with Some l => Some (puts l) | None => None end).
    { induction cs as [|[w l] r IH]; [reflexivity|]. cbn [map fst snd pick_case]. destruct w as [z|]; [destruct (z =? v)%Z; [reflexivity|]|]; exact IH. }
    assert (B : pick_default (map (fun c : option Z * list vst => (fst c, puts (snd c))) cs) = match pick_default cs with Some l => Some (puts l) | None => None end).
    { clear A. induction cs as [|[w l] r IH]; [reflexivity|]. cbn [map fst snd pick_default]. destruct w; [exact IH|reflexivity]. }
    unfold pick. rewrite A. destruct (pick_case v cs); [reflexivity|exact B].
  Qed.

  (** Assignments of a text. *)
  Lemma vsets_if e a b : vsets (VIf e a b) = lvsets a ++ lvsets b.
  Proof.
    assert (E : forall l, (fix all (l : list vst) : list (var * vexp) := match l with [] => [] | c :: r => vsets c ++ all r end) l = lvsets l).
    { unfold lvsets. induction l as [|c r IH]; [reflexivity|]. cbn [map concat]. now rewrite <- IH. }
    cbn [vsets]. now rewrite !E.
  Qed.
  Lemma vsets_case e cs : vsets (VCase e cs) = concat (map (fun c => lvsets (snd c)) cs).
  Proof.
    assert (E : forall l, (fix all (l : list vst) : list (var * vexp) := match l with [] => [] | c :: r => vsets c ++ all r end) l = lvsets l).
    { unfold lvsets. induction l as [|c r IH]; [reflexivity|]. cbn [map concat]. now rewrite <- IH. }
    cbn [vsets]. induction cs as [|[v l] r IH]; [reflexivity|]. cbn [map concat snd]. now rewrite <- IH, E.
  Qed.
  Lemma lvsets_app a b : lvsets (a ++ b) = lvsets a ++ lvsets b.
  Proof. unfold lvsets. now rewrite map_app, concat_app. Qed.
  Lemma lvsets_one c : lvsets [c] = vsets c.
  Proof. unfold lvsets. cbn [map concat]. apply app_nil_r. Qed.

  (** The macros have the texts of the assignments. *)
  Definition texts (l : list (var * vexp)) : Prop := forall x t, In (x, t) l -> def x = true -> M x = sub t.
  Lemma texts_app a b : texts (a ++ b) <-> texts a /\ texts b.
  Proof.
    split; [intros H; split; intros x t I; apply H, in_or_app; auto|]. intros [A B] x t I. apply in_app_or in I as [I|I]; [now apply A|now apply B].
  Qed.
End Texts.

Lemma kread_fl d e u x : fL (kread tmp0 d e u x) = fL (u x).
Proof.
  revert u. induction e as [k|y|f a IH|f a IHa b IHb]; intros u; cbn [kread]; auto.
  - cbn [tmp0 orb]. unfold uset. destruct (Nat.eqb_spec x y) as [->|N]; [|reflexivity]. destruct (memb y d); reflexivity.
  - now rewrite IHb, IHa.
Qed.
Lemma kwrite_fl y u x : fL (kwrite y u x) = fL (u x).
Proof. unfold kwrite, uset. destruct (Nat.eqb_spec x y) as [->|N]; reflexivity. Qed.

(** The flag D without the flag Q: assigned. *)
Definition dq (ds : list var) (u : usage) : Prop := forall x, fQ (u x) = false -> fD (u x) = true -> memb x ds = true.
Lemma kread_dq ds d e u : (forall x, memb x d = true -> memb x ds = true) -> dq ds u -> dq ds (kread tmp0 d e u).
Proof.
  intros S. revert u. induction e as [k|y|f a IH|f a IHa b IHb]; intros u H; cbn [kread]; auto.
  cbn [tmp0 orb]. intros x. unfold uset. destruct (Nat.eqb_spec x y) as [->|N]; [|apply H]. destruct (memb y d) eqn:E; [intros _ _; now apply S|discriminate].
Qed.
Lemma kwrite_dq ds y u : dq ds u -> dq (y :: ds) (kwrite y u).
Proof.
  intros H x. rewrite memb_cons. unfold kwrite, uset. destruct (Nat.eqb_spec x y) as [->|N]; [reflexivity|]. cbn [orb]. apply H.
Qed.
Lemma updq_dq ds y u : dq ds u -> dq ds (uset u y (upd_q (u y))).
Proof. intros H x. unfold uset. destruct (Nat.eqb_spec x y) as [->|N]; [discriminate|apply H]. Qed.
Lemma combine_dq ds u brs ds' : dq ds u -> (forall x, memb x ds = true -> memb x ds' = true) ->
  (forall b, In b brs -> exists d, dq d b /\ forall x, memb x d = true -> memb x ds' = true) -> dq ds' (combine u brs).
Proof.
  intros H S HB x. cbn [combine fQ fD]. intros NQ D. apply orb_false_iff in NQ as [NQ _]. apply orb_false_iff in NQ as [N1 N2].
  apply orb_true_iff in D as [D|D]; [apply S; now apply H|]. apply existsb_exists in D as (b & I & D). destruct (HB b I) as (d & Hd & Sd). apply Sd, Hd; [|exact D].
  destruct (fQ (b x)) eqn:E; [|reflexivity]. assert (existsb (fun br : usage => fQ (br x)) brs = true) by (apply existsb_exists; eauto). congruence.
Qed.
Lemma dq_weak ds ds' u : (forall x, memb x ds = true -> memb x ds' = true) -> dq ds u -> dq ds' u.
Proof. intros S H x A B. apply S. now apply H. Qed.
Lemma memb_more x y l : memb x l = true -> memb x (y :: l) = true.
Proof. intros H. rewrite memb_cons, H. apply orb_true_r. Qed.

Definition dq_ch (c : ch) : Prop := forall s, dq (fst s) (snd s) -> dq (fst (snd (anal tmp0 c s))) (snd (snd (anal tmp0 c s))).
Definition dq_list (l : list ch) : Prop := forall s, dq (fst s) (snd s) -> dq (fst (snd (anals tmp0 l s))) (snd (snd (anals tmp0 l s))).
Lemma dq_app l : Forall dq_ch l -> dq_list l.
Proof. induction 1 as [|c r Hc Hr IH]; intros s H; [exact H|]. rewrite anals_cons. cbn [snd]. now apply IH, Hc. Qed.
Lemma dq_all c : dq_ch c.
Proof.
  induction c as [x e|x g h i e|x h e|e|k|l|e a b Ha Hb|e cs Hcs|e a b Ha Hb|e cs Hcs|e a k Ha] using ch_ind2; intros [ds u] H; cbn [fst snd] in *.
  - cbn [anal fst snd]. apply kread_dq; [intros z; apply memb_more|]. now apply kwrite_dq.
  - cbn [anal fst snd]. apply kread_dq; [intros z; apply memb_more|]. apply updq_dq, kwrite_dq, kread_dq; auto.
  - cbn [anal fst snd]. apply kread_dq; [intros z; apply memb_more|]. now apply kwrite_dq.
  - cbn [anal fst snd]. apply kread_dq; auto.
  - exact H.
  - exact H.
  - rewrite anal_rawif. exact H.
  - rewrite anal_rawcase. exact H.
  - rewrite anal_if. cbv zeta. cbn [fst snd]. assert (H1 : dq ds (kread tmp0 ds e u)) by (apply kread_dq; auto).
    eapply combine_dq; [exact H1|intros x Hx; now rewrite memb_app, Hx|]. intros v [<-|[<-|[]]].
    + eexists. split; [apply (dq_app a Ha (ds, kread tmp0 ds e u) H1)|]. intros x Hx. now rewrite !memb_app, Hx, orb_true_r.
    + eexists. split; [apply (dq_app b Hb (ds, kread tmp0 ds e u) H1)|]. intros x Hx. now rewrite !memb_app, Hx, !orb_true_r.
  - rewrite anal_case. cbv zeta. cbn [fst snd]. assert (H1 : dq ds (kread tmp0 ds e u)) by (apply kread_dq; auto).
    eapply combine_dq; [exact H1|intros x Hx; now rewrite memb_app, Hx|]. intros v I.
    assert (In v (snd (anal_cases tmp0 cs (ds, kread tmp0 ds e u))) \/ v = kread tmp0 ds e u) as [I'| ->].
    { destruct (has_default cs); [now left|]. apply in_app_or in I as [I|[<-|[]]]; auto. }
    + assert (EX : exists c, In c cs /\ v = snd (snd (anals tmp0 (snd c) (ds, kread tmp0 ds e u)))).
      { clear - I'. induction cs as [|[w l] r IH]; [destruct I'|]. rewrite cases_cons in I'. cbn [snd] in I'. destruct I' as [<-|I'].
        - exists (w, l). split; [now left|reflexivity].
        - destruct (IH I') as (c & Ic & E). exists c. split; [now right|exact E]. }
      destruct EX as (c & Ic & ->). rewrite Forall_forall in Hcs. eexists. split; [apply (dq_app (snd c) (Hcs c Ic) (ds, kread tmp0 ds e u) H1)|].
      intros x Hx. rewrite memb_app. apply orb_true_iff. right. eapply cases_deps_in; eassumption.
    + exists ds. split; [exact H1|]. intros x Hx. now rewrite memb_app, Hx.
  - rewrite anal_while. cbv zeta. cbn [fst snd]. assert (H1 : dq ds (kread tmp0 ds e u)) by (apply kread_dq; auto).
    eapply combine_dq; [exact H1|intros x Hx; now rewrite memb_app, Hx|]. intros v [<-|[]].
    eexists. split; [apply (dq_app a Ha (ds, kread tmp0 ds e u) H1)|]. intros x Hx. now rewrite !memb_app, Hx, orb_true_r.
Qed.
Lemma dq_lists l : dq_list l.
Proof. apply dq_app, Forall_forall. intros c _. apply dq_all. Qed.

(** * The two executions *)
Section Sim.
  Variables (n : nat) (raw q : var -> bool).
  Variable def : var -> bool.
  Variable M : var -> vexp.
  Variable Q : store.

  (** The macro of an assigned variable names values assigned before, recorded in its row. *)
  Definition cov (d : DepModel.deps) : Prop := forall x, def x = true -> DepModel.written d x = true -> forall y, In y (dv (M x)) ->
    DepModel.written d y = true /\ DepModel.fD (DepModel.dep d x y) = true.
  Definition fine (t : sst) : Prop := forall x, def x = true -> ~ bad t x.
  Definition noq (u : usage) : Prop := forall x, def x = true -> fQ (u x) = false.

  Section P.
  Variable p : var -> bool.
  Definition rel (ds : list var) (u : usage) (T D : store) : Prop :=
    (forall x, def x = false -> T x = D x) /\
    (forall x, def x = true -> p x = true -> memb x ds = false \/ fL (u x) = true \/ T x = veval Q D (M x)).
  Definition keepd (ds : list var) (T D T' D' : store) : Prop :=
    forall x, def x = true -> memb x ds = true -> T x = veval Q D (M x) -> T' x = veval Q D' (M x).

  Lemma noq_mono u v : mono u v -> noq v -> noq u.
  Proof. intros H N x X. specialize (N x X). destruct (fQ (u x)) eqn:E; [|reflexivity]. apply H in E. congruence. Qed.
  Lemma rel_fl ds u v T D : (forall x, fL (u x) = fL (v x)) -> rel ds u T D -> rel ds v T D.
  Proof. intros E [A B]. split; [exact A|]. intros x X P. rewrite <- E. now apply B. Qed.
  Lemma keepd_refl ds T D : keepd ds T D T D.
  Proof. intros x _ _ H; exact H. Qed.

  Lemma read_sim ds e u T D : forallb p (evars e) = true -> rel ds u T D -> noq (kread tmp0 ds e u) ->
    veval Q T (krw tmp0 ds e) = veval Q D (sub def M (krw tmp0 ds e)).
  Proof.
    revert u. induction e as [k|x|f a IH|f a IHa b IHb]; intros u P R N; cbn [krw sub veval evars forallb kread] in *.
    - reflexivity.
    - apply andb_true_iff in P as [P _]. cbn [tmp0 orb] in *. destruct (memb x ds) eqn:E; cbn [sub veval]; [|reflexivity].
      destruct R as [R1 R2]. destruct (def x) eqn:X; [|now apply R1]. specialize (N x X). rewrite uset_same in N. cbn [upd_d fQ andb] in N.
      destruct (R2 x X P) as [F|[F|F]]; [congruence| |exact F]. rewrite F, orb_true_r in N. discriminate.
    - now rewrite (IH u).
    - rewrite forallb_app in P. apply andb_true_iff in P as [Pa Pb]. rewrite (IHa u Pa R), (IHb (kread tmp0 ds a u) Pb).
      + reflexivity.
      + eapply rel_fl; [|exact R]. intros x. now rewrite kread_fl.
      + exact N.
      + eapply noq_mono; [apply kread_mono|exact N].
  Qed.
  Lemma read_rel ds e u T D : rel ds u T D -> rel ds (kread tmp0 ds e u) T D.
  Proof. apply rel_fl. intros x. now rewrite kread_fl. Qed.

  (** Assignment of a variable which is not a macro. *)
  Lemma write_free ds x r t t' : Inv n ds t -> rng n r = true -> dwrite n x r t = Some t' -> fine t' -> cov (t_dep t) -> def x = false ->
    cov (t_dep t') /\ forall z, def z = true -> memb z ds = true -> ~ In x (dv (M z)).
  Proof.
    intros (A & B & C & _) R H F CV X. unfold dwrite in H.
    destruct (DepModel.update n (t_dep t) _) as [d|] eqn:U; [|discriminate]. cbn [obind] in H. injection H as <-.
    destruct (update_ok _ _ _ _ U A R) as (A' & B' & L & _). cbn [DepModel.i_written] in B', L.
    assert (NE : forall z, def z = true -> DepModel.mem z [x] = false).
    { intros z Z. unfold DepModel.mem. cbn [existsb]. destruct (Nat.eqb_spec z x); [congruence|reflexivity]. }
    split.
    - intros z Z W y I. cbn [t_dep] in *. rewrite B', (NE z Z), orb_false_r in W. destruct (CV z Z W y I) as [C1 C2]. split.
      + now rewrite B', C1.
      + now apply (L z y (NE z Z)).
    - intros z Z W I. rewrite <- B in W. destruct (CV z Z W x I) as [C1 C2].
      assert (FD : DepModel.fD (DepModel.dep d z x) = true) by now apply (L z x (NE z Z)).
      assert (WD : DepModel.written d z = true) by now rewrite B', W.
      destruct (DepModel.fQ (DepModel.dep d z x)) eqn:FQ.
      + apply (F z Z). right. cbn [t_kept]. unfold kept_write. now rewrite WD, FD, FQ, orb_true_r.
      + apply (F z Z). left. cbn [t_st]. rewrite st_write_cases. destruct (Nat.eqb_spec z x) as [->|_]; [congruence|].
        rewrite B in W. specialize (C z W). destruct (t_st t z); [|congruence]. rewrite WD, FQ. unfold DepModel.present. now rewrite FD.
  Qed.
  Lemma write_rel ds u u' x T D v : def x = false -> (forall z, def z = true -> memb z ds = true -> ~ In x (dv (M z))) -> (forall z, fL (u' z) = fL (u z)) ->
    rel ds u T D -> rel (x :: ds) u' (upd T x v) (upd D x v) /\ keepd ds T D (upd T x v) (upd D x v).
  Proof.
    intros X N E [R1 R2].
    assert (K : forall z, def z = true -> memb z ds = true -> T z = veval Q D (M z) -> upd T x v z = veval Q (upd D x v) (M z)).
    { intros z Z W H. unfold upd at 1. destruct (Nat.eqb_spec z x) as [->|_]; [congruence|]. rewrite H. apply dv_eval. intros y I. unfold upd.
      destruct (Nat.eqb_spec y x) as [->|_]; [|reflexivity]. exfalso. now apply (N z Z W). }
    split; [split|exact K].
    - intros z Z. unfold upd. destruct (Nat.eqb z x); [reflexivity|now apply R1].
    - intros z Z P. rewrite memb_cons, E. destruct (Nat.eqb_spec z x) as [->|_]; [congruence|]. cbn [orb].
      destruct (memb z ds) eqn:W; [|now left]. right. destruct (R2 z Z P) as [F|[F|F]]; [congruence|now left|right; now apply K].
  Qed.

  (** Reading in a text of the macros already defined. *)
  Lemma dv_krw ds e y : In y (dv (krw tmp0 ds e)) -> In y (evars e) /\ memb y ds = true.
  Proof.
    induction e as [k|x|f a IH|f a IHa b IHb]; cbn [krw dv evars]; intros H.
    - destruct H.
    - cbn [tmp0 orb] in H. destruct (memb x ds) eqn:E; cbn [dv] in H; [|destruct H]. destruct H as [<-|[]]. split; [now left|exact E].
    - now apply IH.
    - apply in_app_or in H as [H|H]; [destruct (IHa H)|destruct (IHb H)]; split; auto; apply in_or_app; auto.
  Qed.
  Lemma dv_sub e y : In y (dv (sub def M e)) -> (In y (dv e) /\ def y = false) \/ exists w, In w (dv e) /\ def w = true /\ In y (dv (M w)).
  Proof.
    induction e as [k|x|x|f a IH|f a IHa b IHb]; cbn [sub dv]; intros H.
    - destruct H.
    - destruct H.
    - destruct (def x) eqn:X; [right; exists x; split; [now left|auto]|]. cbn [dv] in H. destruct H as [<-|[]]. left. split; [now left|exact X].
    - now apply IH.
    - apply in_app_or in H as [H|H]; [destruct (IHa H) as [[? ?]|(w & ? & ?)]|destruct (IHb H) as [[? ?]|(w & ? & ?)]];
        try (left; split; [apply in_or_app; auto|assumption]); right; exists w; split; auto; apply in_or_app; auto.
  Qed.
  (** Assignment of a macro. *)
  Lemma define_cov ds x e t t' : Inv n ds t -> Nat.ltb x n = true -> rng n (evars e) = true -> dwrite n x (evars e) t = Some t' -> fine t' -> cov (t_dep t) -> def x = true ->
    M x = sub def M (krw tmp0 ds e) -> cov (t_dep t') /\ memb x ds = false.
  Proof.
    intros (A & B & C & _) RX R H F CV X EM. unfold dwrite in H. apply Nat.ltb_lt in RX.
    destruct (DepModel.update n (t_dep t) _) as [d|] eqn:U; [|discriminate]. cbn [obind] in H. injection H as <-.
    destruct (update_ok _ _ _ _ U A R) as (A' & B' & L & NEW & CL). cbn [DepModel.i_written DepModel.i_read] in B', L, NEW.
    assert (FR : memb x ds = false).
    { destruct (memb x ds) eqn:W; [|reflexivity]. exfalso. apply (F x X). left. cbn [t_st]. rewrite st_write_cases, Nat.eqb_refl, B, W.
      now destruct (_ && _ && _). }
    split; [|exact FR]. cbn [t_dep] in *.
    assert (MX : DepModel.mem x [x] = true) by (unfold DepModel.mem; cbn [existsb]; now rewrite Nat.eqb_refl).
    assert (MZ : forall z, z <> x -> DepModel.mem z [x] = false).
    { intros z N. unfold DepModel.mem. cbn [existsb]. destruct (Nat.eqb_spec z x); [congruence|reflexivity]. }
    intros z Z W y I. destruct (Nat.eq_dec z x) as [->|N].
    - rewrite EM in I. apply dv_sub in I as [[I _]|(w & I & Dw & Iy)].
      + apply dv_krw in I as [I1 I2]. rewrite B', B, I2. split; [reflexivity|]. apply NEW; [exact MX|exact I1|now rewrite B].
      + apply dv_krw in I as [I1 I2]. assert (w <> x) by congruence.
        assert (Ww : DepModel.written (t_dep t) w = true) by now rewrite B.
        destruct (CV w Dw Ww y Iy) as [C1 C2]. split; [now rewrite B', C1|].
        apply (CL x w y).
        * exact RX.
        * rewrite B'. apply orb_true_iff. right. exact MX.
        * unfold rng in R. rewrite forallb_forall in R. specialize (R w I1). now apply Nat.ltb_lt in R.
        * unfold DepModel.present. rewrite (NEW x w MX I1 Ww). reflexivity.
        * now rewrite B', Ww.
        * now apply (L w y (MZ w ltac:(assumption))).
    - rewrite B' in W. apply orb_true_iff in W as [W|W]; [|pose proof (MZ z N) as F0; change (DepModel.mem z [x] = true) in W; congruence]. destruct (CV z Z W y I) as [C1 C2]. split; [now rewrite B', C1|]. now apply (L z y (MZ z N)).
  Qed.

  (** Merging. *)
  Lemma cov_merge a b : cov a -> cov b -> cov (DepModel.merge a b).
  Proof.
    intros HA HB x X W y I. cbn [DepModel.merge DepModel.dep DepModel.written] in *. destruct (DepModel.written b x) eqn:E.
    - destruct (HB x X E y I) as [-> H]. auto.
    - cbn [orb] in W. destruct (HA x X W y I) as [-> H]. rewrite orb_true_r. auto.
  Qed.
  Lemma cov_join s bs us : cov (t_dep s) -> (forall b, In b bs -> cov (t_dep b)) -> cov (t_dep (djoin s bs us)).
  Proof. intros H HB. cbn [djoin t_dep]. apply merge_ind; [apply cov_merge|exact H|exact HB]. Qed.

  Lemma combine_rel ds u brs db b ds' T D T' D' :
    wf ds u -> dq ds u -> (forall b', In b' brs -> mono u b') -> In b brs -> dq db b -> wf ds' (combine u brs) -> noq (combine u brs) ->
    rel ds u T D -> keepd ds T D T' D' -> rel db b T' D' -> rel ds' (combine u brs) T' D'.
  Proof.
    intros W DQ MB I DB W' N [R1 R2] K [S1 S2]. split; [exact S1|]. intros x X P.
    destruct (memb x ds') eqn:E; [|now left]. right. destruct (fL (combine u brs x)) eqn:FL; [now left|]. right.
    specialize (N x X). cbn [combine fQ] in N. apply orb_false_iff in N as [N NL]. apply orb_false_iff in N as [NU NB].
    assert (NQ : forall b', In b' brs -> fQ (b' x) = false).
    { intros b' I'. destruct (fQ (b' x)) eqn:F; [|reflexivity].
      assert (existsb (fun br : usage => fQ (br x)) brs = true) as G by (apply existsb_exists; eauto). congruence. }
    destruct (W' x) as (WD & _). specialize (WD E). cbn [combine fD] in WD.
    assert (EX : existsb (fun br : usage => (fD (br x) || fN (br x)) && negb (fQ (br x))) brs = true).
    { apply orb_true_iff in WD as [WD|WD].
      - apply existsb_exists. exists b. split; [exact I|]. rewrite (NQ b I). destruct (MB b I x) as [MD _]. now rewrite (MD WD).
      - apply existsb_exists in WD as (b' & I' & WD). apply existsb_exists. exists b'. split; [exact I'|]. now rewrite WD, (NQ b' I'). }
    cbn [combine fL] in FL. rewrite EX in FL. cbn [andb] in FL. destruct (fN (u x)) eqn:FN.
    - destruct (W x) as (_ & W2 & _ & W4). apply K; [exact X| |].
      + apply DQ; auto.
      + destruct (R2 x X P) as [F|[F|F]]; [|rewrite (W4 FN) in F; discriminate|exact F]. rewrite (DQ x NU (W2 FN)) in F. discriminate.
    - cbn [negb] in FL. rewrite andb_true_l in FL. apply negb_false_iff in FL.
      assert (EB : exact_d (b x) = true).
      { destruct brs as [|b0 brs]; [discriminate|]. unfold d_in_all in FL. rewrite forallb_forall in FL. now apply FL. }
      unfold exact_d in EB. apply andb_true_iff in EB as [EB E3]. apply andb_true_iff in EB as [E1 _].
      destruct (S2 x X P) as [F|[F|F]]; [|rewrite F in E3; discriminate|exact F]. rewrite (DB x (NQ b I) E1) in F. discriminate.
  Qed.

  (** Executions. *)
  Definition sim (code : list vst) (ds : list var) (u : usage) (ds' : list var) (u' : usage) : Prop := forall T D i, rel ds u T D ->
    snd (vexecs Q code (T, i)) = snd (vexecs Q (puts def M code) (D, i)) /\
    keepd ds T D (fst (vexecs Q code (T, i))) (fst (vexecs Q (puts def M code) (D, i))) /\
    rel ds' u' (fst (vexecs Q code (T, i))) (fst (vexecs Q (puts def M code) (D, i))).
  Definition nraw (ds : list var) : Prop := forall x, memb x ds = true -> raw x = false.

  Lemma sim_nil ds u : sim [] ds u ds u.
  Proof. intros T D i R. cbn [puts vexecs fst snd]. split; [reflexivity|]. split; [apply keepd_refl|exact R]. Qed.
  Lemma keepd_trans ds ds1 A B C D E F : (forall x, memb x ds = true -> memb x ds1 = true) -> keepd ds A B C D -> keepd ds1 C D E F -> keepd ds A B E F.
  Proof. intros S K1 K2 x X W H. apply K2; auto. Qed.
  Lemma sim_app c1 c2 ds u ds1 u1 ds2 u2 : (forall x, memb x ds = true -> memb x ds1 = true) -> sim c1 ds u ds1 u1 -> sim c2 ds1 u1 ds2 u2 -> sim (c1 ++ c2) ds u ds2 u2.
  Proof.
    intros S S1 S2 T D i R. rewrite puts_app, !vexecs_app. destruct (S1 T D i R) as (E1 & K1 & R1).
    destruct (vexecs Q c1 (T, i)) as [T1 i1]. destruct (vexecs Q (puts def M c1) (D, i)) as [D1 j1]. cbn [fst snd] in *. subst j1.
    destruct (S2 T1 D1 i1 R1) as (E2 & K2 & R2). split; [exact E2|]. split; [|exact R2]. eapply keepd_trans; eassumption.
  Qed.

  (** Registers of the compiler: not macros. *)
  Hypothesis defq : forall x, q x = true -> def x = false.
  Lemma raw_eval e T D : forallb q (vvars e) = true -> (forall x, def x = false -> T x = D x) -> sub def M e = e /\ veval Q T e = veval Q D e.
  Proof.
    intros H R. induction e as [k|x|x|f a IH|f a IHa b IHb]; cbn [vvars forallb sub veval] in *.
    - auto.
    - auto.
    - apply andb_true_iff in H as [H _]. rewrite (defq x H). split; [reflexivity|]. now apply R, defq.
    - destruct (IH H) as [-> ->]. auto.
    - rewrite forallb_app in H. apply andb_true_iff in H as [H1 H2]. destruct (IHa H1) as [-> ->]. destruct (IHb H2) as [-> ->]. auto.
  Qed.
  Lemma raw_sim l ds u d : (forall x, DepModel.written d x = memb x ds) -> cov d -> nraw ds -> forallb (fun a => raw (fst a)) l = true ->
    forallb (fun a => q (fst a) && forallb q (vvars (snd a))) l = true ->
    sim (map (fun a => VSet (fst a) (snd a)) l) ds u ds u.
  Proof.
    intros B CV NR. induction l as [|[x e] l IH]; intros HR H; cbn [map forallb fst snd] in *; [apply sim_nil|].
    apply andb_true_iff in HR as [Rx HR]. apply andb_true_iff in H as [H1 H2]. apply andb_true_iff in H1 as [Hx He].
    change (sim ([VSet x e] ++ map (fun a => VSet (fst a) (snd a)) l) ds u ds u). eapply sim_app; [intros z Hz; exact Hz| |now apply IH].
    intros T D i R. cbn [puts put app vexecs vexec fst snd]. rewrite (defq x Hx). cbn [app vexecs vexec fst snd].
    destruct (raw_eval e T D He (proj1 R)) as [-> ->]. split; [reflexivity|].
    destruct (write_rel ds u u x T D (veval Q D e) (defq x Hx)) as [W1 W2]; [|reflexivity|exact R|].
    - intros z Z Wz I. rewrite <- B in Wz. destruct (CV z Z Wz x I) as [C1 _]. rewrite B in C1. apply NR in C1. congruence.
    - split; [exact W2|]. destruct W1 as [V1 V2]. split; [exact V1|]. intros z Z P. specialize (V2 z Z P). rewrite memb_cons in V2.
      destruct (Nat.eqb z x) eqn:EZ; [|exact V2]. apply Nat.eqb_eq in EZ. rewrite EZ, (defq x Hx) in Z. discriminate.
  Qed.
  Lemma inert_sim l s d : (forall x, DepModel.written d x = memb x (fst s)) -> cov d -> nraw (fst s) -> forallb inert l = true -> oks q p l = true ->
    shapes n raw l = true -> sim (fst (anals tmp0 l s)) (fst s) (snd s) (fst s) (snd s).
  Proof.
    intros B CV NR. induction l as [|c l IH]; intros H R SH; [apply sim_nil|].
    unfold oks, shapes in *. cbn [forallb] in H, R, SH. apply andb_true_iff in H as [Hc Hl]. apply andb_true_iff in R as [Rc Rl]. apply andb_true_iff in SH as [Sc Sl].
    specialize (IH Hl Rl Sl). rewrite anals_cons. destruct s as [ds u]. cbn [fst snd] in *.
    destruct c; try discriminate; cbn [anal fst snd].
    - eapply sim_app; [intros z Hz; exact Hz| |exact IH]. intros T D i RR. cbn [puts put app vexecs vexec fst snd]. split; [reflexivity|]. split; [apply keepd_refl|exact RR].
    - eapply sim_app; [intros z Hz; exact Hz| |exact IH]. cbn [okc shape] in *. eapply raw_sim; eassumption.
  Qed.

  Definition sim_ch (c : ch) : Prop := okc q p c = true -> forall ds u t t', shape n raw c = true -> wf ds u -> dq ds u -> Inv n ds t -> cov (t_dep t) -> nraw ds ->
    dan n c t = Some t' -> fine t' -> noq (snd (snd (anal tmp0 c (ds, u)))) -> texts def M (lvsets (fst (anal tmp0 c (ds, u)))) ->
    cov (t_dep t') /\ nraw (fst (snd (anal tmp0 c (ds, u)))) /\
    sim (fst (anal tmp0 c (ds, u))) ds u (fst (snd (anal tmp0 c (ds, u)))) (snd (snd (anal tmp0 c (ds, u)))).
  Definition sim_list (l : list ch) : Prop := oks q p l = true -> forall ds u t t', shapes n raw l = true -> wf ds u -> dq ds u -> Inv n ds t -> cov (t_dep t) -> nraw ds ->
    dans n l t = Some t' -> fine t' -> noq (snd (snd (anals tmp0 l (ds, u)))) -> texts def M (lvsets (fst (anals tmp0 l (ds, u)))) ->
    cov (t_dep t') /\ nraw (fst (snd (anals tmp0 l (ds, u)))) /\
    sim (fst (anals tmp0 l (ds, u))) ds u (fst (snd (anals tmp0 l (ds, u)))) (snd (snd (anals tmp0 l (ds, u)))).

  Lemma fine_back l t t' : dans n l t = Some t' -> fine t' -> fine t.
  Proof. intros H F x X B. apply (F x X). eapply dans_bad; eassumption. Qed.
  Lemma nraw_cons x ds : raw x = false -> nraw ds -> nraw (x :: ds).
  Proof. intros H N y. rewrite memb_cons. destruct (Nat.eqb_spec y x) as [->|_]; [auto|]. apply N. Qed.
  Lemma nraw_app a b : nraw a -> nraw b -> nraw (a ++ b).
  Proof. intros A B x. rewrite memb_app. intros H. apply orb_true_iff in H as [H|H]; auto. Qed.

  Lemma sim_lists l : Forall sim_ch l -> sim_list l.
  Proof.
    induction 1 as [|c r Hc Hr IH]; intros OK ds u t t' S W DQ I CV NR H F N TX.
    - cbn in H. injection H as <-. cbn [anals fst snd]. split; [exact CV|]. split; [exact NR|apply sim_nil].
    - unfold oks, shapes in OK, S. cbn [forallb] in OK, S. apply andb_true_iff in OK as [Oc Or]. apply andb_true_iff in S as [Sc Sr].
      rewrite dans_cons in H. destruct (dan n c t) as [t1|] eqn:E; [|discriminate]. cbn [obind] in H.
      rewrite anals_cons in *. cbn [fst snd] in *. rewrite lvsets_app in TX. apply texts_app in TX as [T1 T2].
      destruct (good_all tmp0 c (ds, u) W) as [W1 [G1 S1]]. pose proof (dq_all c (ds, u) DQ) as D1. pose proof (inv_all n raw c ds u t t1 Sc I E) as I1.
      destruct (snd (anal tmp0 c (ds, u))) as [ds1 u1] eqn:EA. cbn [fst snd] in *.
      destruct (good_lists tmp0 r (ds1, u1) W1) as [W2 [G2 _]]. cbn [fst snd] in *.
      destruct (Hc Oc ds u t t1 Sc W DQ I CV NR E) as (C1 & N1 & SM1).
      { eapply fine_back; eassumption. }
      { rewrite EA. cbn [snd]. eapply noq_mono; eassumption. }
      { exact T1. }
      rewrite EA in N1, SM1. cbn [fst snd] in N1, SM1.
      destruct (IH Or ds1 u1 t1 t' Sr W1 D1 I1 C1 N1 H F N T2) as (C2 & N2 & SM2).
      split; [exact C2|]. split; [exact N2|]. eapply sim_app; [exact S1|exact SM1|exact SM2].
  Qed.

  Lemma fine_join s bs us b : In b bs -> In b us -> fine (djoin s bs us) -> fine b.
  Proof. intros I J F x X B. apply (F x X). eapply join_bad; eassumption. Qed.

  Lemma set_sim ds u x e t t' : Nat.ltb x n = true -> rng n (evars e) = true -> forallb p (evars e) = true -> Inv n ds t -> cov (t_dep t) ->
    dwrite n x (evars e) t = Some t' -> fine t' -> noq (kread tmp0 ds e (kwrite x u)) -> (def x = true -> M x = sub def M (krw tmp0 ds e)) ->
    cov (t_dep t') /\ sim [VSet x (krw tmp0 ds e)] ds u (x :: ds) (kread tmp0 ds e (kwrite x u)).
  Proof.
    intros LX R P I CV H F N TX.
    assert (FL : forall z, fL (kread tmp0 ds e (kwrite x u) z) = fL (u z)) by (intros z; now rewrite kread_fl, kwrite_fl).
    assert (RD : forall T D, rel ds u T D -> veval Q T (krw tmp0 ds e) = veval Q D (sub def M (krw tmp0 ds e))).
    { intros T D RR. apply (read_sim ds e u T D P RR). eapply noq_mono; [apply kread_write|exact N]. }
    destruct (def x) eqn:X.
    - specialize (TX eq_refl). destruct (define_cov ds x e t t' I LX R H F CV X TX) as [C1 FR]. split; [exact C1|].
      intros T D i RR. cbn [puts put app vexecs vexec fst snd]. rewrite X. cbn [app vexecs vexec fst snd]. split; [reflexivity|].
      assert (K : keepd ds T D (upd T x (veval Q T (krw tmp0 ds e))) D).
      { intros z Z W HZ. unfold upd. destruct (Nat.eqb_spec z x) as [->|_]; [congruence|exact HZ]. }
      split; [exact K|]. destruct RR as [R1 R2]. split.
      + intros z Z. unfold upd. destruct (Nat.eqb_spec z x) as [->|_]; [congruence|now apply R1].
      + intros z Z Pz. rewrite memb_cons, FL. unfold upd. destruct (Nat.eqb_spec z x) as [->|_]; cbn [orb].
        * right. right. rewrite TX. apply RD. now split.
        * now apply R2.
    - destruct (write_free ds x (evars e) t t' I R H F CV X) as [C1 FR]. split; [exact C1|].
      intros T D i RR. cbn [puts put app vexecs vexec fst snd]. rewrite X. cbn [app vexecs vexec fst snd]. split; [reflexivity|]. rewrite (RD T D RR).
      destruct (write_rel ds u (kread tmp0 ds e (kwrite x u)) x T D (veval Q D (sub def M (krw tmp0 ds e))) X FR FL RR) as [A1 A2]. split; assumption.
  Qed.

  Lemma sim_all c : sim_ch c.
  Proof.
    induction c as [x e|x g h i e|x h e|e|k|l|e a b Ha Hb|e cs Hcs|e a b Ha Hb|e cs Hcs|e a k Ha] using ch_ind2; intros OK ds u t t' S W DQ I CV NR H F N TX.
    - (* KSet *) cbn [okc shape dan anal fst snd] in *. apply andb_true_iff in S as [S Rx]. apply andb_true_iff in S as [LX S]. apply negb_true_iff in Rx.
      destruct (set_sim ds u x e t t' LX S OK I CV H F N) as [C1 SM].
      { intros X. apply (TX x); [|exact X]. rewrite lvsets_one. now left. }
      split; [exact C1|]. split; [now apply nraw_cons|exact SM].
    - (* KPart *) cbn [okc shape dan anal fst snd] in *. apply andb_true_iff in S as [S Rx]. apply andb_true_iff in S as [LX S]. apply negb_true_iff in Rx.
      apply andb_true_iff in OK as [Pi Pe].
      set (u0 := kread tmp0 ds i u) in *. set (u1 := kwrite x u0) in *. set (u2 := uset u1 x (upd_q (u1 x))) in *.
      assert (N2 : noq u2) by (eapply noq_mono; [apply kread_mono|exact N]).
      assert (X : def x = false).
      { destruct (def x) eqn:X; [|reflexivity]. specialize (N2 x X). unfold u2 in N2. rewrite uset_same in N2. discriminate. }
      assert (N1 : noq u1) by (eapply noq_mono; [apply updq_mono|exact N2]).
      assert (N0 : noq u0) by (eapply noq_mono; [apply kwrite_mono|exact N1]).
      assert (FL2 : forall z, fL (u2 z) = fL (u z)).
      { intros z. unfold u2, u1, u0, uset. destruct (Nat.eqb_spec z x) as [->|_]; cbn [upd_q fL]; now rewrite kwrite_fl, kread_fl. }
      assert (R : rng n (evars i ++ evars e) = true) by (unfold rng; rewrite forallb_app; exact S).
      destruct (write_free ds x _ (unstable x t) t' (inv_unstable _ _ _ _ I) R H F CV X) as [C1 FR].
      split; [exact C1|]. split; [now apply nraw_cons|].
      intros T D j RR. cbn [puts put app vexecs vexec fst snd]. rewrite X. cbn [sub app vexecs vexec fst snd veval]. rewrite X. cbn [veval]. split; [reflexivity|].
      rewrite (read_sim ds i u T D Pi RR N0). rewrite (read_sim ds e u2 T D Pe); [|eapply rel_fl; [|exact RR]; intros z; now rewrite FL2|exact N].
      rewrite (proj1 RR x X).
      match goal with |- keepd _ _ _ (upd T x ?v) _ /\ _ => destruct (write_rel ds u (kread tmp0 ds e u2) x T D v X FR) as [A1 A2] end.
      { intros z. rewrite kread_fl. apply FL2. }
      { exact RR. }
      split; assumption.
    - (* KField *) cbn [okc shape dan anal fst snd] in *. apply andb_true_iff in S as [S Rx]. apply andb_true_iff in S as [LX S]. apply negb_true_iff in Rx.
      apply andb_true_iff in OK as [Qx OK]. pose proof (defq x Qx) as X.
      destruct (write_free ds x (evars e) t t' I S H F CV X) as [C1 FR]. split; [exact C1|]. split; [now apply nraw_cons|].
      intros T D j RR. cbn [puts put app vexecs vexec fst snd]. rewrite X. cbn [sub app vexecs vexec fst snd veval]. rewrite X. cbn [veval]. split; [reflexivity|].
      rewrite (read_sim ds e u T D OK RR); [|eapply noq_mono; [apply kread_write|exact N]]. rewrite (proj1 RR x X).
      match goal with |- keepd _ _ _ (upd T x ?v) _ /\ _ => destruct (write_rel ds u (kread tmp0 ds e (kwrite x u)) x T D v X FR) as [A1 A2] end.
      { intros z. now rewrite kread_fl, kwrite_fl. }
      { exact RR. }
      split; assumption.
    - (* KRead *) cbn [okc shape dan anal fst snd] in *. unfold dread in H.
      destruct (DepModel.update n (t_dep t) _) as [d|] eqn:U; [|discriminate]. cbn [obind] in H. injection H as <-.
      destruct (update_ok _ _ _ _ U (proj1 I) S) as (A' & B' & L & _). cbn [DepModel.i_written] in B', L. cbn [t_dep].
      split; [|split; [exact NR|]].
      + intros z Z Wz y Iy. rewrite B' in Wz. cbn [DepModel.mem existsb] in Wz. rewrite orb_false_r in Wz. destruct (CV z Z Wz y Iy) as [C1 C2]. split; [now rewrite B', C1|now apply (L z y)].
      + intros T D j RR. cbn [puts vexecs fst snd]. split; [reflexivity|]. split; [apply keepd_refl|now apply read_rel].
    - (* KIdx *) cbn [dan anal fst snd] in *. injection H as <-. split; [exact CV|]. split; [exact NR|].
      intros T D j RR. cbn [puts put app vexecs vexec fst snd]. split; [reflexivity|]. split; [apply keepd_refl|exact RR].
    - (* KRaw *) cbn [okc shape dan anal fst snd] in *. injection H as <-. split; [exact CV|]. split; [exact NR|].
      eapply raw_sim; try eassumption. apply I.
    - (* KRawIf *) rewrite anal_rawif in *. cbn [dan] in H. injection H as <-. cbn [fst snd] in *. rewrite ok_rawif in OK. apply andb_true_iff in OK as [OK O2].
      apply andb_true_iff in OK as [Pe O1]. apply andb_true_iff in O1 as [Ta Tb]. apply andb_true_iff in O2 as [Pa Pb]. rewrite shape_rawif in S. apply andb_true_iff in S as [Sa Sb].
      split; [exact CV|]. split; [exact NR|]. intros T D j RR.
      cbn [puts]. rewrite put_if. cbn [app vexecs]. rewrite !vexec_if. cbn [fst]. destruct (raw_eval e T D Pe (proj1 RR)) as [-> ->].
      destruct (truth (veval Q D e)); [eapply (inert_sim a (ds, u) (t_dep t)); eauto; apply I|eapply (inert_sim b (ds, u) (t_dep t)); eauto; apply I].
    - (* KRawCase *) rewrite anal_rawcase in *. cbn [dan] in H. injection H as <-. cbn [fst snd] in *. rewrite ok_rawcase in OK. apply andb_true_iff in OK as [OK Pc].
      apply andb_true_iff in OK as [Pe Tc]. rewrite shape_rawcase in S. rewrite forallb_forall in S, Pc, Tc.
      split; [exact CV|]. split; [exact NR|]. intros T D j RR.
      cbn [puts]. rewrite put_case. cbn [app vexecs]. rewrite !vexec_case. cbn [fst]. destruct (raw_eval e T D Pe (proj1 RR)) as [-> ->]. rewrite pick_put.
      destruct (pick (veval Q D e) (raw_cases tmp0 cs (ds, u))) as [code|] eqn:EP.
      + apply pick_raw in EP as (c & Ic & ->). eapply (inert_sim (snd c) (ds, u) (t_dep t)); eauto; try apply I.
      + cbn [fst snd]. split; [reflexivity|]. split; [apply keepd_refl|exact RR].
    - (* KIf *) rewrite anal_if in *. cbv zeta in *. cbn [fst snd] in *. rewrite dan_if in H. rewrite shape_if in S. apply andb_true_iff in S as [_ S]. apply andb_true_iff in S as [Sa Sb].
      rewrite ok_if in OK. apply andb_true_iff in OK as [Pe OK]. apply andb_true_iff in OK as [Oa Ob].
      destruct (dans n a t) as [sa|] eqn:Ea; [|discriminate]. cbn [obind] in H. destruct (dans n b t) as [sb|] eqn:Eb; [|discriminate].
      cbn [obind] in H. injection H as <-. rewrite lvsets_one, vsets_if in TX. apply texts_app in TX as [Ta Tb].
      set (u1 := kread tmp0 ds e u) in *.
      assert (W1 : wf ds u1) by now apply kread_wf. assert (D1 : dq ds u1) by (apply kread_dq; auto).
      destruct (good_lists tmp0 a (ds, u1) W1) as [WA [GA SA]]. destruct (good_lists tmp0 b (ds, u1) W1) as [WB [GB SB]]. cbn [fst snd] in *.
      pose proof (dq_lists a (ds, u1) D1) as DA. pose proof (dq_lists b (ds, u1) D1) as DB.
      destruct (good_all tmp0 (KIf e a b) (ds, u) W) as [WC _]. rewrite anal_if in WC. cbv zeta in WC. cbn [fst snd] in WC. fold u1 in WC.
      destruct (sim_lists a Ha Oa ds u1 t sa Sa W1 D1 I CV NR Ea) as (CA & NA & SMA).
      { eapply fine_join; [| |exact F]; now left. }
      { eapply noq_mono; [|exact N]. apply combine_mono_br. now left. }
      { exact Ta. }
      destruct (sim_lists b Hb Ob ds u1 t sb Sb W1 D1 I CV NR Eb) as (CB & NB & SMB).
      { eapply fine_join; [| |exact F]; right; now left. }
      { eapply noq_mono; [|exact N]. apply combine_mono_br. right. now left. }
      { exact Tb. }
      split; [|split].
      + apply cov_join; [exact CV|]. intros v [<-|[<-|[]]]; assumption.
      + apply nraw_app; [exact NR|]. apply nraw_app; assumption.
      + intros T D j RR. cbn [puts]. rewrite put_if. cbn [app vexecs]. rewrite !vexec_if. cbn [fst].
        rewrite (read_sim ds e u T D Pe RR) by (eapply noq_mono; [apply combine_mono|exact N]).
        assert (R1 : rel ds u1 T D) by now apply read_rel.
        assert (MB : forall b', In b' [snd (snd (anals tmp0 a (ds, u1))); snd (snd (anals tmp0 b (ds, u1)))] -> mono u1 b') by (intros v [<-|[<-|[]]]; assumption).
        destruct (truth (veval Q D (sub def M (krw tmp0 ds e)))).
        * destruct (SMA T D j R1) as (E & K & R2). split; [exact E|]. split; [exact K|].
          eapply combine_rel; [exact W1|exact D1|exact MB| |exact DA|exact WC|exact N|exact R1|exact K|exact R2]. now left.
        * destruct (SMB T D j R1) as (E & K & R2). split; [exact E|]. split; [exact K|].
          eapply combine_rel; [exact W1|exact D1|exact MB| |exact DB|exact WC|exact N|exact R1|exact K|exact R2]. right. now left.
    - (* KCase *)
      destruct (good_all tmp0 (KCase e cs) (ds, u) W) as [WC _].
      rewrite anal_case in *. cbv zeta in *. cbn [fst snd] in *. rewrite dan_case in H. rewrite shape_case in S. apply andb_true_iff in S as [_ S].
      rewrite ok_case in OK. apply andb_true_iff in OK as [Pe OK]. rewrite forallb_forall in OK, S. rewrite Forall_forall in Hcs.
      destruct (dan_cases n cs t) as [ss|] eqn:Ec; [|discriminate]. cbn [obind] in H. injection H as <-. apply cases_in in Ec.
      set (u1 := kread tmp0 ds e u) in *.
      assert (W1 : wf ds u1) by now apply kread_wf. assert (D1 : dq ds u1) by (apply kread_dq; auto).
      assert (INU : forall c, In c cs -> In (snd (snd (anals tmp0 (snd c) (ds, u1)))) (if has_default cs then snd (anal_cases tmp0 cs (ds, u1)) else snd (anal_cases tmp0 cs (ds, u1)) ++ [u1])).
      { intros c Ic. pose proof (cases_usage tmp0 cs (ds, u1) c Ic) as J. destruct (has_default cs); [exact J|]. apply in_or_app. now left. }
      assert (TXC : forall c, In c cs -> texts def M (lvsets (fst (anals tmp0 (snd c) (ds, u1))))).
      { intros c Ic x v J. apply (TX x v). rewrite lvsets_one, vsets_case. apply in_concat. eexists. split; [|exact J]. apply in_map_iff.
        exists (fst c, fst (anals tmp0 (snd c) (ds, u1))). split; [reflexivity|]. clear - Ic. induction cs as [|[v l] r IH]; [destruct Ic|]. rewrite cases_cons. cbn [fst].
        destruct Ic as [<-|Ic]; [now left|right; now apply IH]. }
      assert (SC : forall c b, In c cs -> dans n (snd c) t = Some b -> In b ss -> cov (t_dep b) /\ nraw (fst (snd (anals tmp0 (snd c) (ds, u1)))) /\
         sim (fst (anals tmp0 (snd c) (ds, u1))) ds u1 (fst (snd (anals tmp0 (snd c) (ds, u1)))) (snd (snd (anals tmp0 (snd c) (ds, u1))))).
      { intros c b Ic E Ib. apply (sim_lists (snd c) (Hcs c Ic) (OK c Ic) ds u1 t b (S c Ic) W1 D1 I CV NR E).
        - eapply fine_join; [exact Ib| |exact F]. destruct (has_default cs); [exact Ib|]. apply in_or_app. now left.
        - eapply noq_mono; [|exact N]. apply combine_mono_br. now apply INU.
        - now apply TXC. }
      split; [|split].
      + apply cov_join; [exact CV|]. intros b Ib. destruct (F2_right _ _ _ Ec b Ib) as (c & Ic & E). now apply (SC c b Ic E Ib).
      + intros x. rewrite memb_app. intros Hx. apply orb_true_iff in Hx as [Hx|Hx]; [now apply NR|]. apply cases_deps in Hx as (c & Ic & Hx).
        destruct (F2_left _ _ _ Ec c Ic) as (b & Ib & E). destruct (SC c b Ic E Ib) as (_ & NC & _). now apply NC.
      + intros T D j RR. cbn [puts]. rewrite put_case. cbn [app vexecs]. rewrite !vexec_case. cbn [fst].
        rewrite (read_sim ds e u T D Pe RR) by (eapply noq_mono; [apply combine_mono|exact N]). rewrite pick_put.
        assert (R1 : rel ds u1 T D) by now apply read_rel.
        assert (MB : forall b', In b' (if has_default cs then snd (anal_cases tmp0 cs (ds, u1)) else snd (anal_cases tmp0 cs (ds, u1)) ++ [u1]) -> mono u1 b').
        { intros v Iv.
          assert (In v (snd (anal_cases tmp0 cs (ds, u1))) \/ v = u1) as [I'| ->].
          { destruct (has_default cs); [now left|]. apply in_app_or in Iv as [Iv|[<-|[]]]; auto. }
          - destruct (good_cases tmp0 cs (ds, u1) W1) with (b := v) as (c & _ & _ & _ & [GC _]); [apply Forall_forall; intros; apply good_lists|exact I'|]. exact GC.
          - apply mono_refl. }
        pose proof (pick_cases (veval Q D (sub def M (krw tmp0 ds e))) cs (ds, u1)) as PK.
        destruct (pick (veval Q D (sub def M (krw tmp0 ds e))) (fst (fst (anal_cases tmp0 cs (ds, u1))))) as [code|].
        * destruct PK as (c & Ic & ->). destruct (F2_left _ _ _ Ec c Ic) as (b & Ib & E). destruct (SC c b Ic E Ib) as (_ & _ & SM).
          destruct (SM T D j R1) as (EI & K & R2). split; [exact EI|]. split; [exact K|].
          eapply combine_rel; [exact W1|exact D1|exact MB|exact (INU c Ic)|apply (dq_lists (snd c) (ds, u1) D1)|exact WC|exact N|exact R1|exact K|exact R2].
        * cbn [fst snd]. split; [reflexivity|]. split; [apply keepd_refl|].
          eapply combine_rel; [exact W1|exact D1|exact MB| |exact D1|exact WC|exact N|exact R1|apply keepd_refl|exact R1].
          rewrite PK. apply in_or_app. right. now left.
    - discriminate OK.
  Qed.
  Lemma sim_chain l : sim_list l.
  Proof. apply sim_lists, Forall_forall. intros c _. apply sim_all. Qed.

  (** A state which may end with a loop. *)
  Definition sim_t (code : list vst) (ds : list var) (u : usage) : Prop := forall T D i, rel ds u T D ->
    snd (vexecs Q code (T, i)) = snd (vexecs Q (puts def M code) (D, i)) /\
    keepd ds T D (fst (vexecs Q code (T, i))) (fst (vexecs Q (puts def M code) (D, i))) /\
    forall x, def x = false -> fst (vexecs Q code (T, i)) x = fst (vexecs Q (puts def M code) (D, i)) x.
  Lemma sim_tail l : toks q p l = true -> forall ds u t t', shapes n raw l = true -> wf ds u -> dq ds u -> Inv n ds t -> cov (t_dep t) -> nraw ds ->
    dans n l t = Some t' -> fine t' -> noq (snd (snd (anals tmp0 l (ds, u)))) -> texts def M (lvsets (fst (anals tmp0 l (ds, u)))) ->
    cov (t_dep t') /\ nraw (fst (snd (anals tmp0 l (ds, u)))) /\ sim_t (fst (anals tmp0 l (ds, u))) ds u.
  Proof.
    assert (FULL : forall l, oks q p l = true -> forall ds u t t', shapes n raw l = true -> wf ds u -> dq ds u -> Inv n ds t -> cov (t_dep t) -> nraw ds ->
      dans n l t = Some t' -> fine t' -> noq (snd (snd (anals tmp0 l (ds, u)))) -> texts def M (lvsets (fst (anals tmp0 l (ds, u)))) ->
      cov (t_dep t') /\ nraw (fst (snd (anals tmp0 l (ds, u)))) /\ sim_t (fst (anals tmp0 l (ds, u))) ds u).
    { intros k OK ds u t t' S W DQ I CV NR H F N TX. destruct (sim_chain k OK ds u t t' S W DQ I CV NR H F N TX) as (A & B & C).
      split; [exact A|]. split; [exact B|]. intros T D i RR. destruct (C T D i RR) as (E & K & R2). split; [exact E|]. split; [exact K|apply R2]. }
    induction l as [|c r IH]; intros TK ds u t t' S W DQ I CV NR H F N TX; [exact (FULL [] eq_refl ds u t t' S W DQ I CV NR H F N TX)|].
    destruct r as [|c' r].
    - cbn [toks] in TK. apply orb_true_iff in TK as [TK|TK].
      { refine (FULL [c] _ ds u t t' S W DQ I CV NR H F N TX). unfold oks. cbn [forallb]. now rewrite TK. }
      destruct c as [| | | | | | | | | |e a k]; try discriminate. apply andb_true_iff in TK as [Pe Oa]. clear IH FULL.
      rewrite dans_cons in H. destruct (dan n (KWhile e a k) t) as [t1|] eqn:E; [|discriminate]. cbn [obind dans] in H. injection H as <-.
      rewrite dan_while in E. destruct (dans n a t) as [sa|] eqn:Ea; [|discriminate]. cbn [obind] in E. injection E as <-.
      unfold shapes in S. cbn [forallb] in S. rewrite andb_true_r, shape_while in S. apply andb_true_iff in S as [_ Sa].
      rewrite anals_cons in *. cbn [anals fst snd] in *. rewrite app_nil_r in *. rewrite anal_while in *. cbv zeta in *. cbn [fst snd] in *.
      rewrite lvsets_one, vsets_if in TX. apply texts_app in TX as [Ta _]. set (u1 := kread tmp0 ds e u) in *.
      assert (W1 : wf ds u1) by now apply kread_wf. assert (D1 : dq ds u1) by (apply kread_dq; auto).
      destruct (sim_chain a Oa ds u1 t sa Sa W1 D1 I CV NR Ea) as (CA & NA & SMA).
      { eapply fine_join; [| |exact F]; now left. }
      { eapply noq_mono; [|exact N]. apply combine_mono_br. now left. }
      { exact Ta. }
      split; [|split].
      + apply cov_join; [exact CV|]. intros v [<-|[<-|[]]]; assumption.
      + repeat apply nraw_app; assumption.
      + intros T D j RR. cbn [puts]. rewrite put_if. cbn [app vexecs]. rewrite !vexec_if. cbn [fst].
        rewrite (read_sim ds e u T D Pe RR) by (eapply noq_mono; [apply combine_mono|exact N]).
        assert (R1 : rel ds u1 T D) by now apply read_rel.
        destruct (truth (veval Q D (sub def M (krw tmp0 ds e)))).
        * destruct (SMA T D j R1) as (E & K & R2). split; [exact E|]. split; [exact K|apply R2].
        * cbn [puts put app vexecs vexec fst snd]. split; [reflexivity|]. split; [apply keepd_refl|apply RR].
    - rewrite toks_cons in TK. apply andb_true_iff in TK as [Oc Or].
      unfold shapes in S. cbn [forallb] in S. apply andb_true_iff in S as [Sc Sr].
      rewrite dans_cons in H. destruct (dan n c t) as [t1|] eqn:E; [|discriminate]. cbn [obind] in H.
      rewrite (anals_cons tmp0 c (c' :: r)) in *. cbn [fst snd] in *. rewrite lvsets_app in TX. apply texts_app in TX as [T1 T2].
      destruct (good_all tmp0 c (ds, u) W) as [W1 [G1 S1]]. pose proof (dq_all c (ds, u) DQ) as D1. pose proof (inv_all n raw c ds u t t1 Sc I E) as I1.
      destruct (snd (anal tmp0 c (ds, u))) as [ds1 u1] eqn:EA. cbn [fst snd] in *.
      destruct (good_lists tmp0 (c' :: r) (ds1, u1) W1) as [W2 [G2 _]]. cbn [fst snd] in *.
      destruct (sim_all c Oc ds u t t1 Sc W DQ I CV NR E) as (C1 & N1 & SM1).
      { eapply fine_back; eassumption. }
      { rewrite EA. cbn [snd]. eapply noq_mono; eassumption. }
      { exact T1. }
      rewrite EA in N1, SM1. cbn [fst snd] in N1, SM1.
      destruct (IH Or ds1 u1 t1 t' Sr W1 D1 I1 C1 N1 H F N T2) as (C2 & N2 & SM2).
      split; [exact C2|]. split; [exact N2|].
      intros T D i R. rewrite puts_app, !vexecs_app. destruct (SM1 T D i R) as (E1 & K1 & R1).
      destruct (vexecs Q (fst (anal tmp0 c (ds, u))) (T, i)) as [T' i1]. destruct (vexecs Q (puts def M (fst (anal tmp0 c (ds, u)))) (D, i)) as [D' j1]. cbn [fst snd] in *. subst j1.
      destruct (SM2 T' D' i1 R1) as (E2 & K2 & R2). split; [exact E2|]. split; [|exact R2]. eapply keepd_trans; eassumption.
  Qed.
  End P.
End Sim.
