(** Variables stable in the cycle: what the analysis knows. *)
From Coq Require Import List Bool Arith ZArith Lia.
Import ListNotations.
From Verif Require Import FsmModel FsmRun FsmEmit UseModel UseProofs UseSound UseTwo UseCycle DefineModel.
From Verif Require DepModel DepProofs.

(** * Equations *)
Lemma dan_if n e a b s : dan n (KIf e a b) s = (do sa <- dans n a s; do sb <- dans n b s; Some (djoin s [sa; sb] [sa; sb])).
Proof. reflexivity. Qed.
Lemma dan_while n e a k s : dan n (KWhile e a k) s = (do sa <- dans n a s; Some (djoin s [sa; s] [sa])).
Proof. reflexivity. Qed.
Lemma dan_case n e cs s : dan n (KCase e cs) s = (do ss <- dan_cases n cs s; Some (djoin s ss (if has_default cs then ss else ss ++ [s]))).
Proof.
  assert (E : forall cs, (fix all (cs : list (option Z * list ch)) : option (list sst) :=
                    match cs with [] => Some [] | (_, l) :: r => do s1 <- dans n l s; do ss <- all r; Some (s1 :: ss) end) cs = dan_cases n cs s).
  { induction cs0 as [|[v l] r IH]; [reflexivity|]. cbn [dan_cases]. now rewrite IH. }
  rewrite <- E. reflexivity.
Qed.
Lemma dans_cons n c r s : dans n (c :: r) s = (do s1 <- dan n c s; dans n r s1).
Proof. reflexivity. Qed.

Lemma cases_in n cs s ss : dan_cases n cs s = Some ss -> Forall2 (fun c b => dans n (snd c) s = Some b) cs ss.
Proof.
  revert ss. induction cs as [|[v l] r IH]; intros ss H; cbn [dan_cases] in H.
  - injection H as <-. constructor.
  - destruct (dans n l s) as [s1|] eqn:E; [|discriminate]. cbn [obind] in H. destruct (dan_cases n r s) as [ss'|]; [|discriminate].
    cbn [obind] in H. injection H as <-. constructor; [exact E|now apply IH].
Qed.
Lemma states_in n cs s ss : dan_states n cs s = Some ss -> Forall2 (fun c b => dans n (snd c) s = Some b) cs ss.
Proof.
  revert ss. induction cs as [|[v l] r IH]; intros ss H; cbn [dan_states] in H.
  - injection H as <-. constructor.
  - destruct (dans n l s) as [s1|] eqn:E; [|discriminate]. cbn [obind] in H. destruct (dan_states n r s) as [ss'|]; [|discriminate].
    cbn [obind] in H. injection H as <-. constructor; [exact E|now apply IH].
Qed.
Lemma F2_right {A B} (P : A -> B -> Prop) l l' : Forall2 P l l' -> forall b, In b l' -> exists a, In a l /\ P a b.
Proof. induction 1 as [|a b l l' H _ IH]; intros c I; [destruct I|]. destruct I as [<-|I]; [exists a; split; [now left|exact H]|]. destruct (IH c I) as (a' & Ia & Pa). exists a'. split; [now right|exact Pa]. Qed.
Lemma F2_left {A B} (P : A -> B -> Prop) l l' : Forall2 P l l' -> forall a, In a l -> exists b, In b l' /\ P a b.
Proof. induction 1 as [|a b l l' H _ IH]; intros c I; [destruct I|]. destruct I as [<-|I]; [exists b; split; [now left|exact H]|]. destruct (IH c I) as (a' & Ia & Pa). exists a'. split; [now right|exact Pa]. Qed.

(** * Shape of the chains: variables in range, variables assigned by the compiler not assigned in the source. *)
Section Shape.
  Variable n : nat.
  Variable raw : var -> bool.
  Definition rng (l : list var) : bool := forallb (fun x => Nat.ltb x n) l.
  Fixpoint shape (c : ch) : bool :=
    let all := fix all (l : list ch) : bool := match l with [] => true | c :: r => shape c && all r end in
    let go := fix go (cs : list (option Z * list ch)) : bool := match cs with [] => true | (_, l) :: r => all l && go r end in
    match c with
    | KSet x e | KField x _ e => Nat.ltb x n && rng (evars e) && negb (raw x)
    | KPart x _ _ i e => Nat.ltb x n && (rng (evars i) && rng (evars e)) && negb (raw x)
    | KRead e => rng (evars e)
    | KIdx _ => true
    | KRaw l => forallb (fun a => raw (fst a)) l
    | KRawIf _ a b => all a && all b
    | KRawCase _ cs => go cs
    | KIf e a b => rng (evars e) && (all a && all b)
    | KCase e cs => rng (evars e) && go cs
    | KWhile e a _ => rng (evars e) && all a
    end.
  Definition shapes (l : list ch) : bool := forallb shape l.
  Lemma shape_fix l : (fix all (l : list ch) : bool := match l with [] => true | c :: r => shape c && all r end) l = shapes l.
  Proof. unfold shapes. induction l as [|c r IH]; [reflexivity|]. cbn [forallb]. now rewrite <- IH. Qed.
  Lemma shape_go cs :
    (fix go (cs : list (option Z * list ch)) : bool := match cs with [] => true | (_, l) :: r => (fix all (l : list ch) : bool := match l with [] => true | c :: r => shape c && all r end) l && go r end) cs
    = forallb (fun c => shapes (snd c)) cs.
  Proof. induction cs as [|[v l] r IH]; [reflexivity|]. cbn [forallb snd]. now rewrite <- IH, shape_fix. Qed.
  Lemma shape_if e a b : shape (KIf e a b) = rng (evars e) && (shapes a && shapes b).
  Proof. cbn [shape]. now rewrite !shape_fix. Qed.
  Lemma shape_rawif e a b : shape (KRawIf e a b) = shapes a && shapes b.
  Proof. cbn [shape]. now rewrite !shape_fix. Qed.
  Lemma shape_while e a k : shape (KWhile e a k) = rng (evars e) && shapes a.
  Proof. cbn [shape]. now rewrite !shape_fix. Qed.
  Lemma shape_case e cs : shape (KCase e cs) = rng (evars e) && forallb (fun c => shapes (snd c)) cs.
  Proof. cbn [shape]. now rewrite shape_go. Qed.
  Lemma shape_rawcase e cs : shape (KRawCase e cs) = forallb (fun c => shapes (snd c)) cs.
  Proof. cbn [shape]. now rewrite shape_go. Qed.
End Shape.

(** * One instruction *)
Lemma update_ok n d i d' : DepModel.update n d i = Some d' -> DepProofs.inside n d -> rng n (DepModel.i_read i) = true ->
  DepProofs.inside n d' /\ (forall w, DepModel.written d' w = DepModel.written d w || DepModel.mem w (DepModel.i_written i)) /\
  (forall w r, DepModel.mem w (DepModel.i_written i) = false -> DepProofs.fle (DepModel.dep d w r) (DepModel.dep d' w r)) /\
  (forall w r, DepModel.mem w (DepModel.i_written i) = true -> In r (DepModel.i_read i) -> DepModel.written d r = true -> DepModel.fD (DepModel.dep d' w r) = true) /\
  (forall w k r, w < n -> DepModel.written d' w = true -> k < n -> DepModel.present (DepModel.dep d' w k) = true -> DepModel.written d' k = true ->
     DepProofs.fle (DepModel.dep d' k r) (DepModel.dep d' w r)).
Proof.
  unfold DepModel.update. intros H I R.
  set (d0 := {| DepModel.dep := _; DepModel.written := _ |}) in H.
  assert (I0 : DepProofs.inside n d0).
  { intros w r Hr. unfold d0. cbn [DepModel.dep]. destruct (DepModel.mem w (DepModel.i_written i)); [|now apply I].
    destruct (DepModel.mem r (DepModel.i_read i)) eqn:E; [|reflexivity]. apply DepProofs.mem_In in E. unfold rng in R. rewrite forallb_forall in R.
    specialize (R r E). apply Nat.ltb_lt in R. lia. }
  destruct (DepProofs.closure_ok n (DepModel.fuel_for n) d0 I0) as (d1 & C & [L1 L2] & I1 & CL).
  { unfold DepModel.fuel_for. lia. }
  rewrite C in H. destruct (existsb _ _); [discriminate|]. injection H as <-.
  split; [exact I1|]. split; [intros w; now rewrite <- L2|]. split; [|split].
  - intros w r M. eapply DepProofs.fle_trans; [|apply L1]. unfold d0. cbn [DepModel.dep]. rewrite M. apply DepProofs.fle_refl.
  - intros w r M Ir Wr. apply (L1 w r). unfold d0. cbn [DepModel.dep]. rewrite M. apply DepProofs.mem_In in Ir. now rewrite Ir, Wr.
  - intros w k r Lw Ww Lk P Wk. apply CL; auto. apply filter_In. split; [apply in_seq; lia|]. now rewrite L2.
Qed.

(** * What holds at every point *)
Definition Inv (n : nat) (ds : list var) (t : sst) : Prop :=
  DepProofs.inside n (t_dep t) /\ (forall x, DepModel.written (t_dep t) x = memb x ds) /\
  (forall x, memb x ds = true -> t_st t x <> None) /\ (forall x, t_st t x = Some true -> memb x ds = true).

Lemma inv_unstable n ds x t : Inv n ds t -> Inv n ds (unstable x t).
Proof.
  intros (A & B & C & D). split; [exact A|]. split; [exact B|]. unfold unstable, st_set. cbn [t_st]. split; intros y.
  - destruct (Nat.eqb y x); [discriminate|apply C].
  - destruct (Nat.eqb y x); [discriminate|apply D].
Qed.
Lemma memb_cons x y l : memb x (y :: l) = Nat.eqb x y || memb x l.
Proof. reflexivity. Qed.
Lemma mem_one w x : DepModel.mem w [x] = Nat.eqb w x.
Proof. unfold DepModel.mem. cbn [existsb]. apply orb_false_r. Qed.

Lemma st_write_cases before d w st o :
  st_write before d w st o =
  match (if Nat.eqb o w then if before w then Some false else match st w with None => Some true | Some b => Some b end else st o) with
  | Some b => if DepModel.written d o && DepModel.present (DepModel.dep d o w) && negb (DepModel.fQ (DepModel.dep d o w)) then Some false else Some b
  | None => None
  end.
Proof.
  unfold st_write. destruct (Nat.eqb_spec o w) as [->|N].
  - destruct (before w); [unfold st_set; now rewrite Nat.eqb_refl|]. destruct (st w) eqn:E; [now rewrite E|]. unfold st_set. now rewrite Nat.eqb_refl.
  - destruct (before w); [unfold st_set; destruct (Nat.eqb_spec o w); congruence|]. destruct (st w) eqn:E; [reflexivity|].
    unfold st_set. destruct (Nat.eqb_spec o w); congruence.
Qed.

Lemma inv_write n ds x r t t' : Inv n ds t -> rng n r = true -> dwrite n x r t = Some t' -> Inv n (x :: ds) t'.
Proof.
  intros (A & B & C & D) R H. unfold dwrite in H.
  destruct (DepModel.update n (t_dep t) _) as [d|] eqn:U; [|discriminate]. cbn [obind] in H. injection H as <-.
  destruct (update_ok _ _ _ _ U A R) as (A' & B' & _). cbn [DepModel.i_written] in B'.
  assert (W : forall y, DepModel.written d y = memb y (x :: ds)).
  { intros y. rewrite B', B. change (DepModel.mem y [x]) with (Nat.eqb y x || false). rewrite memb_cons, orb_false_r. apply orb_comm. }
  split; [exact A'|]. split; [exact W|]. cbn [t_st t_dep]. split; intros y.
  - rewrite st_write_cases, memb_cons. destruct (Nat.eqb_spec y x) as [->|N]; cbn [orb].
    + intros _. destruct (DepModel.written (t_dep t) x).
      * destruct (DepModel.written d x && _ && _); discriminate.
      * destruct (t_st t x); destruct (DepModel.written d x && _ && _); discriminate.
    + intros M. specialize (C y M). destruct (t_st t y); [|congruence]. destruct (DepModel.written d y && _ && _); discriminate.
  - rewrite st_write_cases, memb_cons. destruct (Nat.eqb_spec y x) as [->|N]; cbn [orb]; [reflexivity|].
    destruct (t_st t y) as [b|] eqn:E; [|discriminate]. destruct (DepModel.written d y && _ && _); [discriminate|]. intros [= ->]. now apply D.
Qed.
Lemma inv_read n ds r t t' : Inv n ds t -> rng n r = true -> dread n r t = Some t' -> Inv n ds t'.
Proof.
  intros (A & B & C & D) R H. unfold dread in H.
  destruct (DepModel.update n (t_dep t) _) as [d|] eqn:U; [|discriminate]. cbn [obind] in H. injection H as <-.
  destruct (update_ok _ _ _ _ U A R) as (A' & B' & _). cbn [DepModel.i_written] in B'.
  split; [exact A'|]. split; [intros y; cbn [t_dep]; rewrite B', B; apply orb_false_r|]. split; assumption.
Qed.

Definition wsome (b : sst) (x : var) : Prop := DepModel.written (t_dep b) x = true.
Lemma merge_written ds d x : DepModel.written (fold_left (fun d b => DepModel.merge (t_dep b) d) ds d) x
  = DepModel.written d x || existsb (fun b => DepModel.written (t_dep b) x) ds.
Proof.
  revert d. induction ds as [|b ds IH]; intros d; cbn [fold_left existsb]; [now rewrite orb_false_r|].
  rewrite IH. cbn [DepModel.merge DepModel.written]. now rewrite orb_assoc.
Qed.
Lemma merge_ind (P : DepModel.deps -> Prop) ds d : (forall a b, P a -> P b -> P (DepModel.merge a b)) -> P d -> (forall b, In b ds -> P (t_dep b)) ->
  P (fold_left (fun d b => DepModel.merge (t_dep b) d) ds d).
Proof.
  intros M. revert d. induction ds as [|b ds IH]; intros d H A; cbn [fold_left]; [exact H|]. apply IH.
  - apply M; [apply A; now left|exact H].
  - intros c I. apply A. now right.
Qed.

Lemma combine_some st brs x br : In br brs -> br x <> None -> combine_st st brs x <> None.
Proof.
  intros I H. unfold combine_st. destruct (st x) as [[|]|]; [discriminate|discriminate|].
  destruct (existsb _ brs) eqn:E; [discriminate|]. exfalso.
  assert (existsb (fun br : var -> option bool => match br x with Some _ => true | None => false end) brs = true); [|congruence].
  apply existsb_exists. exists br. split; [exact I|]. destruct (br x); [reflexivity|congruence].
Qed.
Lemma combine_some0 st brs x : st x <> None -> combine_st st brs x <> None.
Proof. unfold combine_st. destruct (st x) as [[|]|]; [discriminate|discriminate|congruence]. Qed.
Lemma num_ge brs x : forall k, k <= fold_left (fun k (br : var -> option bool) => match br x with Some true => S k | Some false => 2 | None => k end) brs k
  \/ 2 <= fold_left (fun k (br : var -> option bool) => match br x with Some true => S k | Some false => 2 | None => k end) brs k.
Proof.
  induction brs as [|br brs IH]; intros k; cbn [fold_left]; [lia|]. destruct (br x) as [[|]|].
  - specialize (IH (S k)). lia.
  - specialize (IH 2). lia.
  - apply IH.
Qed.
Lemma num_false brs x br : In br brs -> br x = Some false -> num_stable brs x <> 1.
Proof.
  intros I H. unfold num_stable.
  enough (G : forall k, fold_left (fun k (br : var -> option bool) => match br x with Some true => S k | Some false => 2 | None => k end) brs k <> 1) by apply G.
  induction brs as [|b brs IH]; intros k; [destruct I|]. cbn [fold_left]. destruct I as [->|I].
  - rewrite H. destruct (num_ge brs x 2); lia.
  - now apply IH.
Qed.
Lemma num_true brs x : num_stable brs x = 1 -> exists br, In br brs /\ br x = Some true.
Proof.
  intros H. destruct (existsb (fun br : var -> option bool => match br x with Some true => true | _ => false end) brs) eqn:E.
  - apply existsb_exists in E as (br & I & E). exists br. split; [exact I|]. destruct (br x) as [[|]|]; try discriminate. reflexivity.
  - exfalso. unfold num_stable in H.
    assert (G : forall k, k <> 1 -> fold_left (fun k (br : var -> option bool) => match br x with Some true => S k | Some false => 2 | None => k end) brs k <> 1).
    { clear H. induction brs as [|b brs IH]; intros k K; cbn [fold_left]; [exact K|]. cbn [existsb] in E. apply orb_false_iff in E as [E1 E2].
      destruct (b x) as [[|]|]; [discriminate| |]; apply IH; auto. }
    now apply (G 0).
Qed.
(** An entry false before or in a branch is false after. *)
Lemma combine_false0 st brs x : st x = Some false -> combine_st st brs x = Some false.
Proof. unfold combine_st. now intros ->. Qed.
Lemma combine_false st brs x br : In br brs -> br x = Some false -> combine_st st brs x = Some false.
Proof.
  intros I H. unfold combine_st. destruct (st x) as [[|]|] eqn:E; [|reflexivity|].
  - f_equal. apply not_true_iff_false. intros F. rewrite forallb_forall in F. specialize (F br I). now rewrite H in F.
  - replace (existsb _ brs) with true.
    + f_equal. apply Nat.eqb_neq. now apply (num_false brs x br).
    + symmetry. apply existsb_exists. exists br. split; [exact I|]. now rewrite H.
Qed.
Lemma combine_true st brs x : combine_st st brs x = Some true -> st x = Some true \/ exists br, In br brs /\ br x = Some true.
Proof.
  unfold combine_st. destruct (st x) as [[|]|]; [now left|discriminate|]. destruct (existsb _ brs); [|discriminate].
  intros [= H]. right. apply num_true. now apply Nat.eqb_eq.
Qed.

Lemma inv_join n ds s bs us ds' : Inv n ds s -> (forall b, In b bs -> exists d, Inv n d b /\ forall x, memb x d = true -> memb x ds' = true) ->
  (forall x, memb x ds = true -> memb x ds' = true) ->
  (forall x, memb x ds' = true -> memb x ds = true \/ exists b, In b bs /\ DepModel.written (t_dep b) x = true) ->
  (forall b, In b us -> In b bs \/ b = s) -> (forall b, In b bs -> In b us \/ b = s) -> Inv n ds' (djoin s bs us).
Proof.
  intros I IB S1 S2 U V. pose proof I as (A & B & C & D).
  assert (W : forall x, DepModel.written (t_dep (djoin s bs us)) x = memb x ds').
  { intros x. cbn [djoin t_dep]. rewrite merge_written, B. apply eq_true_iff_eq. rewrite orb_true_iff, existsb_exists. split.
    - intros [H|(b & Ib & H)]; [now apply S1|]. destruct (IB b Ib) as (d & (_ & Bd & _) & Sd). apply Sd. now rewrite <- Bd.
    - intros H. destruct (S2 x H) as [G|(b & Ib & G)]; [now left|right; eauto]. }
  split; [|split; [exact W|]].
  - cbn [djoin t_dep]. apply merge_ind; [|exact A|].
    + intros a b Ha Hb w r Hr. cbn [DepModel.merge DepModel.dep]. destruct (DepModel.written b w); auto.
    + intros b Ib. destruct (IB b Ib) as (d & (Ad & _) & _). exact Ad.
  - cbn [djoin t_st]. split; intros x H.
    + destruct (S2 x H) as [G|(b & Ib & G)]; [apply combine_some0, C, G|].
      destruct (IB b Ib) as (d & (_ & Bd & Cd & _) & _). rewrite Bd in G. destruct (V b Ib) as [Iu| ->]; [|apply combine_some0; now apply Cd].
      apply combine_some with (br := t_st b); [apply in_map, Iu|now apply Cd].
    + destruct (combine_true _ _ _ H) as [G|(br & Ibr & G)]; [apply S1, D, G|].
      apply in_map_iff in Ibr as (b & <- & Ib). destruct (U b Ib) as [Ib'| ->]; [|apply S1, D, G].
      destruct (IB b Ib') as (d & (_ & _ & _ & Dd) & Sd). apply Sd, Dd, G.
Qed.

Section Chains.
  Variable n : nat.
  Variable raw : var -> bool.
  Definition inv_ch (c : ch) : Prop := forall ds u t t', shape n raw c = true -> Inv n ds t -> dan n c t = Some t' -> Inv n (fst (snd (anal tmp0 c (ds, u)))) t'.
  Definition inv_list (l : list ch) : Prop := forall ds u t t', shapes n raw l = true -> Inv n ds t -> dans n l t = Some t' -> Inv n (fst (snd (anals tmp0 l (ds, u)))) t'.

  Lemma inv_app l : Forall inv_ch l -> inv_list l.
  Proof.
    induction 1 as [|c r Hc Hr IH]; intros ds u t t' S I H.
    - cbn in H. injection H as <-. exact I.
    - unfold shapes in S. cbn [forallb] in S. apply andb_true_iff in S as [Sc Sr]. rewrite dans_cons in H.
      destruct (dan n c t) as [t1|] eqn:E; [|discriminate]. cbn [obind] in H. rewrite anals_cons. cbn [snd].
      pose proof (Hc ds u t t1 Sc I E) as I1. destruct (snd (anal tmp0 c (ds, u))) as [ds1 u1]. cbn [fst] in I1. apply (IH ds1 u1 t1 t' Sr I1 H).
  Qed.

  Lemma cases_deps_in cs s c x : In c cs -> memb x (fst (snd (anals tmp0 (snd c) s))) = true -> memb x (snd (fst (anal_cases tmp0 cs s))) = true.
  Proof.
    induction cs as [|[v l] r IH]; intros I H; [destruct I|]. rewrite cases_cons. cbn [fst snd]. rewrite memb_app. destruct I as [<-|I].
    - cbn [snd] in H. now rewrite H.
    - rewrite (IH I H). apply orb_true_r.
  Qed.

  Lemma inv_all c : inv_ch c.
  Proof.
    induction c as [x e|x g h i e|x h e|e|k|l|e a b Ha Hb|e cs Hcs|e a b Ha Hb|e cs Hcs|e a k Ha] using ch_ind2; intros ds u t t' S I H.
    - cbn [shape anal fst snd dan] in *. apply andb_true_iff in S as [S _]. apply andb_true_iff in S as [_ S]. eapply inv_write; eassumption.
    - cbn [shape anal fst snd dan] in *. apply andb_true_iff in S as [S _]. apply andb_true_iff in S as [_ S]. eapply inv_write; [apply inv_unstable, I| |exact H].
      unfold rng. rewrite forallb_app. exact S.
    - cbn [shape anal fst snd dan] in *. apply andb_true_iff in S as [S _]. apply andb_true_iff in S as [_ S]. eapply inv_write; eassumption.
    - cbn [shape anal fst snd dan] in *. eapply inv_read; eassumption.
    - cbn [anal fst snd dan] in *. now injection H as <-.
    - cbn [anal fst snd dan] in *. now injection H as <-.
    - rewrite anal_rawif. cbn [dan] in H. now injection H as <-.
    - rewrite anal_rawcase. cbn [dan] in H. now injection H as <-.
    - rewrite anal_if. cbv zeta. cbn [fst snd]. rewrite dan_if in H. rewrite shape_if in S. apply andb_true_iff in S as [_ S]. apply andb_true_iff in S as [Sa Sb].
      destruct (dans n a t) as [sa|] eqn:Ea; [|discriminate]. cbn [obind] in H. destruct (dans n b t) as [sb|] eqn:Eb; [|discriminate].
      cbn [obind] in H. injection H as <-.
      pose proof (inv_app a Ha ds (kread tmp0 ds e u) t sa Sa I Ea) as Ia. pose proof (inv_app b Hb ds (kread tmp0 ds e u) t sb Sb I Eb) as Ib.
      eapply inv_join; [exact I| | | | |].
      + intros v [<-|[<-|[]]]; eexists; (split; [eassumption|]); intros x Hx; rewrite !memb_app, Hx, ?orb_true_r; reflexivity.
      + intros x Hx. now rewrite memb_app, Hx.
      + intros x Hx. rewrite !memb_app in Hx. apply orb_true_iff in Hx as [Hx|Hx]; [now left|right]. apply orb_true_iff in Hx as [Hx|Hx].
        * exists sa. split; [now left|]. destruct Ia as (_ & B & _). now rewrite B.
        * exists sb. split; [right; now left|]. destruct Ib as (_ & B & _). now rewrite B.
      + intros v Hv. now left.
      + intros v Hv. now left.
    - rewrite anal_case. cbv zeta. cbn [fst snd]. rewrite dan_case in H. rewrite shape_case in S. apply andb_true_iff in S as [_ S].
      destruct (dan_cases n cs t) as [ss|] eqn:Ec; [|discriminate]. cbn [obind] in H. injection H as <-. apply cases_in in Ec.
      rewrite forallb_forall in S. rewrite Forall_forall in Hcs.
      assert (IC : forall c b, In c cs -> dans n (snd c) t = Some b -> Inv n (fst (snd (anals tmp0 (snd c) (ds, kread tmp0 ds e u)))) b).
      { intros c b Ic E. apply (inv_app (snd c) (Hcs c Ic) ds (kread tmp0 ds e u) t b (S c Ic) I E). }
      eapply inv_join; [exact I| | | | |].
      + intros b Ib. destruct (F2_right _ _ _ Ec b Ib) as (c & Icc & E). eexists. split; [apply (IC c b Icc E)|].
        intros x Hx. rewrite memb_app. apply orb_true_iff. right. eapply cases_deps_in; eassumption.
      + intros x Hx. now rewrite memb_app, Hx.
      + intros x Hx. rewrite memb_app in Hx. apply orb_true_iff in Hx as [Hx|Hx]; [now left|right].
        apply cases_deps in Hx as (c & Icc & Hx). destruct (F2_left _ _ _ Ec c Icc) as (b & Ib & E). exists b. split; [exact Ib|].
        destruct (IC c b Icc E) as (_ & B & _). now rewrite B.
      + intros b Ib. destruct (has_default cs); [now left|]. apply in_app_or in Ib as [Ib|[<-|[]]]; auto.
      + intros b Ib. left. destruct (has_default cs); [exact Ib|]. apply in_or_app. now left.
    - rewrite anal_while. cbv zeta. cbn [fst snd]. rewrite dan_while in H. rewrite shape_while in S. apply andb_true_iff in S as [_ S].
      destruct (dans n a t) as [sa|] eqn:Ea; [|discriminate]. cbn [obind] in H. injection H as <-.
      pose proof (inv_app a Ha ds (kread tmp0 ds e u) t sa S I Ea) as Ia.
      eapply inv_join; [exact I| | | | |].
      + intros v [<-|[<-|[]]]; [exists (fst (snd (anals tmp0 a (ds, kread tmp0 ds e u))))|exists ds]; (split; [assumption|]); intros x Hx; rewrite !memb_app, Hx, ?orb_true_r; reflexivity.
      + intros x Hx. now rewrite memb_app, Hx.
      + intros x Hx. rewrite !memb_app in Hx. apply orb_true_iff in Hx as [Hx|Hx]; [now left|]. apply orb_true_iff in Hx as [Hx|Hx]; [|now left]. right.
        exists sa. split; [now left|]. destruct Ia as (_ & B & _). now rewrite B.
      + intros v [<-|[]]. left. now left.
      + intros v [<-|[<-|[]]]; [left; now left|now right].
  Qed.
  Lemma inv_lists l : inv_list l.
  Proof. apply inv_app, Forall_forall. intros c _. apply inv_all. Qed.
End Chains.

(** * Decided: not stable, or left stable by a mixed row *)
Definition bad (t : sst) (x : var) : Prop := t_st t x = Some false \/ t_kept t x = true.

Lemma write_false n x r t t' z : dwrite n x r t = Some t' -> bad t z -> bad t' z.
Proof.
  unfold dwrite. destruct (DepModel.update n (t_dep t) _) as [d|]; [|discriminate]. cbn [obind]. intros [= <-] [H|H].
  - left. cbn [t_st]. rewrite st_write_cases. destruct (Nat.eqb_spec z x) as [->|N].
    + rewrite H. destruct (DepModel.written (t_dep t) x); destruct (_ && _ && _); reflexivity.
    + rewrite H. destruct (_ && _ && _); reflexivity.
  - right. cbn [t_kept]. unfold kept_write. now rewrite H.
Qed.
Lemma unstable_bad x t z : bad t z -> bad (unstable x t) z.
Proof. intros [H|H]; [left|now right]. unfold unstable, st_set. cbn [t_st]. destruct (Nat.eqb z x); [reflexivity|exact H]. Qed.
Lemma join_bad0 s bs us x : bad s x -> bad (djoin s bs us) x.
Proof. intros [H|H]; [left|right]; cbn [djoin t_st t_kept]; [now apply combine_false0|now rewrite H]. Qed.
Lemma join_bad s bs us b x : In b bs -> In b us -> bad b x -> bad (djoin s bs us) x.
Proof.
  intros I J [H|H]; [left|right]; cbn [djoin t_st t_kept].
  - apply combine_false with (br := t_st b); [now apply in_map|exact H].
  - apply orb_true_iff. right. apply existsb_exists. eauto.
Qed.
Lemma dan_bad n c t t' x : dan n c t = Some t' -> bad t x -> bad t' x.
Proof.
  destruct c; intros H B.
  - cbn [dan] in H. eapply write_false; eassumption.
  - cbn [dan] in H. eapply write_false; [exact H|now apply unstable_bad].
  - cbn [dan] in H. eapply write_false; eassumption.
  - cbn [dan] in H. unfold dread in H. destruct (DepModel.update n (t_dep t) _) as [d|]; [|discriminate]. cbn [obind] in H. injection H as <-. exact B.
  - cbn [dan] in H. injection H as <-. exact B.
  - cbn [dan] in H. injection H as <-. exact B.
  - cbn [dan] in H. injection H as <-. exact B.
  - cbn [dan] in H. injection H as <-. exact B.
  - rewrite dan_if in H. destruct (dans n a t); [|discriminate]. cbn [obind] in H. destruct (dans n b t); [|discriminate]. cbn [obind] in H. injection H as <-. now apply join_bad0.
  - rewrite dan_case in H. destruct (dan_cases n cs t); [|discriminate]. cbn [obind] in H. injection H as <-. now apply join_bad0.
  - rewrite dan_while in H. destruct (dans n a t); [|discriminate]. cbn [obind] in H. injection H as <-. now apply join_bad0.
Qed.
Lemma dans_bad n l t t' x : dans n l t = Some t' -> bad t x -> bad t' x.
Proof.
  revert t. induction l as [|c r IH]; intros t H B.
  - cbn in H. now injection H as <-.
  - rewrite dans_cons in H. destruct (dan n c t) as [t1|] eqn:E; [|discriminate]. cbn [obind] in H. eapply IH; [exact H|]. eapply dan_bad; eassumption.
Qed.

(** * A stable variable is assigned once *)
Definition once (k : nat) (a b : option bool) : Prop :=
  (b = None -> a = None /\ k = 0) /\ (b = Some true -> (a = Some true /\ k = 0) \/ (a = None /\ k = 1)).
Lemma once_refl a : once 0 a a.
Proof. split; intros ->; auto. Qed.
Lemma once_trans j k a b c : once j a b -> once k b c -> once (j + k) a c.
Proof.
  intros [A1 A2] [B1 B2]. split; intros H.
  - destruct (B1 H) as [E ->]. destruct (A1 E) as [-> ->]. auto.
  - destruct (B2 H) as [[E ->]|[E ->]].
    + destruct (A2 E) as [[-> ->]|[-> ->]]; auto.
    + destruct (A1 E) as [-> ->]. auto.
Qed.
Definition occ (x : var) (l : list var) : nat := count_occ Nat.eq_dec l x.
Fixpoint sums (l : list nat) : nat := match l with [] => 0 | k :: r => k + sums r end.

Lemma join_once s bs us ks x : Forall2 (fun b k => once k (t_st s x) (t_st b x)) us ks -> once (sums ks) (t_st s x) (t_st (djoin s bs us) x).
Proof.
  intros F. cbn [djoin t_st]. unfold combine_st. split; intros H.
  - destruct (t_st s x) as [[|]|] eqn:E; try discriminate H. destruct (existsb _ (map t_st us)) eqn:X; [discriminate|]. split; [reflexivity|]. clear H.
    induction F as [|b k us ks Hb F IH]; [reflexivity|]. cbn [map existsb] in X. apply orb_false_iff in X as [X1 X2].
    destruct Hb as [Hb _]. cbn [sums]. rewrite (IH X2). destruct (t_st b x); [discriminate|]. destruct (Hb eq_refl) as [_ ->]. reflexivity.
  - destruct (t_st s x) as [[|]|] eqn:E; [| discriminate H|].
    + left. split; [reflexivity|]. injection H as H. induction F as [|b k us ks Hb F IH]; [reflexivity|]. cbn [map forallb] in H. apply andb_true_iff in H as [H1 H2].
      cbn [sums]. rewrite (IH H2). destruct Hb as [Hb1 Hb2]. destruct (t_st b x) as [[|]|]; [|discriminate|].
      * destruct (Hb2 eq_refl) as [[_ ->]|[F1 _]]; [reflexivity|discriminate].
      * destruct (Hb1 eq_refl) as [F1 _]. discriminate.
    + right. split; [reflexivity|]. destruct (existsb _ (map t_st us)); [|discriminate]. injection H as H. apply Nat.eqb_eq in H. unfold num_stable in H.
      enough (G : forall k0, fold_left (fun k (br : var -> option bool) => match br x with Some true => S k | Some false => 2 | None => k end) (map t_st us) k0 = 1 -> k0 + sums ks = 1) by exact (G 0 H).
      clear H. induction F as [|b k us ks Hb F IH]; intros k0 H; cbn [map fold_left sums] in *; [lia|]. destruct Hb as [Hb1 Hb2].
      destruct (t_st b x) as [[|]|].
      * specialize (IH _ H). destruct (Hb2 eq_refl) as [[? _]|[_ ->]]; [discriminate|]. lia.
      * specialize (IH _ H). lia.
      * specialize (IH _ H). destruct (Hb1 eq_refl) as [_ ->]. lia.
Qed.

Section Once.
  Variable n : nat.
  Variable raw : var -> bool.
  Variable x : var.
  Definition once_ch (c : ch) : Prop := forall ds t t', shape n raw c = true -> Inv n ds t -> dan n c t = Some t' -> once (occ x (csets c)) (t_st t x) (t_st t' x).
  Definition once_list (l : list ch) : Prop := forall ds t t', shapes n raw l = true -> Inv n ds t -> dans n l t = Some t' -> once (occ x (lsets l)) (t_st t x) (t_st t' x).
  Lemma once_app l : Forall once_ch l -> once_list l.
  Proof.
    induction 1 as [|c r Hc Hr IH]; intros ds t t' S I H.
    - cbn in H. injection H as <-. apply once_refl.
    - unfold shapes in S. cbn [forallb] in S. apply andb_true_iff in S as [Sc Sr]. rewrite dans_cons in H.
      destruct (dan n c t) as [t1|] eqn:E; [|discriminate]. cbn [obind] in H.
      unfold lsets, occ. cbn [map concat]. rewrite count_occ_app.
      eapply once_trans; [eapply Hc; eassumption|]. eapply IH; [exact Sr| |exact H]. apply (inv_all n raw c ds (fun _ => fl0) t t1 Sc I E).
  Qed.
  Lemma once_write ds y r t t' : Inv n ds t -> dwrite n y r t = Some t' -> once (occ x [y]) (t_st t x) (t_st t' x).
  Proof.
    intros (_ & B & C & D) H. unfold dwrite in H. destruct (DepModel.update n (t_dep t) _) as [d|]; [|discriminate]. cbn [obind] in H. injection H as <-.
    cbn [t_st]. rewrite st_write_cases. unfold occ. cbn [count_occ]. destruct (Nat.eq_dec y x) as [->|N].
    - rewrite Nat.eqb_refl. destruct (DepModel.written (t_dep t) x) eqn:W.
      + destruct (_ && _ && _); split; discriminate.
      + destruct (t_st t x) as [[|]|] eqn:E.
        * rewrite B in W. rewrite (D x E) in W. discriminate.
        * destruct (_ && _ && _); split; discriminate.
        * destruct (_ && _ && _); split; try discriminate. auto.
    - destruct (Nat.eqb_spec x y) as [->|_]; [congruence|]. destruct (t_st t x) as [b|]; [|apply once_refl].
      destruct (_ && _ && _); split; try discriminate. auto.
  Qed.
  Lemma occ_concat (ls : list (list var)) : occ x (concat ls) = sums (map (occ x) ls).
  Proof. induction ls as [|l r IH]; [reflexivity|]. cbn [concat map sums]. rewrite <- IH. unfold occ. apply count_occ_app. Qed.
  Lemma F2_map {A B C} (P : B -> C -> Prop) (Q : A -> B -> Prop) (f : A -> C) l l' : Forall2 Q l l' -> (forall a b, In a l -> Q a b -> P b (f a)) -> Forall2 P l' (map f l).
  Proof. induction 1 as [|a b l l' H F IH]; intros G; cbn [map]; constructor; [apply G; [now left|exact H]|]. apply IH. intros a' b' I. apply G. now right. Qed.
  Lemma F2_snoc {A B} (P : A -> B -> Prop) l l' a b : Forall2 P l l' -> P a b -> Forall2 P (l ++ [a]) (l' ++ [b]).
  Proof. intros F H. apply Forall2_app; [exact F|]. constructor; [exact H|constructor]. Qed.
  Lemma sums_snoc l : sums (l ++ [0]) = sums l.
  Proof. induction l as [|k r IH]; [reflexivity|]. cbn [app sums]. now rewrite IH. Qed.

  Lemma once_all c : once_ch c.
  Proof.
    induction c as [y e|y g h i e|y h e|e|k|l|e a b Ha Hb|e cs Hcs|e a b Ha Hb|e cs Hcs|e a k Ha] using ch_ind2; intros ds t t' S I H.
    - cbn [dan csets] in *. eapply once_write; eassumption.
    - cbn [dan csets] in *. pose proof (once_write ds y _ _ _ (inv_unstable _ _ _ _ I) H) as O. destruct (Nat.eq_dec y x) as [->|N].
      + unfold occ in *. cbn [count_occ] in *. destruct (Nat.eq_dec x x); [|congruence]. unfold unstable, st_set in O. cbn [t_st] in O. rewrite Nat.eqb_refl in O.
        destruct O as [O1 O2]. split; intros F; [destruct (O1 F); discriminate|]. destruct (O2 F) as [[? _]|[? _]]; discriminate.
      + unfold unstable, st_set in O. cbn [t_st] in O. destruct (Nat.eqb_spec x y); [congruence|exact O].
    - cbn [dan csets] in *. eapply once_write; eassumption.
    - cbn [dan csets] in *. unfold dread in H. destruct (DepModel.update n (t_dep t) _) as [d|]; [|discriminate]. cbn [obind] in H. injection H as <-. apply once_refl.
    - cbn [dan csets] in *. injection H as <-. apply once_refl.
    - cbn [dan csets] in *. injection H as <-. apply once_refl.
    - cbn [dan csets] in *. injection H as <-. apply once_refl.
    - cbn [dan csets] in *. injection H as <-. apply once_refl.
    - rewrite dan_if in H. rewrite shape_if in S. apply andb_true_iff in S as [_ S]. apply andb_true_iff in S as [Sa Sb].
      destruct (dans n a t) as [sa|] eqn:Ea; [|discriminate]. cbn [obind] in H. destruct (dans n b t) as [sb|] eqn:Eb; [|discriminate].
      cbn [obind] in H. injection H as <-. cbn [csets]. rewrite !sets_fix.
      replace (occ x (lsets a ++ lsets b)) with (sums [occ x (lsets a); occ x (lsets b)]).
      + apply join_once. constructor; [|constructor; [|constructor]]; eapply once_app; eassumption.
      + cbn [sums]. rewrite Nat.add_0_r. symmetry. apply count_occ_app.
    - rewrite dan_case in H. rewrite shape_case in S. apply andb_true_iff in S as [_ S]. rewrite forallb_forall in S. rewrite Forall_forall in Hcs.
      destruct (dan_cases n cs t) as [ss|] eqn:Ec; [|discriminate]. cbn [obind] in H. injection H as <-. apply cases_in in Ec.
      cbn [csets]. rewrite sets_go, occ_concat, map_map.
      assert (F : Forall2 (fun b k => once k (t_st t x) (t_st b x)) ss (map (fun c => occ x (lsets (snd c))) cs)).
      { eapply F2_map; [exact Ec|]. intros c b Ic E. cbn beta in *. apply (once_app (snd c) (Hcs c Ic) ds t b (S c Ic) I E). }
      destruct (has_default cs); [now apply join_once|].
      rewrite <- (sums_snoc (map _ cs)). apply join_once. apply F2_snoc; [exact F|apply once_refl].
    - rewrite dan_while in H. rewrite shape_while in S. apply andb_true_iff in S as [_ S].
      destruct (dans n a t) as [sa|] eqn:Ea; [|discriminate]. cbn [obind] in H. injection H as <-. cbn [csets]. rewrite !sets_fix.
      replace (occ x (lsets a)) with (sums [occ x (lsets a)]) by (cbn [sums]; lia).
      apply join_once. constructor; [|constructor]. eapply once_app; eassumption.
  Qed.
  Lemma once_lists l : once_list l.
  Proof. apply once_app, Forall_forall. intros c _. apply once_all. Qed.
End Once.
