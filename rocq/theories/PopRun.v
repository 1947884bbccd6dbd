(** Pipelines with the operators ^=, v= and vv=: order of the stages and successive cycles. *)
From Coq Require Import List Bool Arith ZArith Lia Permutation.
Import ListNotations.
From Verif Require Import FsmModel FsmRun RegProps PipeModel PipeProofs PipeProps PopModel PopProofs.
From Verif Require OrderModel OrderProofs.
Import OrderProofs(before).

(** * Stages written before a stage. *)
Fixpoint prefix (l : list nat) (s : nat) : list nat := match l with [] => [] | t :: r => if Nat.eqb t s then [] else t :: prefix r s end.
Fixpoint suffix (l : list nat) (s : nat) : list nat := match l with [] => [] | t :: r => if Nat.eqb t s then r else suffix r s end.
Lemma prefix_split l s : In s l -> l = prefix l s ++ s :: suffix l s.
Proof.
  induction l as [|t r IH]; intros I; [destruct I|]. cbn [prefix suffix]. destruct (Nat.eqb_spec t s) as [->|N]; [reflexivity|].
  destruct I as [->|I]; [contradiction|]. cbn. f_equal. now apply IH.
Qed.
Lemma prefix_not l s : ~ In s (prefix l s).
Proof. induction l as [|t r IH]; cbn [prefix]; [intros []|]. destruct (Nat.eqb_spec t s) as [->|N]; [intros []|]. intros [E|I]; [contradiction|now apply IH]. Qed.
Lemma prefix_app a b s : ~ In s a -> prefix (a ++ s :: b) s = a.
Proof.
  induction a as [|t a IH]; intros N; cbn [prefix app]; [now rewrite Nat.eqb_refl|].
  destruct (Nat.eqb_spec t s) as [->|_]; [exfalso; apply N; now left|]. f_equal. apply IH. intros I. apply N. now right.
Qed.
Lemma nodup_split (a b : list nat) s : NoDup (a ++ s :: b) -> ~ In s a /\ ~ In s b.
Proof. intros H. apply NoDup_remove_2 in H. rewrite in_app_iff in H. tauto. Qed.
Lemma before_prefix l s o : NoDup l -> before l s o <-> In o l /\ In s (prefix l o).
Proof.
  intros ND. split.
  - intros (a & b & -> & I). split; [apply in_or_app; right; now left|]. apply nodup_split in ND. now rewrite prefix_app by tauto.
  - intros [Io I]. exists (prefix l o), (suffix l o). split; [now apply prefix_split|exact I].
Qed.
Lemma prefix_in a r s : In s a -> prefix (a ++ r) s = prefix a s.
Proof.
  induction a as [|t a IH]; intros I; [destruct I|]. cbn [prefix app]. destruct (Nat.eqb_spec t s) as [->|N]; [reflexivity|].
  destruct I as [->|I]; [contradiction|]. f_equal. now apply IH.
Qed.
(** The prefix of an element of a prefix. *)
Lemma prefix_prefix l s o : NoDup l -> In o l -> In s (prefix l o) -> exists b, prefix l o = prefix l s ++ s :: b /\ ~ In s b.
Proof.
  intros ND Io I. assert (ND' : NoDup (prefix l o)).
  { rewrite (prefix_split l o Io) in ND. revert ND. generalize (o :: suffix l o) as r, (prefix l o) as p. clear. intros r p. induction p as [|a p IH]; intros H; [constructor|].
    cbn in H. inversion H; subst. constructor; [|auto]. intros I. apply H2, in_or_app. now left. }
  pose proof (prefix_split _ _ I) as E. rewrite E in ND'. apply nodup_split in ND'. exists (suffix (prefix l o) s). split; [|tauto].
  rewrite E at 1. f_equal. symmetry. rewrite (prefix_split l o Io) at 1. now apply prefix_in.
Qed.

(** * Stages that stay in their order. *)
Lemma no_descent l (U : nat -> Prop) : NoDup l -> (forall t, U t -> exists c, U c /\ before l c t) -> forall t, ~ U t.
Proof.
  intros ND H. assert (G : forall n t, length (prefix l t) <= n -> ~ U t).
  { induction n as [|n IH]; intros t L Ut; destruct (H t Ut) as (c & Uc & Bc); apply before_prefix in Bc; auto; destruct Bc as [It Ic].
    - destruct (prefix l t); [destruct Ic|cbn in L; lia].
    - apply (IH c); [|exact Uc]. destruct (prefix_prefix l c t ND It Ic) as (b & E & _). rewrite E, app_length in L. cbn in L. lia. }
  intros t. apply (G _ t (le_n _)).
Qed.
Definition increasing (l : list nat) : Prop := forall i j a b, i < j -> nth_error l i = Some a -> nth_error l j = Some b -> a < b.
Lemma increasing_cons x l : increasing (x :: l) <-> (forall y, In y l -> x < y) /\ increasing l.
Proof.
  split.
  - intros H. split.
    + intros y I. apply In_nth_error in I. destruct I as [j E]. apply (H 0 (S j)); auto. lia.
    + intros i j a b L A B. apply (H (S i) (S j)); auto. lia.
  - intros [H1 H2] i j a b L A B. destruct i as [|i], j as [|j]; try lia; cbn in A, B.
    + injection A as <-. apply H1. now apply nth_error_In in B.
    + apply (H2 i j); auto. lia.
Qed.
Lemma increasing_remove s l : increasing l -> increasing (remove Nat.eq_dec s l).
Proof.
  induction l as [|x l IH]; intros H; cbn [remove]; [exact H|]. apply increasing_cons in H. destruct H as [H1 H2]. destruct (Nat.eq_dec s x); [auto|].
  apply increasing_cons. split; [|auto]. intros y I. apply in_remove in I. apply H1, I.
Qed.
Lemma increasing_seq n : forall b, increasing (seq b n).
Proof.
  induction n as [|n IH]; intros b; cbn [seq]; [intros i j a c _ E; destruct i; discriminate|]. apply increasing_cons. split; [|apply IH].
  intros y I. apply in_seq in I. lia.
Qed.
Lemma increasing_nodup l : increasing l -> NoDup l.
Proof.
  induction l as [|x l IH]; intros H; [constructor|]. apply increasing_cons in H. destruct H as [H1 H2]. constructor; [|auto]. intros I. apply H1 in I. lia.
Qed.
Lemma find_first {A} (f : A -> bool) l s : find f l = Some s -> exists a b, l = a ++ s :: b /\ f s = true /\ forall t, In t a -> f t = false.
Proof.
  induction l as [|x l IH]; cbn [find]; [discriminate|]. destruct (f x) eqn:E.
  - intros H. injection H as <-. exists [], l. repeat split; [exact E|intros t []].
  - intros H. destruct (IH H) as (a & b & -> & F & N). exists (x :: a), b. split; [reflexivity|]. split; [exact F|]. intros t [->|I]; auto.
Qed.
Lemma select_straight cs o : (forall t c, t < o -> In (t, c) cs -> c < o) -> forall n ns l, length ns <= n -> increasing ns -> OrderModel.select cs n ns = Some l ->
  forall t, In t ns -> In o ns -> t < o -> before l t o.
Proof.
  intros HC n. induction n as [|n IH]; intros ns l Ln Inc E t It Io L.
  - destruct ns; [destruct It|cbn in Ln; lia].
  - destruct (OrderProofs.select_sound cs (S n) ns l (increasing_nodup _ Inc) Ln E) as [Pm Ho].
    assert (NDl : NoDup l) by (eapply Permutation_NoDup; [symmetry; exact Pm|now apply increasing_nodup]).
    cbn [OrderModel.select] in E. destruct ns as [|z ns']; [destruct It|]. set (ns := z :: ns') in *.
    destruct (find (OrderModel.is_free cs ns) ns) as [s|] eqn:F; [|discriminate].
    destruct (OrderModel.select cs n (remove Nat.eq_dec s ns)) as [l'|] eqn:E'; [|discriminate]. cbn in E. injection E as <-.
    apply find_first in F. destruct F as (a & b & Ens & Fs & Na).
    assert (Is : In s ns) by (rewrite Ens; apply in_or_app; right; now left).
    destruct (Nat.eq_dec s o) as [->|No].
    + exfalso. apply (no_descent (o :: l') (fun t => In t ns /\ t < o) NDl) with (t := t); [|auto].
      intros u [Iu Lu]. assert (Ia : In u a).
      { rewrite Ens in Iu. apply in_app_or in Iu. destruct Iu as [Iu|[->|Iu]]; [exact Iu|lia|]. exfalso.
        apply In_nth_error in Iu. destruct Iu as [j Ej]. rewrite Ens in Inc.
        assert (o < u); [|lia]. apply (Inc (length a) (length a + S j)); [lia| |].
        - rewrite nth_error_app2, Nat.sub_diag by lia. reflexivity.
        - rewrite nth_error_app2 by lia. replace (length a + S j - length a) with (S j) by lia. exact Ej. }
      specialize (Na u Ia).
      assert (X : exists c, In (u, c) cs /\ In c ns).
      { unfold OrderModel.is_free in Na. clear -Na. induction cs as [|[p q] r IHr]; cbn [forallb] in Na; [discriminate|]. apply andb_false_iff in Na.
        destruct Na as [Na|Na].
        - apply negb_false_iff, andb_true_iff in Na. cbn [fst snd] in Na. destruct Na as [A B]. apply Nat.eqb_eq in A. subst p.
          apply OrderProofs.count_In in B. exists q. split; [now left|exact B].
        - destruct (IHr Na) as (c & I & J). exists c. split; [now right|exact J]. }
      destruct X as (c & Ic & Jc). exists c. specialize (HC u c Lu Ic). split; [auto|]. apply Ho; auto.
    + destruct (Nat.eq_dec s t) as [->|Nt].
      * assert (Il : In o l').
        { apply (Permutation_in o (Permutation_sym Pm)) in Io. destruct Io as [->|I]; [contradiction|exact I]. }
        apply in_split in Il. destruct Il as (p & q & ->). exists (t :: p), q. split; [reflexivity|now left].
      * destruct (IH (remove Nat.eq_dec s ns) l') with (t := t) as (p & q & -> & I); auto.
        -- pose proof (OrderProofs.remove_length_lt s ns Is (increasing_nodup _ Inc)). lia.
        -- now apply increasing_remove.
        -- apply in_in_remove; auto.
        -- apply in_in_remove; auto.
        -- exists (s :: p), q. split; [reflexivity|now right].
Qed.

(** * What the compiler accepts. *)
Lemma accepted_parts ps l : oaccepted ps = Some l -> checks ps [] [] = true /\ order ps = Some l /\
  (forall s x, oreads_at ps s x \/ assigns_at ps s x -> odeclared ps s x = true).
Proof.
  unfold oaccepted. destruct (checks ps [] [] && _) eqn:C; [|discriminate]. intros E. apply andb_true_iff in C. destruct C as [C D]. split; [exact C|]. split; [exact E|].
  intros s x H. rewrite forallb_forall in D.
  assert (N : nth_error ps s = Some (nth s ps [])).
  { destruct H as [H|H]; unfold oreads_at, assigns_at in H; revert H; [apply (nth_in_nil oreads)|apply (nth_in_nil oassigns)]; reflexivity. }
  specialize (D (s, nth s ps [])). cbn [fst snd] in D. rewrite forallb_forall in D. apply D.
  - assert (G : forall (q : list ostage) b i p, nth_error q i = Some p -> In (b + i, p) (combine (seq b (length q)) q)).
    { clear. induction q as [|a q IH]; intros b i p E; [destruct i; discriminate|]. cbn [length seq combine]. destruct i as [|i]; cbn in E.
      - injection E as ->. left. f_equal. lia.
      - right. replace (b + S i) with (S b + i) by lia. now apply IH. }
    apply (G ps 0 s _ N).
  - apply in_or_app. unfold oreads_at, assigns_at in H. tauto.
Qed.
Lemma order_perm ps l : order ps = Some l -> NoDup l /\ forall s, In s l <-> s < length ps.
Proof.
  intros E. unfold order in E. apply (OrderProofs.order_sound (map access ps) l) in E. destruct E as [P _]. rewrite map_length in P. split.
  - eapply Permutation_NoDup; [symmetry; exact P|apply seq_NoDup].
  - intros s. split; intros I.
    + apply (Permutation_in s P) in I. apply in_seq in I. lia.
    + apply (Permutation_in s (Permutation_sym P)). apply in_seq. lia.
Qed.
Lemma access_nth ps s : s < length ps -> nth_error (map access ps) s = Some (access (nth s ps [])).
Proof. intros L. rewrite nth_error_map, (nth_error_nth' ps [] L). reflexivity. Qed.
Lemma order_before ps l s o : order ps = Some l -> s < length ps -> o < length ps -> (exists x, oreads_at ps o x /\
  ((o < s /\ In x (with_op Back (nth s ps []))) \/ (s < o /\ In x (with_op Fwd (nth s ps []))))) -> before l s o.
Proof.
  intros E Ls Lo (x & R & H). unfold order in E. apply (OrderProofs.order_sound (map access ps) l) in E. destruct E as [_ E]. apply E.
  exists (access (nth s ps [])), (access (nth o ps [])), x. split; [now apply access_nth|]. split; [now apply access_nth|]. split; [exact R|exact H].
Qed.
Lemma order_straight ps l o : order ps = Some l -> o < length ps ->
  (forall t c x, t < o -> o <= c -> oreads_at ps t x -> ~ In x (with_op Back (nth c ps []))) -> forall t, t < o -> before l t o.
Proof.
  intros E Lo H t L. unfold order, OrderModel.order_stages in E. rewrite map_length in E.
  apply (select_straight (OrderModel.constraints (map access ps)) o) with (n := length ps) (ns := seq 0 (length ps)); auto.
  - intros u c Lu I. apply OrderProofs.constraints_spec in I. destruct I as (sc & su & x & Ec & Eu & R & [[Luc Wb]|[Lcu _]]); [|lia].
    destruct (Nat.ltb_spec c o) as [Lc|Lc]; [exact Lc|]. exfalso.
    assert (Lc' : c < length ps) by (rewrite <- (map_length access ps); apply nth_error_Some; congruence).
    rewrite access_nth in Ec by lia. rewrite access_nth in Eu by lia. injection Ec as <-. injection Eu as <-. now apply (H u c x Lu Lc).
  - now rewrite seq_length.
  - apply increasing_seq.
  - apply in_seq. lia.
  - apply in_seq. lia.
Qed.

(** * Statement: what is carried, what is shown. *)
(** A value assigned with = in stage [s] or before, and read after: it goes from stage [s] to stage [s + 1] with the item. *)
Definition ocarried (ps : list ostage) (s : nat) (x : var) : bool :=
  existsb (fun p => memb x (with_op Plain p)) (firstn (S s) ps) && existsb (fun p => memb x (oreads p)) (skipn (S s) ps).
Definition arrives (ps : list ostage) (s : nat) (x : var) : bool := match s with O => false | S s' => ocarried ps s' x end.
(** Stage [s0] shows to stage [s], in the same cycle, the value it gives to [x]; [l]: order in which the stages are written. *)
Definition shows (ps : list ostage) (l : list nat) (s0 s : nat) (x : var) : Prop :=
  before l s0 s /\
  ((s0 < s /\ (In x (with_op Back (nth s0 ps [])) \/ In x (with_op Fwd (nth s0 ps [])))) \/
   (s < s0 /\ In x (with_op Back (nth s0 ps [])) /\ ~ In x (with_op Fwd (nth s0 ps [])))).
Definition ooutside (ps : list ostage) (l : list nat) (vars : list var) (w : always) (Q0 : nstore) (m : nat) : store := fun x => w_before w m (oregs ps l vars w m Q0) (V x).
Definition oknown (ps : list ostage) (vars : list var) : Prop := forall s x, assigns_at ps s x -> In x vars.
(** A variable read by [s], not carried to it, and assigned by a stage [s0] written before [s], to which it is not carried either, without being shown to [s]: it is not assigned before the
    pipeline, and not by [s]. *)
Definition quiet (ps : list ostage) (l : list nat) (w : always) : Prop := forall s s0 x,
  oreads_at ps s x -> assigns_at ps s0 x -> before l s0 s -> arrives ps s x = false -> arrives ps s0 x = false -> ~ shows ps l s0 s x -> ~ In (V x) (w_deps w) /\ ~ assigns_at ps s x.

Lemma ocarried_spec ps s x : checks ps [] [] = true -> ocarried ps s x = true <-> exists fw lr, otrickle ps x = Some (fw, lr) /\ fw <= s /\ S s <= lr.
Proof.
  intros HC. unfold ocarried. rewrite andb_true_iff, !existsb_exists. split.
  - intros ((p & Ip & Wp) & (q & Iq & Rq)). apply memb_in in Wp, Rq.
    apply In_nth_error in Ip, Iq. destruct Ip as [i Ei], Iq as [j Ej]. apply firstn_nth in Ei. destruct Ei as [Li Ei]. rewrite nth_skipn in Ej.
    destruct (otrickle_exists ps x i (S s + j)) as (fw & lr & E & L1 & L2).
    + apply plain_writes; [exact HC|]. now rewrite (nth_error_nth _ _ _ Ei).
    + unfold oreads_at. now rewrite (nth_error_nth _ _ _ Ej).
    + lia.
    + exists fw, lr. repeat split; [exact E|lia|lia].
  - intros (fw & lr & E & L1 & L2). apply otrickle_some in E. destruct E as (_ & W & _ & R & _). split.
    + exists (nth fw ps []). pose proof (nth_in_nil owrites ps fw x eq_refl W) as N. split.
      * apply (nth_error_In _ fw), nth_firstn; [lia|exact N].
      * apply memb_in, plain_writes; [exact HC|exact W].
    + exists (nth lr ps []). pose proof (nth_in_nil oreads ps lr x eq_refl R) as N. split; [|now apply memb_in].
      apply (nth_error_In _ (lr - S s)). rewrite nth_skipn. now replace (S s + (lr - S s)) with lr by lia.
Qed.
Lemma arrives_name ps s x : checks ps [] [] = true -> arrives ps s x = true -> otr ps s x = T x s /\ exists s' fw lr, s = S s' /\ otrickle ps x = Some (fw, lr) /\ fw <= s' /\ s <= lr.
Proof.
  intros HC A. destruct s as [|s]; [discriminate|]. cbn [arrives] in A. apply ocarried_spec in A; [|exact HC]. destruct A as (fw & lr & E & L1 & L2).
  split; [unfold otr; rewrite E; now destruct (Nat.ltb_spec fw (S s)); [|lia]|]. exists s, fw, lr. auto.
Qed.
Lemma arrives_not ps s x : checks ps [] [] = true -> arrives ps s x = false -> (forall fw lr, otrickle ps x = Some (fw, lr) -> s <= lr) -> otr ps s x = V x.
Proof.
  intros HC A D. unfold otr. destruct (otrickle ps x) as [[fw lr]|] eqn:E; [|reflexivity]. destruct (Nat.ltb_spec fw s) as [L|L]; [|reflexivity].
  exfalso. destruct s as [|s]; [lia|]. cbn [arrives] in A. rewrite (proj2 (ocarried_spec ps s x HC)) in A; [discriminate|]. exists fw, lr. specialize (D fw lr eq_refl).
  repeat split; auto. lia.
Qed.

Section Runs.
  Variables (ps : list ostage) (l : list nat) (vars : list var) (w : always) (Q0 : nstore).
  Hypothesis HA : oaccepted ps = Some l.
  Hypothesis HW : around w.
  Hypothesis HV : oknown ps vars.
  Hypothesis HQ : quiet ps l w.
  Let HC : checks ps [] [] = true := proj1 (accepted_parts ps l HA).
  Let HO : order ps = Some l := proj1 (proj2 (accepted_parts ps l HA)).
  Let ND : NoDup l := proj1 (order_perm ps l HO).
  Let HI : forall s, In s l <-> s < length ps := proj2 (order_perm ps l HO).
  Let q (m : nat) : nstore := oregs ps l vars w m Q0.
  Definition seen (m s : nat) : store := seenk ps vars (q m) (w_before w m (q m)) (w_deps w) (prefix l s) s.
  Definition after (m s : nat) : store := pexec (erase (nth s ps [])) (seen m s).
  Let S_ (m : nat) (k : list nat) : wst := st ps vars (q m) (w_before w m (q m)) (w_deps w) k.
  Lemma read_name s x : oreads_at ps s x -> arrives ps s x = false -> otr ps s x = V x.
  Proof.
    intros R A. apply arrives_not; auto. intros fw lr E. apply otrickle_some in E. destruct E as (_ & _ & _ & _ & E). now apply E.
  Qed.
  Lemma not_arrives s x : otr ps s x = V x -> arrives ps s x = false.
  Proof. intros E. destruct (arrives ps s x) eqn:A; [|reflexivity]. apply arrives_name in A; [|exact HC]. destruct A as [A _]. congruence. Qed.
  Lemma shows_special s0 s x : shows ps l s0 s x -> special_at ps s0 x.
  Proof. intros [_ H]. apply special_in. tauto. Qed.
  Lemma bf_shows s0 s x : s0 <> s -> before l s0 s -> bf ps s0 x -> ~ (s < s0 /\ fw_at ps s0 x) -> shows ps l s0 s x.
  Proof.
    intros N Bf H M. split; [exact Bf|]. unfold bf, fw_at in *. destruct (Nat.lt_trichotomy s0 s) as [L|[L|L]]; [left; tauto|contradiction|right]. tauto.
  Qed.
  Lemma shows_bf s0 s x : shows ps l s0 s x -> bf ps s0 x /\ ~ (s < s0 /\ fw_at ps s0 x).
  Proof. intros [_ H]. unfold bf, fw_at. destruct H as [[L H]|(L & H & M)]; [split; [exact H|lia]|tauto]. Qed.
  Lemma is_calm s : s < length ps -> calm ps (prefix l s) s.
  Proof.
    intros L x R [A E] k K [Ak Ek]. assert (Bk : before l k s) by (apply before_prefix; auto; split; [now apply HI|exact K]).
    apply (HQ s k x R Ak Bk); [now apply not_arrives|now apply not_arrives| |exact A].
    intros Sh. apply shows_special in Sh. pose proof (special_unique ps s k x HC Sh A) as ->. now apply prefix_not in K.
  Qed.
  Lemma seen_carried m s x : s < length ps -> arrives ps s x = true -> seen m s x = q m (T x s).
  Proof. intros L A. apply arrives_name in A; [|exact HC]. destruct A as [A _]. exact (seenk_T ps vars (q m) (w_before w m (q m)) (w_deps w) (r_before w HW m (q m)) (prefix l s) s x (prefix_not l s) A). Qed.
  Lemma seen_outside m s x : s < length ps -> oreads_at ps s x -> arrives ps s x = false -> (forall s0, ~ shows ps l s0 s x) -> seen m s x = ooutside ps l vars w Q0 m x.
  Proof.
    intros L R A N. pose proof (read_name s x R A) as E. unfold seen, seenk, side. rewrite E. rewrite (proj2 (memb_in x _) R).
    assert (Bs : forall k, In k (prefix l s) -> before l k s /\ k <> s).
    { intros k K. split; [apply before_prefix; auto; split; [now apply HI|exact K]|]. intros ->. now apply prefix_not in K. }
    destruct (nmem (V x) _) eqn:M.
    - apply nmem_in, (sd_in ps vars (q m) (w_before w m (q m)) (w_deps w) HC) in M. destruct M as [M|(y & s0 & Ey & I & H & F)].
      + apply (st_V ps vars (q m) (w_before w m (q m)) (w_deps w) (prefix l s) x). intros k K [Ak Ek]. destruct (Bs k K) as [Bk _]. destruct (HQ s k x R Ak Bk A (not_arrives k x Ek) (N k)) as [X _]. contradiction.
      + exfalso. injection Ey as <-. destruct (Bs s0 I) as [Bk Ne]. apply (N s0). now apply bf_shows.
    - unfold ooutside. fold (q m). symmetry. apply (r_deps w HW). intros I.
      assert (I' : In (V x) (sd ps vars (q m) (w_before w m (q m)) (w_deps w) (prefix l s) s)).
      { apply (sd_in ps vars (q m) (w_before w m (q m)) (w_deps w) HC). now left. }
      apply nmem_in in I'. congruence.
  Qed.
  (** A variable assigned by one stage only. *)
  Definition only (s : nat) (x : var) : Prop := assigns_at ps s x /\ forall k, assigns_at ps k x -> k = s.
  Lemma only_name s x : only s x -> otr ps s x = V x.
  Proof.
    intros [A U]. unfold otr. destruct (otrickle ps x) as [[fw lr]|] eqn:E; [|reflexivity]. apply otrickle_some in E. destruct E as (_ & W & _).
    apply owrites_in in W. destruct W as [W _]. rewrite (U fw W). now destruct (Nat.ltb_spec s s); [lia|].
  Qed.
  Lemma only_untouched s x : only s x -> untouched ps (prefix l s) x.
  Proof. intros [_ U] k K [Ak _]. rewrite (U k Ak) in K. now apply prefix_not in K. Qed.
  Lemma seen_own m s x : only s x -> seen m s x = ooutside ps l vars w Q0 m x.
  Proof. intros O. exact (seenk_V ps vars (q m) (w_before w m (q m)) (w_deps w) HC (r_deps w HW m (q m)) (prefix l s) s x (only_name s x O) (only_untouched s x O)). Qed.
  Lemma special_only s x : special_at ps s x -> only s x.
  Proof. intros S. split; [now apply special_assigns|]. intros k A. now apply (special_unique ps k s x HC S). Qed.
  Lemma left_own m s x : s < length ps -> only s x -> forall b, ~ In s b -> d_side (S_ m (prefix l s ++ s :: b)) (V x) = after m s x.
  Proof.
    intros L O b N. replace (prefix l s ++ s :: b) with ((prefix l s ++ [s]) ++ b) by (now rewrite <- app_assoc).
    unfold S_. rewrite (st_V_keep ps vars (q m) (w_before w m (q m)) (w_deps w) (prefix l s ++ [s]) b x).
    - exact (left_V ps vars (q m) (w_before w m (q m)) (w_deps w) HC (r_deps w HW m (q m)) (r_before w HW m (q m)) (prefix l s) s x (prefix_not l s) (is_calm s L) (only_name s x O) (only_untouched s x O)).
    - intros k K [Ak _]. destruct O as [_ U]. rewrite (U k Ak) in K. contradiction.
  Qed.
  Lemma seen_shown m s s0 x : s < length ps -> oreads_at ps s x -> shows ps l s0 s x -> seen m s x = after m s0 x.
  Proof.
    intros L R Sh. pose proof (shows_special _ _ _ Sh) as Sp. pose proof (shows_bf _ _ _ Sh) as [H F]. destruct Sh as [Bf _].
    apply before_prefix in Bf; [|exact ND]. destruct Bf as [Is I0]. destruct (prefix_prefix l s0 s ND Is I0) as (b & E & Nb).
    assert (E' : otr ps s x = V x) by (unfold otr; now rewrite (special_name ps s0 x HC Sp)).
    unfold seen, seenk, side. rewrite E', (proj2 (memb_in x _) R).
    assert (M : nmem (V x) (sd ps vars (q m) (w_before w m (q m)) (w_deps w) (prefix l s) s) = true).
    { apply nmem_in, (sd_in ps vars (q m) (w_before w m (q m)) (w_deps w) HC). right. exists x, s0. auto. }
    rewrite M, E. apply left_own; auto; [|now apply special_only].
    apply HI. rewrite (prefix_split l s Is). apply in_or_app. now left.
  Qed.
  Lemma pipe_own m s x : s < length ps -> only s x -> opipe ps l vars w m (q m) (V x) = after m s x.
  Proof.
    intros L O. assert (Is : In s l) by now apply HI. pose proof (prefix_split l s Is) as E. pose proof ND as N. rewrite E in N. apply nodup_split in N.
    transitivity (d_side (S_ m (prefix l s ++ s :: suffix l s)) (V x)); [now rewrite <- E|]. apply left_own; tauto.
  Qed.
  Lemma pipe_T m s x fw lr : s < length ps -> otrickle ps x = Some (fw, lr) -> fw <= s -> opipe ps l vars w m (q m) (T x s) = after m s x.
  Proof.
    intros L Et F. assert (Is : In s l) by now apply HI. pose proof (prefix_split l s Is) as E. pose proof ND as N. rewrite E in N. apply nodup_split in N.
    transitivity (d_side (S_ m (prefix l s ++ s :: suffix l s)) (T x s)); [now rewrite <- E|].
    replace (prefix l s ++ s :: suffix l s) with ((prefix l s ++ [s]) ++ suffix l s) by (now rewrite <- app_assoc).
    unfold S_. rewrite (st_T_keep ps vars (q m) (w_before w m (q m)) (w_deps w) (prefix l s ++ [s]) (suffix l s) x s) by tauto.
    exact (left_T ps vars (q m) (w_before w m (q m)) (w_deps w) HC (fun y k Y => HV k y Y) (r_deps w HW m (q m)) (r_before w HW m (q m)) (prefix l s) s x fw lr (prefix_not l s) (is_calm s L) Et F).
  Qed.
  Lemma seen_next m s x : S s < length ps -> arrives ps (S s) x = true -> seen (S m) (S s) x = after m s x.
  Proof.
    intros L A. rewrite seen_carried by auto. apply arrives_name in A; [|exact HC]. destruct A as (_ & s' & fw & lr & Es & E & L1 & L2). injection Es as <-.
    unfold q. cbn [oregs oedge]. rewrite E. rewrite (proj2 (Nat.ltb_lt fw (S s))), (proj2 (Nat.leb_le (S s) lr)) by lia. cbn [andb]. rewrite Nat.sub_succ, Nat.sub_0_r.
    rewrite (r_after w HW). apply (pipe_T m s x fw lr); auto. lia.
  Qed.
End Runs.
