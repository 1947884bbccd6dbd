(** Ports made from members: the lists of ports grow by the ports of each item. *)
From Coq Require Import String List Bool NArith Permutation.
From Verif Require Import MemberModel.
Import ListNotations.
Local Open Scope string_scope.

Definition port := (dir * bool * bool * nfo)%type.
Definition mk_port (d : dir) (c k : bool) (n : nfo) : port :=
  match d with Input => (Input, false, false, n) | Output => (Output, c || k, k, n) | InOut => (InOut, c || k, false, n) end.
Definition sel_in (l : list port) : list nfo := flat_map (fun p : port => match p with (Input, _, _, n) => [n] | _ => [] end) l.
Definition sel_out (l : list port) : list (nfo * bool * bool) := flat_map (fun p : port => match p with (Output, c, k, n) => [(n, c, k)] | _ => [] end) l.
Definition sel_io (l : list port) : list (nfo * bool) := flat_map (fun p : port => match p with (InOut, c, _, n) => [(n, c)] | _ => [] end) l.
Definition grows (st : state) (l : list port) (st' : state) : Prop :=
  inputs st' = (inputs st ++ sel_in l)%list /\ outputs st' = (outputs st ++ sel_out l)%list /\ inouts st' = (inouts st ++ sel_io l)%list.
Lemma grows_none : forall st, grows st [] st.
Proof. intro st. unfold grows. cbn. rewrite !app_nil_r. auto. Qed.
Lemma grows_trans : forall a l b m c, grows a l b -> grows b m c -> grows a (l ++ m) c.
Proof.
  intros a l b m c (A & B & C) (D & E & F). unfold grows, sel_in, sel_out, sel_io. rewrite !flat_map_app. unfold sel_in, sel_out, sel_io in *.
  rewrite D, E, F, A, B, C, !app_assoc. auto.
Qed.
Lemma grows_port : forall st d c k n, grows st [mk_port d c k n] (add_port st d c k n).
Proof. intros st [] c k n; unfold grows; cbn; rewrite ?app_nil_r; auto. Qed.
Lemma grows_group : forall st l st' g d, grows (add_group st g d) l st' -> grows st l st'.
Proof. intros st l st' g d H. exact H. Qed.
Lemma grows_param : forall st l st' b s, grows st l st' -> grows st l (add_param st' b s).
Proof. intros st l st' b s H. exact H. Qed.

Definition member_port (g : string) (i : io) (n : nfo) : port := mk_port (io_dir i) (io_comb i) (io_nocheck i) (with_name n (g ++ "_" ++ n_name n)).
Definition look (vars : list nfo) (s : string) : option nfo := find (fun n => String.eqb (n_name n) s) vars.
Definition item_ports (D : defs) (it : item) : list port :=
  match it with
  | Plain d c k v => match gatherVarNfo true v with Some (n, _) => [mk_port d c k n] | None => [] end
  | Whole d c k id g => match d_groups D id with Some vs => match group_vars vs [] with Some ns => map (fun n => mk_port d c k (with_name n (g ++ "_" ++ n_name n))) (d_order D ns) | None => [] end | None => [] end
  | Listed _ id g l => match d_groups D id with Some vs => match group_vars vs [] with Some ns => flat_map (fun i => match look ns (io_name i) with Some n => [member_port g i n] | None => [] end) l | None => [] end | None => [] end
  | Iface id g => match d_ifaces D id with Some l => map (fun i => member_port g i (iface_nfo i)) l | None => [] end
  end.
Lemma listed_grows : forall g vars l st st', listed g vars l st = Some st' ->
  grows st (flat_map (fun i => match look vars (io_name i) with Some n => [member_port g i n] | None => [] end) l) st' /\ Forall (fun i => exists n, look vars (io_name i) = Some n) l.
Proof.
  intros g vars. induction l as [|i l IH]; intros st st' H; cbn [listed] in H; [injection H as <-; split; [apply grows_none|constructor]|]. cbn [flat_map]. fold (look vars (io_name i)) in H.
  destruct (look vars (io_name i)) as [n|] eqn:E; [|discriminate]. apply IH in H. destruct H as [H F]. split; [|constructor; [exists n; exact E|exact F]].
  eapply grows_trans; [apply grows_port|exact H].
Qed.
Lemma whole_grows : forall d c k g vars st, grows st (map (fun n => mk_port d c k (with_name n (g ++ "_" ++ n_name n))) vars) (whole d c k g vars st).
Proof.
  intros d c k g. induction vars as [|n vars IH]; intro st; cbn [whole map]; [apply grows_none|]. change (?x :: map ?f vars) with ([x] ++ map f vars)%list. eapply grows_trans; [apply grows_port|apply IH].
Qed.
Lemma iface_grows : forall g l seen st st', iface g l seen st = Some st' ->
  grows st (map (fun i => member_port g i (iface_nfo i)) l) st' /\ NoDup (map io_name l) /\ (forall s, In s seen -> ~ In s (map io_name l)) /\ Forall (fun i => io_dir i = Input -> io_init i = None) l.
Proof.
  intros g. induction l as [|i l IH]; intros seen st st' H; cbn [iface] in H; [injection H as <-; split; [apply grows_none|]; split; [constructor|]; split; [intros s _ []|constructor]|].
  destruct (existsb (String.eqb (io_name i)) seen) eqn:E; [discriminate|].
  assert (K : iface g l (io_name i :: seen) (add_param (add_port st (io_dir i) (io_comb i) (io_nocheck i) (with_name (iface_nfo i) (g ++ "_" ++ io_name i))) true (g ++ "_" ++ io_name i)) = Some st' /\ (io_dir i = Input -> io_init i = None)).
  { destruct (io_dir i); destruct (io_init i); try discriminate H; split; auto; discriminate. }
  destruct K as [K KI]. apply IH in K. destruct K as (A & B & C & F). split; [|split; [|split]].
  - cbn [map]. change (?x :: map ?f l) with ([x] ++ map f l)%list. eapply grows_trans; [|exact A]. apply grows_param. apply grows_port.
  - cbn [map]. constructor; [apply C; left; reflexivity|exact B].
  - intros s I [J|J]; [|exact (C s (or_intror I) J)]. subst s. assert (X : existsb (String.eqb (io_name i)) seen = true) by (apply existsb_exists; exists (io_name i); split; [exact I|apply String.eqb_refl]). congruence.
  - constructor; assumption.
Qed.
Lemma item_grows : forall D st it st', gather_item D st it = Some st' -> grows st (item_ports D it) st'.
Proof.
  intros D st [d c k v|d c k id g|also id g l|id g] st' H; cbn [gather_item item_ports] in *.
  - unfold plain in H. destruct (gatherVarNfo true v) as [[n e]|]; [|discriminate]. destruct (is_group v); [discriminate|].
    match type of H with (if ?b then _ else _) = _ => destruct b end; [discriminate|]. destruct e; [discriminate|]. destruct (found st (n_name n)); [discriminate|]. injection H as <-. apply grows_param, grows_port.
  - destruct (d_groups D id) as [vs|]; [|discriminate]. destruct (group_vars vs []) as [ns|]; [|discriminate]. injection H as <-. apply (grows_group _ _ _ g (DGroup id)), whole_grows.
  - destruct (d_groups D id) as [vs|]; [|discriminate]. destruct also; [discriminate|]. destruct (group_vars vs []) as [ns|]; [|discriminate]. apply listed_grows in H. exact (grows_group _ _ _ g (DGroup id) (proj1 H)).
  - destruct (d_ifaces D id) as [l|]; [|discriminate]. apply iface_grows in H. exact (grows_group _ _ _ g (DIface id) (proj1 H)).
Qed.
Lemma items_grow : forall D l st st', gatherIOs D l st = Some st' -> grows st (flat_map (item_ports D) l) st'.
Proof.
  intros D. induction l as [|it l IH]; intros st st' H; cbn [gatherIOs] in H; [injection H as <-; apply grows_none|].
  destruct (gather_item D st it) as [st1|] eqn:E; [|discriminate]. cbn [flat_map]. eapply grows_trans; [exact (item_grows _ _ _ _ E)|exact (IH _ _ H)].
Qed.
Lemma gather_app : forall D a b st, gatherIOs D (a ++ b) st = match gatherIOs D a st with Some s => gatherIOs D b s | None => None end.
Proof. intros D. induction a as [|x a IH]; intros b st; cbn [app gatherIOs]; [reflexivity|]. destruct (gather_item D st x); [apply IH|reflexivity]. Qed.
Lemma accepted_item : forall D l st st' it, gatherIOs D l st = Some st' -> In it l -> exists s s', gather_item D s it = Some s'.
Proof.
  intros D. induction l as [|x l IH]; intros st st' it H I; [destruct I|]. cbn [gatherIOs] in H. destruct (gather_item D st x) as [s|] eqn:E; [|discriminate].
  destruct I as [->|I]; [exists st, s; exact E|exact (IH _ _ _ H I)].
Qed.

(** Members of groups. *)
Lemma group_vars_all : forall l seen ns, group_vars l seen = Some ns ->
  exists ms, ns = (seen ++ ms)%list /\ Forall2 (fun v n => gatherVarNfo false v = Some (n, false) /\ is_param n = false) l ms /\ (NoDup (map n_name seen) -> NoDup (map n_name ns)).
Proof.
  induction l as [|v l IH]; intros seen ns H; cbn [group_vars] in H.
  - injection H as <-. exists []. rewrite app_nil_r. split; [reflexivity|]. split; [constructor|auto].
  - destruct (gatherVarNfo false v) as [[n e]|] eqn:E; [|discriminate]. destruct e; [discriminate|]. destruct (is_param n) eqn:P; [discriminate|].
    destruct (existsb (fun m => String.eqb (n_name m) (n_name n)) seen) eqn:X; [discriminate|]. destruct (IH _ _ H) as (ms & -> & F & N). exists (n :: ms). split; [rewrite <- app_assoc; reflexivity|]. split; [constructor; auto|].
    intro K. apply N. rewrite map_app. cbn [map]. apply NoDup_rev in K. apply NoDup_rev in K. rewrite !rev_involutive in K.
    assert (Q : forall (a : list string) x, NoDup a -> ~ In x a -> NoDup (a ++ [x])).
    { induction a as [|y a IHa]; intros x Ha Hx; cbn [app]; [constructor; [intros []|constructor]|]. inversion Ha; subst. constructor; [|apply IHa; [assumption|intro; apply Hx; right; assumption]].
      intro J. apply in_app_or in J. destruct J as [J|[J|[]]]; [contradiction|subst; apply Hx; left; reflexivity]. }
    apply Q; [exact K|]. intro J. apply in_map_iff in J. destruct J as (m & EM & IM). assert (Y : existsb (fun m => String.eqb (n_name m) (n_name n)) seen = true) by (apply existsb_exists; exists m; split; [exact IM|apply String.eqb_eq; exact EM]). congruence.
Qed.
Lemma var_name : forall b v n e, gatherVarNfo b v = Some (n, e) -> n_name n = v_name v.
Proof. intros b v n e H. unfold gatherVarNfo in H. destruct (v_type v); destruct (v_init v) as [|[]|[]|]; destruct b; try discriminate; injection H as <- _; reflexivity. Qed.
Lemma forall2_in_l : forall A B (R : A -> B -> Prop) l m x, Forall2 R l m -> In x l -> exists y, In y m /\ R x y.
Proof. intros A B R l m x F. induction F as [|a b l m H F IH]; intro I; [destruct I|]. destruct I as [->|I]; [exists b; split; [left; reflexivity|exact H]|]. destruct (IH I) as (y & P & Q). exists y. split; [right; exact P|exact Q]. Qed.
Lemma forall2_in_r : forall A B (R : A -> B -> Prop) l m y, Forall2 R l m -> In y m -> exists x, In x l /\ R x y.
Proof. intros A B R l m y F. induction F as [|a b l m H F IH]; intro I; [destruct I|]. destruct I as [->|I]; [exists a; split; [left; reflexivity|exact H]|]. destruct (IH I) as (x & P & Q). exists x. split; [right; exact P|exact Q]. Qed.
Lemma look_unique : forall ns n, NoDup (map n_name ns) -> In n ns -> look ns (n_name n) = Some n.
Proof.
  unfold look. induction ns as [|m ns IH]; intros n N I; [destruct I|]. cbn [map] in N. inversion N; subst. cbn [find]. destruct I as [->|I]; [rewrite String.eqb_refl; reflexivity|].
  destruct (String.eqb (n_name m) (n_name n)) eqn:E; [|apply IH; assumption]. apply String.eqb_eq in E. exfalso. apply H1. rewrite E. apply in_map. exact I.
Qed.
Lemma look_in : forall ns s n, look ns s = Some n -> In n ns /\ n_name n = s.
Proof. intros ns s n H. apply find_some in H. destruct H as [A B]. apply String.eqb_eq in B. auto. Qed.
