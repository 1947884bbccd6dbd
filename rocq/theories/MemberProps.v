(** Property C62. *)
From Coq Require Import String List Bool NArith Permutation.
From Verif Require Import MemberModel MemberProofs.
Import ListNotations.
Local Open Scope string_scope.

(** What a declaration says of a port or variable named [s]: its type, its initial value, when it is set, its attributes. *)
Definition init_of (i : vinit) (n : nfo) : Prop :=
  match i with
  | VSet (Some x) => n_init n = Some x /\ n_uninit n = false /\ n_startup n = false
  | VCstr (Some x) => n_init n = Some x /\ n_uninit n = false /\ n_startup n = true
  | VCstr None => n_init n = None /\ n_uninit n = true /\ n_startup n = true
  | _ => n_init n = None /\ n_uninit n = true /\ n_startup n = false
  end.
Definition of_var (v : var) (s : string) (n : nfo) : Prop :=
  n_name n = s /\ n_type n = match v_type v with TSized b w => Sized b w | _ => Param end /\ init_of (v_init v) n /\ n_attr n = v_attr v.
Definition of_member (i : io) (s : string) (n : nfo) : Prop :=
  n_name n = s /\ n_type n = Param /\ n_attr n = ""
  /\ match io_init i with
     | None => n_init n = None /\ n_uninit n = false /\ n_startup n = false
     | Some x => n_init n = x /\ n_uninit n = match x with None => true | Some _ => false end /\ n_startup n = true
     end.
(** The ports an item of the list of a unit declares: direction, "!", "(!)", port. *)
Inductive declares (D : defs) : item -> dir -> bool -> bool -> nfo -> Prop :=
| dec_plain : forall d c k v n, of_var v (v_name v) n -> declares D (Plain d c k v) d c k n
| dec_whole : forall d c k id g vs v n, d_groups D id = Some vs -> In v vs -> of_var v (g ++ "_" ++ v_name v) n -> declares D (Whole d c k id g) d c k n
| dec_listed : forall b id g l vs i v n, d_groups D id = Some vs -> In i l -> In v vs -> v_name v = io_name i -> of_var v (g ++ "_" ++ v_name v) n ->
    declares D (Listed b id g l) (io_dir i) (io_comb i) (io_nocheck i) n
| dec_iface : forall id g l i n, d_ifaces D id = Some l -> In i l -> of_member i (g ++ "_" ++ io_name i) n -> declares D (Iface id g) (io_dir i) (io_comb i) (io_nocheck i) n.
Definition any_order (D : defs) : Prop := forall l, Permutation (d_order D l) l.

Lemma nfo_ext : forall a b, n_name a = n_name b -> n_type a = n_type b -> n_init a = n_init b -> n_uninit a = n_uninit b -> n_startup a = n_startup b -> n_attr a = n_attr b -> a = b.
Proof. intros [] []; cbn. intros; subst; reflexivity. Qed.
Lemma of_var_eq : forall b v m e s n, gatherVarNfo b v = Some (m, e) -> is_group v = false -> (of_var v s n <-> n = with_name m s).
Proof.
  intros b v m e s n H G. unfold of_var, is_group in *. unfold gatherVarNfo in H. split.
  - intros (A & B & C & E). destruct (v_type v) eqn:T; try discriminate G; destruct (v_init v) as [|[]|[]|] eqn:I; try discriminate H; destruct b; try discriminate H; injection H as <- _; cbn [init_of] in C; destruct C as (C1 & C2 & C3);
    apply nfo_ext; cbn; auto.
  - intros ->. destruct (v_type v) eqn:T; try discriminate G; destruct (v_init v) as [|[]|[]|] eqn:I; try discriminate H; destruct b; try discriminate H; injection H as <- _; cbn; auto 10.
Qed.
Lemma not_param : forall b v n e, gatherVarNfo b v = Some (n, e) -> is_param n = false -> is_group v = false.
Proof. intros b v n e H P. unfold gatherVarNfo in H. unfold is_group. destruct (v_type v); try reflexivity. injection H as <- _. discriminate P. Qed.
Lemma of_member_eq : forall i s n, of_member i s n <-> n = with_name (iface_nfo i) s.
Proof.
  intros i s n. unfold of_member. split.
  - intros (A & B & C & E). destruct (io_init i) as [x|] eqn:X; destruct E as (E1 & E2 & E3); apply nfo_ext; cbn; rewrite ?X; auto; destruct x; auto.
  - intros ->. cbn. destruct (io_init i) as [[x|]|]; auto 6.
Qed.
Lemma with_own_name : forall n, with_name n (n_name n) = n.
Proof. intros []. reflexivity. Qed.
Lemma item_ports_spec : forall D s it s', any_order D -> gather_item D s it = Some s' ->
  forall p, In p (item_ports D it) <-> exists d c k n, declares D it d c k n /\ p = mk_port d c k n.
Proof.
  intros D s it s' O H p. destruct it as [d c k v|d c k id g|also id g l|id g]; cbn [gather_item item_ports] in *.
  - unfold plain in H. destruct (gatherVarNfo true v) as [[n e]|] eqn:E; [|discriminate]. destruct (is_group v) eqn:G; [discriminate|]. clear H. split.
    + intros [<-|[]]. exists d, c, k, n. split; [|reflexivity]. constructor. apply (of_var_eq true v n e); [exact E|exact G|]. rewrite <- (var_name _ _ _ _ E). symmetry. apply with_own_name.
    + intros (d' & c' & k' & n' & X & ->). inversion X; subst. left. match goal with Q : of_var v _ n' |- _ => apply (of_var_eq true v n e) in Q; [|exact E|exact G]; subst n' end. rewrite <- (var_name _ _ _ _ E), with_own_name. reflexivity.
  - destruct (d_groups D id) as [vs|] eqn:DG; [|discriminate]. destruct (group_vars vs []) as [ns|] eqn:GV; [|discriminate]. clear H. destruct (group_vars_all _ _ _ GV) as (ms & EQ & F & _). cbn [app] in EQ. subst ns. split.
    + intro I. apply in_map_iff in I. destruct I as (n & <- & I). apply (Permutation_in _ (O ms)) in I. destruct (forall2_in_r _ _ _ _ _ _ F I) as (v & V & E & P).
      eexists d, c, k, _. split; [|reflexivity]. apply (dec_whole D d c k id g vs v); [exact DG|exact V|]. apply (of_var_eq false v n false); [exact E|exact (not_param _ _ _ _ E P)|]. rewrite (var_name _ _ _ _ E). reflexivity.
    + intros (d' & c' & k' & n' & X & ->). inversion X; subst. assert (vs0 = vs) by congruence. subst vs0. match goal with Q : In v vs |- _ => destruct (forall2_in_l _ _ _ _ _ _ F Q) as (n & N & E & P) end.
      apply in_map_iff. exists n. split; [|apply (Permutation_in _ (Permutation_sym (O ms))); exact N]. match goal with Q : of_var v _ n' |- _ => apply (of_var_eq false v n false) in Q; [|exact E|exact (not_param _ _ _ _ E P)]; subst n' end. rewrite (var_name _ _ _ _ E). reflexivity.
  - destruct (d_groups D id) as [vs|] eqn:DG; [|discriminate]. destruct also; [discriminate|]. destruct (group_vars vs []) as [ns|] eqn:GV; [|discriminate]. apply listed_grows in H. destruct H as [_ L].
    destruct (group_vars_all _ _ _ GV) as (ms & EQ & F & ND). cbn [app] in EQ. subst ns. specialize (ND (NoDup_nil _)). split.
    + intro I. apply in_flat_map in I. destruct I as (i & Ii & I). destruct (look ms (io_name i)) as [n|] eqn:LK; [|destruct I]. destruct I as [<-|[]]. apply look_in in LK. destruct LK as [N NE].
      destruct (forall2_in_r _ _ _ _ _ _ F N) as (v & V & E & P). eexists _, _, _, _. split; [|reflexivity]. apply (dec_listed D false id g l vs i v); [exact DG|exact Ii|exact V|rewrite <- (var_name _ _ _ _ E); exact NE|].
      apply (of_var_eq false v n false); [exact E|exact (not_param _ _ _ _ E P)|]. rewrite (var_name _ _ _ _ E). reflexivity.
    + intros (d' & c' & k' & n' & X & ->). inversion X; subst. assert (vs0 = vs) by congruence. subst vs0. match goal with Q : In v vs |- _ => destruct (forall2_in_l _ _ _ _ _ _ F Q) as (n & N & E & P) end. apply in_flat_map. exists i. split; [assumption|].
      pose proof (look_unique _ _ ND N) as LK. rewrite (var_name _ _ _ _ E) in LK. match goal with Q : v_name v = io_name i |- _ => rewrite Q in LK end. rewrite LK. left. unfold member_port. f_equal.
      match goal with Q : of_var v _ n' |- _ => apply (of_var_eq false v n false) in Q; [|exact E|exact (not_param _ _ _ _ E P)]; subst n' end. rewrite (var_name _ _ _ _ E). reflexivity.
  - destruct (d_ifaces D id) as [l|] eqn:DI; [|discriminate]. split.
    + intro I. apply in_map_iff in I. destruct I as (i & <- & I). eexists _, _, _, _. split; [|reflexivity]. apply (dec_iface D id g l i); [exact DI|exact I|]. apply of_member_eq. reflexivity.
    + intros (d' & c' & k' & n' & X & ->). inversion X; subst. assert (l0 = l) by congruence. subst l0. apply in_map_iff. exists i. split; [|assumption]. match goal with Q : of_member _ _ _ |- _ => apply of_member_eq in Q; subst n' end. reflexivity.
Qed.
Lemma sel_in_In : forall l n, In n (sel_in l) <-> exists c k, In (Input, c, k, n) l.
Proof.
  intros l n. unfold sel_in. rewrite in_flat_map. split.
  - intros ([[[[] c] k] m] & I & J); cbn in J; try tauto. destruct J as [->|[]]. exists c, k. exact I.
  - intros (c & k & I). exists (Input, c, k, n). split; [exact I|left; reflexivity].
Qed.
Lemma sel_out_In : forall l n c k, In (n, c, k) (sel_out l) <-> In (Output, c, k, n) l.
Proof.
  intros l n c k. unfold sel_out. rewrite in_flat_map. split.
  - intros ([[[[] c'] k'] m] & I & J); cbn in J; try tauto. destruct J as [J|[]]. injection J as <- <- <-. exact I.
  - intro I. exists (Output, c, k, n). split; [exact I|left; reflexivity].
Qed.
Lemma sel_io_In : forall l n c, In (n, c) (sel_io l) <-> exists k, In (InOut, c, k, n) l.
Proof.
  intros l n c. unfold sel_io. rewrite in_flat_map. split.
  - intros ([[[[] c'] k'] m] & I & J); cbn in J; try tauto. destruct J as [J|[]]. injection J as <- <-. exists k'. exact I.
  - intros (k & I). exists (InOut, c, k, n). split; [exact I|left; reflexivity].
Qed.
Lemma all_ports : forall D l st, any_order D -> gatherIOs D l start = Some st ->
  forall p, In p (flat_map (item_ports D) l) <-> exists it d c k n, In it l /\ declares D it d c k n /\ p = mk_port d c k n.
Proof.
  intros D l st O H p. rewrite in_flat_map. split.
  - intros (it & I & J). destruct (accepted_item _ _ _ _ _ H I) as (s & s' & E). apply (item_ports_spec D s it s' O E) in J. destruct J as (d & c & k & n & X & Y). exists it, d, c, k, n. auto.
  - intros (it & d & c & k & n & I & X & Y). exists it. split; [exact I|]. destruct (accepted_item _ _ _ _ _ H I) as (s & s' & E). apply (item_ports_spec D s it s' O E). exists d, c, k, n. auto.
Qed.

(** The inputs of a unit accepted are those declared: plain ones, members of groups, members of interfaces, with the type and the initial value of the declaration. *)
Theorem C62_inputs : forall D l st, any_order D -> gatherIOs D l start = Some st ->
  forall n, In n (inputs st) <-> exists it c k, In it l /\ declares D it Input c k n.
Proof.
  intros D l st O H n. pose proof (all_ports D l st O H) as A. apply items_grow in H. destruct H as (-> & _ & _). cbn [start inputs app]. rewrite sel_in_In. split.
  - intros (c & k & I). apply A in I. destruct I as (it & d & c' & k' & m & I & X & E). destruct d; try discriminate E. injection E as _ _ <-. exists it, c', k'. auto.
  - intros (it & c & k & I & X). exists false, false. apply A. exists it, Input, c, k, n. auto.
Qed.
Print Assumptions C62_inputs.
(** The same of outputs, with their "!" and "(!)". *)
Theorem C62_outputs : forall D l st, any_order D -> gatherIOs D l start = Some st ->
  forall n comb nocheck, In (n, comb, nocheck) (outputs st) <-> exists it c, In it l /\ declares D it Output c nocheck n /\ comb = c || nocheck.
Proof.
  intros D l st O H n comb nocheck. pose proof (all_ports D l st O H) as A. apply items_grow in H. destruct H as (_ & -> & _). cbn [start outputs app]. rewrite sel_out_In. rewrite A. split.
  - intros (it & d & c' & k' & m & I & X & E). destruct d; try discriminate E. injection E as -> -> <-. exists it, c'. auto.
  - intros (it & c & I & X & ->). exists it, Output, c, nocheck, n. auto.
Qed.
Print Assumptions C62_outputs.
Theorem C62_inouts : forall D l st, any_order D -> gatherIOs D l start = Some st ->
  forall n comb, In (n, comb) (inouts st) <-> exists it c k, In it l /\ declares D it InOut c k n /\ comb = c || k.
Proof.
  intros D l st O H n comb. pose proof (all_ports D l st O H) as A. apply items_grow in H. destruct H as (_ & _ & ->). cbn [start inouts app]. rewrite sel_io_In. split.
  - intros (k & I). apply A in I. destruct I as (it & d & c' & k' & m & I & X & E). destruct d; try discriminate E. injection E as -> _ <-. exists it, c', k'. auto.
  - intros (it & c & k & I & X & ->). exists false. apply A. exists it, InOut, c, k, n. auto.
Qed.
Print Assumptions C62_inouts.

(** Inputs in the order written, which calls rely on, when no group is given a direction as a whole. *)
Definition is_input (d : dir) : bool := match d with Input => true | _ => false end.
Definition written_inputs (D : defs) (it : item) : list string :=
  match it with
  | Plain d _ _ v => if is_input d then [v_name v] else []
  | Whole _ _ _ _ _ => []
  | Listed _ _ g l => map (fun i => g ++ "_" ++ io_name i) (filter (fun i => is_input (io_dir i)) l)
  | Iface id g => match d_ifaces D id with Some l => map (fun i => g ++ "_" ++ io_name i) (filter (fun i => is_input (io_dir i)) l) | None => [] end
  end.
Lemma sel_in_port : forall d c k n l, sel_in (mk_port d c k n :: l) = ((if is_input d then [n] else []) ++ sel_in l)%list.
Proof. intros [] c k n l; reflexivity. Qed.
Lemma sel_in_app : forall a b, sel_in (a ++ b) = (sel_in a ++ sel_in b)%list.
Proof. intros a b. unfold sel_in. apply flat_map_app. Qed.
Theorem C62_order : forall D l st, gatherIOs D l start = Some st -> (forall d c k id g, ~ In (Whole d c k id g) l) ->
  map n_name (inputs st) = flat_map (written_inputs D) l.
Proof.
  intros D l st H NW. pose proof H as H0. apply items_grow in H. destruct H as (-> & _ & _). cbn [start inputs app].
  assert (A : forall it, In it l -> map n_name (sel_in (item_ports D it)) = written_inputs D it).
  { intros it I. destruct (accepted_item _ _ _ _ _ H0 I) as (s & s' & E). destruct it as [d c k v|d c k id g|also id g m|id g]; cbn [gather_item item_ports written_inputs] in *.
    - unfold plain in E. destruct (gatherVarNfo true v) as [[n e]|] eqn:V; [|discriminate]. rewrite <- (var_name _ _ _ _ V). destruct d; reflexivity.
    - destruct (NW _ _ _ _ _ I).
    - destruct (d_groups D id) as [vs|]; [|discriminate]. destruct also; [discriminate|]. destruct (group_vars vs []) as [ns|]; [|discriminate]. apply listed_grows in E. destruct E as [_ F]. clear - F.
      induction m as [|i m IH]; [reflexivity|]. inversion F as [|? ? F1 F2]; subst. destruct F1 as (n & LK). cbn [flat_map filter]. rewrite LK. apply look_in in LK. destruct LK as [_ LK]. specialize (IH F2).
      cbn [app]. unfold member_port at 1. rewrite sel_in_port, map_app, IH. destruct (is_input (io_dir i)); cbn [map app with_name n_name]; [rewrite LK|]; reflexivity.
    - destruct (d_ifaces D id) as [m|]; [|discriminate]. clear. induction m as [|i m IH]; [reflexivity|]. cbn [map filter]. unfold member_port at 1. rewrite sel_in_port, map_app, IH.
      destruct (is_input (io_dir i)); reflexivity. }
  clear H0 NW. induction l as [|it l IH]; [reflexivity|]. cbn [flat_map]. rewrite sel_in_app, map_app. rewrite IH by (intros x J; apply A; right; exact J). rewrite (A it (or_introl eq_refl)). reflexivity.
Qed.
Print Assumptions C62_order.

(** Ports whose type comes from the instantiation: plain ones without a type of their own, and every member of an interface. *)
Definition written_params (D : defs) (it : item) : list string :=
  match it with
  | Plain _ _ _ v => match v_type v with TSized _ _ => [] | _ => [v_name v] end
  | Iface id g => match d_ifaces D id with Some l => map (fun i => g ++ "_" ++ io_name i) l | None => [] end
  | _ => []
  end.
Lemma params_port : forall st d c k n, params (add_port st d c k n) = params st.
Proof. intros st [] c k n; reflexivity. Qed.
Theorem C62_parameterized : forall D l st, gatherIOs D l start = Some st -> params st = flat_map (written_params D) l.
Proof.
  intros D l st H. change (params st = (params start ++ flat_map (written_params D) l)%list). revert H. generalize start as s. revert st.
  induction l as [|it l IH]; intros st s H; cbn [gatherIOs] in H; [injection H as <-; rewrite app_nil_r; reflexivity|]. destruct (gather_item D s it) as [s1|] eqn:E; [|discriminate]. rewrite (IH _ _ H). cbn [flat_map]. rewrite app_assoc. f_equal. clear H IH.
  destruct it as [d c k v|d c k id g|also id g m|id g]; cbn [gather_item written_params] in *.
  - unfold plain in E. destruct (gatherVarNfo true v) as [[n e]|] eqn:V; [|discriminate]. destruct (is_group v) eqn:G; [discriminate|].
    match type of E with (if ?b then _ else _) = _ => destruct b end; [discriminate|]. destruct e; [discriminate|]. destruct (found s (n_name n)); [discriminate|]. injection E as <-. cbn [add_param params]. rewrite params_port.
    pose proof (var_name _ _ _ _ V) as VN. unfold is_group in G. unfold gatherVarNfo in V. destruct (v_type v); try discriminate G; destruct (v_init v) as [|[]|[]|]; try discriminate V; injection V as <-; cbn [is_param n_type n_name]; rewrite ?app_nil_r; reflexivity.
  - destruct (d_groups D id) as [vs|]; [|discriminate]. destruct (group_vars vs []) as [ns|]; [|discriminate]. injection E as <-. rewrite app_nil_r. change (params s) with (params (add_group s g (DGroup id))). generalize (add_group s g (DGroup id)) as s0.
    induction (d_order D ns) as [|n r IH]; intro s0; cbn [whole]; [reflexivity|]. rewrite IH, params_port. reflexivity.
  - destruct (d_groups D id) as [vs|]; [|discriminate]. destruct also; [discriminate|]. destruct (group_vars vs []) as [ns|]; [|discriminate]. rewrite app_nil_r. change (params s) with (params (add_group s g (DGroup id))). revert E. generalize (add_group s g (DGroup id)) as s0.
    induction m as [|i m IH]; intros s0 E; cbn [listed] in E; [injection E as <-; reflexivity|]. destruct (find _ ns); [|discriminate]. rewrite (IH _ E), params_port. reflexivity.
  - destruct (d_ifaces D id) as [m|]; [|discriminate]. change (params s) with (params (add_group s g (DIface id))). revert E. generalize (add_group s g (DIface id)) as s0. generalize (@nil string) as seen.
    induction m as [|i m IH]; intros seen s0 E; cbn [iface] in E; [injection E as <-; cbn [map]; rewrite app_nil_r; reflexivity|]. destruct (existsb _ seen); [discriminate|].
    assert (K : iface g m (io_name i :: seen) (add_param (add_port s0 (io_dir i) (io_comb i) (io_nocheck i) (with_name (iface_nfo i) (g ++ "_" ++ io_name i))) true (g ++ "_" ++ io_name i)) = Some s1) by (destruct (io_dir i); destruct (io_init i); try discriminate E; exact E).
    rewrite (IH _ _ K). cbn [add_param params map]. rewrite params_port, <- app_assoc. reflexivity.
Qed.
Print Assumptions C62_parameterized.

(** A group or interface is known under its name, as the first definition given for this name. *)
Definition group_of (it : item) : option (string * gdef) :=
  match it with Whole _ _ _ id g | Listed _ id g _ => Some (g, DGroup id) | Iface id g => Some (g, DIface id) | Plain _ _ _ _ => None end.
Definition stands_for (st : state) (s : string) : option gdef := match find (fun e => String.eqb (fst e) s) (vgroups st) with Some e => Some (snd e) | None => None end.
Lemma stands_keep : forall st g d s x, stands_for st s = Some x -> stands_for (add_group st g d) s = Some x.
Proof.
  intros st g d s x H. unfold stands_for, add_group in *. cbn [vgroups]. destruct (existsb _ (vgroups st)); [exact H|]. induction (vgroups st) as [|e l IH]; [discriminate|]. cbn [find app] in *. destruct (String.eqb (fst e) s); [exact H|exact (IH H)].
Qed.
Lemma stands_port : forall st d c k n s x, stands_for st s = Some x -> stands_for (add_port st d c k n) s = Some x.
Proof. intros st [] c k n s x H; cbn [add_port]; try exact H. apply stands_keep. exact H. Qed.
Lemma stands_new : forall st g d, stands_for st g = None -> stands_for (add_group st g d) g = Some d.
Proof.
  intros st g d H. unfold stands_for, add_group in *. cbn [vgroups].
  assert (E : existsb (fun e => String.eqb (fst e) g) (vgroups st) = false).
  { destruct (existsb (fun e => String.eqb (fst e) g) (vgroups st)) eqn:E; [|reflexivity]. apply existsb_exists in E. destruct E as (e & I & J). destruct (find (fun e => String.eqb (fst e) g) (vgroups st)) eqn:F; [discriminate|]. rewrite (find_none _ _ F e I) in J. discriminate. }
  rewrite E. clear E. induction (vgroups st) as [|e l IH]; cbn [find app fst]; [rewrite String.eqb_refl; reflexivity|]. cbn [find] in H. destruct (String.eqb (fst e) g); [discriminate|exact (IH H)].
Qed.
Lemma stands_item : forall D it st st' s x, gather_item D st it = Some st' ->
  stands_for (match group_of it with Some (g, d) => add_group st g d | None => st end) s = Some x -> stands_for st' s = Some x.
Proof.
  intros D it st st' s x E H. destruct it as [d c k v|d c k id g|also id g m|id g]; cbn [gather_item group_of] in *.
  - unfold plain in E. destruct (gatherVarNfo true v) as [[n e]|]; [|discriminate]. destruct (is_group v); [discriminate|]. match type of E with (if ?b then _ else _) = _ => destruct b end; [discriminate|]. destruct e; [discriminate|]. destruct (found st (n_name n)); [discriminate|]. injection E as <-.
    change (stands_for (add_port st d c k n) s = Some x). apply stands_port. exact H.
  - destruct (d_groups D id) as [vs|]; [|discriminate]. destruct (group_vars vs []) as [ns|]; [|discriminate]. injection E as <-. revert H. generalize (add_group st g (DGroup id)) as s0. induction (d_order D ns) as [|n r IH]; intros s0 H; cbn [whole]; [exact H|]. apply IH, stands_port, H.
  - destruct (d_groups D id) as [vs|]; [|discriminate]. destruct also; [discriminate|]. destruct (group_vars vs []) as [ns|]; [|discriminate]. revert E H. generalize (add_group st g (DGroup id)) as s0. induction m as [|i m IH]; intros s0 E H; cbn [listed] in E; [injection E as <-; exact H|].
    destruct (find _ ns); [|discriminate]. apply (IH _ E), stands_port, H.
  - destruct (d_ifaces D id) as [m|]; [|discriminate]. revert E H. generalize (add_group st g (DIface id)) as s0. generalize (@nil string) as seen. induction m as [|i m IH]; intros seen s0 E H; cbn [iface] in E; [injection E as <-; exact H|]. destruct (existsb _ seen); [discriminate|].
    assert (K : iface g m (io_name i :: seen) (add_param (add_port s0 (io_dir i) (io_comb i) (io_nocheck i) (with_name (iface_nfo i) (g ++ "_" ++ io_name i))) true (g ++ "_" ++ io_name i)) = Some st') by (destruct (io_dir i); destruct (io_init i); try discriminate E; exact E).
    apply (IH _ _ K). match goal with |- stands_for (add_param ?q _ _) s = _ => change (stands_for q s = Some x) end. apply stands_port, H.
Qed.
Theorem C62_known : forall D a it b st st1 g d, gatherIOs D (a ++ it :: b) start = Some st -> gatherIOs D a start = Some st1 -> group_of it = Some (g, d) -> stands_for st1 g = None -> stands_for st g = Some d.
Proof.
  intros D a it b st st1 g d H A G N. rewrite gather_app, A in H. cbn [gatherIOs] in H. destruct (gather_item D st1 it) as [s2|] eqn:E; [|discriminate].
  assert (S2 : stands_for s2 g = Some d) by (apply (stands_item _ _ _ _ _ _ E); rewrite G; apply stands_new; exact N). clear - H S2. revert s2 H S2. induction b as [|x b IH]; intros s2 H S2; cbn [gatherIOs] in H; [injection H as <-; exact S2|].
  destruct (gather_item D s2 x) as [s3|] eqn:E; [|discriminate]. apply (IH s3 H). apply (stands_item _ _ _ _ _ _ E). destruct (group_of x) as [[g' d']|]; [apply stands_keep|]; exact S2.
Qed.
Print Assumptions C62_known.

(** A plain port has no name of a port declared before it. *)
Theorem C62_plain_fresh : forall D a d c k v b st st1, gatherIOs D (a ++ Plain d c k v :: b) start = Some st -> gatherIOs D a start = Some st1 ->
  (forall n, In n (inputs st1) -> n_name n <> v_name v) /\ (forall n x y, In (n, x, y) (outputs st1) -> n_name n <> v_name v) /\ (forall n x, In (n, x) (inouts st1) -> n_name n <> v_name v).
Proof.
  intros D a d c k v b st st1 H A. rewrite gather_app, A in H. cbn [gatherIOs gather_item] in H. unfold plain in H. destruct (gatherVarNfo true v) as [[n e]|] eqn:E; [|discriminate]. rewrite <- (var_name _ _ _ _ E).
  assert (F : found st1 (n_name n) = false).
  { destruct (is_group v); [discriminate|]. match type of H with match (if ?b then _ else _) with _ => _ end = _ => destruct b end; [discriminate|]. destruct e; [discriminate|]. destruct (found st1 (n_name n)); [discriminate|reflexivity]. }
  unfold found in F. apply orb_false_iff in F. destruct F as [F F3]. apply orb_false_iff in F. destruct F as [F1 F2].
  assert (K : forall A (f : A -> bool) l x, existsb f l = false -> In x l -> f x = false).
  { intros T f l x X I. destruct (f x) eqn:Y; [|reflexivity]. assert (existsb f l = true) by (apply existsb_exists; exists x; auto). congruence. }
  split; [|split].
  - intros m I. apply (K _ _ _ _ F1) in I. apply String.eqb_neq in I. exact I.
  - intros m x y I. apply (K _ _ _ _ F2) in I. apply String.eqb_neq in I. exact I.
  - intros m x I. apply (K _ _ _ _ F3) in I. apply String.eqb_neq in I. exact I.
Qed.
Print Assumptions C62_plain_fresh.

(** What is accepted: groups and interfaces exist, members listed are members of the group, members are declared once, with a type and an initial value;
    a list and a direction are not both given; inputs of interfaces have no initial value. *)
Theorem C62_accepted : forall D l st it, gatherIOs D l start = Some st -> In it l ->
  match it with
  | Plain _ _ _ v => v_type v <> TSameGroup /\ v_init v <> VExpr
  | Whole _ _ _ id _ => exists vs, d_groups D id = Some vs /\ NoDup (map v_name vs) /\ Forall (fun v => (exists s w, v_type v = TSized s w) /\ v_init v <> VExpr /\ v_init v <> VNone) vs
  | Listed also id _ m => also = false /\ exists vs, d_groups D id = Some vs /\ NoDup (map v_name vs) /\ Forall (fun v => (exists s w, v_type v = TSized s w) /\ v_init v <> VExpr /\ v_init v <> VNone) vs
      /\ Forall (fun i => In (io_name i) (map v_name vs)) m
  | Iface id _ => exists m, d_ifaces D id = Some m /\ NoDup (map io_name m) /\ Forall (fun i => io_dir i = Input -> io_init i = None) m
  end.
Proof.
  assert (G : forall vs ns, group_vars vs [] = Some ns -> map v_name vs = map n_name ns /\ NoDup (map v_name vs) /\ Forall (fun v => (exists s w, v_type v = TSized s w) /\ v_init v <> VExpr /\ v_init v <> VNone) vs).
  { intros vs ns H. destruct (group_vars_all _ _ _ H) as (ms & EQ & F & ND). cbn [app] in EQ. subst ms. specialize (ND (NoDup_nil _)). clear H.
    assert (M : map v_name vs = map n_name ns).
    { clear ND. induction F as [|v n vs ns [E P] F IH]; [reflexivity|]. cbn [map]. rewrite IH, (var_name _ _ _ _ E). reflexivity. }
    split; [exact M|]. split; [rewrite M; exact ND|]. apply Forall_forall. intros v V. destruct (forall2_in_l _ _ _ _ _ _ F V) as (n & _ & E & P). unfold gatherVarNfo in E.
    destruct (v_type v) as [s w| | |] eqn:T; destruct (v_init v) as [|[]|[]|] eqn:I; try discriminate E; injection E as <-; cbn in P; try discriminate P; (split; [exists s, w; reflexivity|split; discriminate]). }
  intros D l st it H I. destruct (accepted_item _ _ _ _ _ H I) as (s & s' & E). destruct it as [d c k v|d c k id g|also id g m|id g]; cbn [gather_item] in E.
  - unfold plain in E. destruct (gatherVarNfo true v) as [[n e]|] eqn:V; [|discriminate]. unfold is_group in E. unfold gatherVarNfo in V. split.
    + intro T. rewrite T in E. discriminate.
    + intro T. rewrite T in V. destruct (v_type v); injection V as <- <-; try discriminate E; match type of E with (if ?b then _ else _) = _ => destruct b end; discriminate E.
  - destruct (d_groups D id) as [vs|]; [|discriminate]. destruct (group_vars vs []) as [ns|] eqn:GV; [|discriminate]. destruct (G _ _ GV) as (_ & A & B). exists vs. auto.
  - destruct (d_groups D id) as [vs|]; [|discriminate]. destruct also; [discriminate|]. destruct (group_vars vs []) as [ns|] eqn:GV; [|discriminate]. destruct (G _ _ GV) as (M & A & B). split; [reflexivity|]. exists vs. split; [reflexivity|]. split; [exact A|]. split; [exact B|].
    apply listed_grows in E. destruct E as [_ F]. apply Forall_forall. intros i J. destruct (proj1 (Forall_forall _ _) F i J) as (n & LK). apply look_in in LK. destruct LK as [P Q]. rewrite M, <- Q. apply in_map. exact P.
  - destruct (d_ifaces D id) as [m|]; [|discriminate]. apply iface_grows in E. destruct E as (_ & A & _ & B). exists m. auto.
Qed.
Print Assumptions C62_accepted.

(** A group declared in the body: one variable for each member, as the group says, with names not taken. *)
Theorem C62_variables : forall D used id g vars, declare_group D used id g = Some vars -> exists vs, d_groups D id = Some vs
  /\ Forall2 (fun v n => of_var v (g ++ "_" ++ v_name v) n) vs vars /\ NoDup (map n_name vars) /\ (forall n, In n vars -> ~ In (n_name n) used) /\ ~ In g used.
Proof.
  intros D used id g vars H. unfold declare_group in H. destruct (existsb (String.eqb g) used) eqn:U; [discriminate|]. destruct (d_groups D id) as [vs|]; [|discriminate]. exists vs. split; [reflexivity|].
  assert (NI : forall s l, existsb (String.eqb s) l = false -> ~ In s l).
  { intros s l X J. assert (existsb (String.eqb s) l = true) by (apply existsb_exists; exists s; split; [exact J|apply String.eqb_refl]). congruence. }
  assert (K : forall l acc out, group_variables g used l acc = Some out -> exists ms, out = (acc ++ ms)%list /\ Forall2 (fun v n => of_var v (g ++ "_" ++ v_name v) n) l ms
    /\ NoDup (map n_name ms) /\ (forall n, In n ms -> ~ In (n_name n) used /\ ~ In (n_name n) (map n_name acc))).
  { induction l as [|v l IH]; intros acc out E; cbn [group_variables] in E.
    - injection E as <-. exists []. rewrite app_nil_r. split; [reflexivity|]. split; [constructor|]. split; [constructor|intros n []].
    - destruct (gatherVarNfo false v) as [[n e]|] eqn:V; [|discriminate]. destruct e; [discriminate|]. destruct (is_param n) eqn:P; [discriminate|].
      destruct (existsb (String.eqb (g ++ "_" ++ n_name n)) (used ++ map n_name acc)) eqn:X; [discriminate|]. apply NI in X. destruct (IH _ _ E) as (ms & -> & F & N & Q).
      exists (with_name n (g ++ "_" ++ n_name n) :: ms). split; [rewrite <- app_assoc; reflexivity|]. split; [|split].
      + constructor; [|exact F]. apply (of_var_eq false v n false); [exact V|exact (not_param _ _ _ _ V P)|]. rewrite (var_name _ _ _ _ V). reflexivity.
      + cbn [map]. constructor; [|exact N]. intro J. apply in_map_iff in J. destruct J as (m & EM & IM). apply (proj2 (Q m IM)). rewrite EM, map_app. apply in_or_app. right. left. reflexivity.
      + intros m [<-|J]; [cbn [with_name n_name]; split; intro Y; apply X; apply in_or_app; auto|]. destruct (Q m J) as [Q1 Q2]. split; [exact Q1|]. intro Y. apply Q2. rewrite map_app. apply in_or_app. left. exact Y. }
  destruct (K _ _ _ H) as (ms & EQ & F & N & Q). cbn [app] in EQ. subst ms. split; [exact F|]. split; [exact N|]. split; [intros n J; exact (proj1 (Q n J))|exact (NI _ _ U)].
Qed.
Print Assumptions C62_variables.

(** A bus: group of an address, a write enable and data. *)
Definition bus_vars : list var :=
  [{| v_name := "addr"; v_type := TSized false 16; v_init := VSet (Some "0"); v_attr := "" |};
   {| v_name := "wen"; v_type := TSized false 1; v_init := VSet (Some "0"); v_attr := "" |};
   {| v_name := "data"; v_type := TSized true 8; v_init := VCstr None; v_attr := "" |}].
Definition ioe (d : dir) (c : bool) (s : string) : io := {| io_dir := d; io_comb := c; io_nocheck := false; io_name := s; io_init := None |}.
Definition ex_defs (o : list nfo -> list nfo) : defs :=
  {| d_groups := fun s => if String.eqb s "bus" then Some bus_vars else None;
     d_ifaces := fun s => if String.eqb s "user" then Some [ioe Output true "addr"; ioe Output false "wen"; ioe Input false "data"] else None; d_order := o |}.
Definition ex_items : list item :=
  [Plain Input false false {| v_name := "clk2"; v_type := TSized false 1; v_init := VNone; v_attr := "" |};
   Listed false "bus" "b" [ioe Input false "addr"; ioe Input false "wen"; ioe Output true "data"]; Iface "user" "u"; Whole Output false true "bus" "dbg"].
Example C62_ex : match gatherIOs (ex_defs (fun l => l)) ex_items start with
  | Some st => map n_name (inputs st) = ["clk2"; "b_addr"; "b_wen"; "u_data"]
      /\ map (fun e => (n_name (fst (fst e)), snd (fst e), snd e)) (outputs st) = [("b_data", true, false); ("u_addr", true, false); ("u_wen", false, false); ("dbg_addr", true, true); ("dbg_wen", true, true); ("dbg_data", true, true)]
      /\ params st = ["u_addr"; "u_wen"; "u_data"]
  | None => False end.
Proof. vm_compute. split; [reflexivity|]. split; reflexivity. Qed.
Example C62_order_ex : exists st, gatherIOs (ex_defs (fun l => l)) (firstn 3 ex_items) start = Some st /\ flat_map (written_inputs (ex_defs (fun l => l))) (firstn 3 ex_items) = ["clk2"; "b_addr"; "b_wen"; "u_data"].
Proof. eexists. split; vm_compute; reflexivity. Qed.
Example C62_any_order_ex : any_order (ex_defs (fun l => l)) /\ any_order (ex_defs (@rev nfo)).
Proof. split; intro l; cbn [d_order ex_defs]; [apply Permutation_refl|apply Permutation_sym, Permutation_rev]. Qed.
Example C62_variables_ex : match declare_group (ex_defs (fun l => l)) ["x"] "bus" "m" with Some vs => map n_name vs = ["m_addr"; "m_wen"; "m_data"] | None => False end
  /\ declare_group (ex_defs (fun l => l)) ["m_wen"] "bus" "m" = None.
Proof. split; vm_compute; reflexivity. Qed.

(** Members of groups are not compared with other ports: a member can have the name of a port before it, and a member can be listed twice, as input and as output. *)
Theorem C62_twice_refuted : exists D st st', gatherIOs D [Plain Input false false {| v_name := "b_wen"; v_type := TSized false 4; v_init := VNone; v_attr := "" |}; Listed false "bus" "b" [ioe Input false "wen"]] start = Some st
  /\ map n_name (inputs st) = ["b_wen"; "b_wen"]
  /\ gatherIOs D [Listed false "bus" "b" [ioe Input false "wen"; ioe Output false "wen"]] start = Some st' /\ map n_name (inputs st') = ["b_wen"] /\ map (fun e => n_name (fst (fst e))) (outputs st') = ["b_wen"].
Proof. eexists (ex_defs (fun l => l)), _, _. split; [vm_compute; reflexivity|]. split; [reflexivity|]. split; [vm_compute; reflexivity|]. split; reflexivity. Qed.
Print Assumptions C62_twice_refuted.
(** The initial value written beside a member in the list of a group is ignored. *)
Theorem C62_value_refuted : exists D i st, io_init i = Some (Some "5") /\ gatherIOs D [Listed false "bus" "b" [i]] start = Some st
  /\ map (fun e => n_init (fst (fst e))) (outputs st) = [Some "0"].
Proof.
  exists (ex_defs (fun l => l)), {| io_dir := Output; io_comb := false; io_nocheck := false; io_name := "addr"; io_init := Some (Some "5") |}. eexists.
  split; [reflexivity|]. split; [vm_compute; reflexivity|reflexivity].
Qed.
Print Assumptions C62_value_refuted.
(** Checks of initial values of plain ports are not made on members of groups: the same declaration is an error, or accepted. *)
Theorem C62_checks_refuted : exists D v st, In v bus_vars /\ d_groups D "bus" = Some bus_vars /\ gatherIOs D [Plain Input false false v] start = None /\ gatherIOs D [Plain InOut false false v] start = None
  /\ gatherIOs D [Listed false "bus" "b" [ioe Input false (v_name v); ioe InOut false "wen"]] start = Some st.
Proof.
  exists (ex_defs (fun l => l)), {| v_name := "addr"; v_type := TSized false 16; v_init := VSet (Some "0"); v_attr := "" |}. eexists. split; [left; reflexivity|]. split; [reflexivity|]. split; [reflexivity|]. split; [reflexivity|vm_compute; reflexivity].
Qed.
Print Assumptions C62_checks_refuted.
(** With a direction for the whole group the order of the ports is the one of the map used by the compiler. *)
Theorem C62_order_refuted : exists D D' st st', any_order D /\ any_order D' /\ d_groups D = d_groups D' /\ gatherIOs D [Whole Input false false "bus" "b"] start = Some st /\ gatherIOs D' [Whole Input false false "bus" "b"] start = Some st'
  /\ map n_name (inputs st) = ["b_addr"; "b_wen"; "b_data"] /\ map n_name (inputs st') = ["b_data"; "b_wen"; "b_addr"].
Proof.
  eexists (ex_defs (fun l => l)), (ex_defs (@rev nfo)), _, _. split; [apply C62_any_order_ex|]. split; [apply C62_any_order_ex|]. split; [reflexivity|]. split; [vm_compute; reflexivity|]. split; [vm_compute; reflexivity|]. split; reflexivity.
Qed.
Print Assumptions C62_order_refuted.
(** Two groups of the same name are accepted, the name stands for the first. *)
Theorem C62_same_name_refuted : exists D st, gatherIOs D [Listed false "bus" "b" [ioe Input false "addr"]; Iface "user" "b"] start = Some st
  /\ vgroups st = [("b", DGroup "bus")] /\ map (fun e => n_name (fst (fst e))) (outputs st) = ["b_addr"; "b_wen"].
Proof. eexists (ex_defs (fun l => l)), _. split; [vm_compute; reflexivity|]. split; reflexivity. Qed.
Print Assumptions C62_same_name_refuted.
