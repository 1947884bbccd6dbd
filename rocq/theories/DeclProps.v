(** C64: every signal used for a variable or an output is declared, once, with its type and size; variables never assigned have the value of their declaration. *)
From Coq Require Import String Ascii List Bool Arith ZArith Lia.
Import ListNotations.
From Verif Require Import DeclModel.
Open Scope string_scope.

Lemma acc_eqb_true a b : acc_eqb a b = true <-> a = b.
Proof.
  destruct a as [a1 a2 a3 a4 a5], b as [b1 b2 b3 b4 b5]. unfold acc_eqb. cbn [rd wr bout bio iff]. split.
  - intro H. repeat (apply andb_true_iff in H; destruct H as [H ?]). repeat match goal with X : Bool.eqb _ _ = true |- _ => apply eqb_prop in X end. congruence.
  - intro E. injection E as -> -> -> -> ->. rewrite !eqb_reflx. reflexivity.
Qed.
Lemma acc_eqb_refl a : acc_eqb a a = true. Proof. apply acc_eqb_true. reflexivity. Qed.
Lemma acc_eqb_false a b : acc_eqb a b = false <-> a <> b.
Proof. destruct (acc_eqb a b) eqn:E; split; intro H; try discriminate H; [apply acc_eqb_true in E; contradiction| intro Q; apply acc_eqb_true in Q; congruence|reflexivity]. Qed.

Lemma same_name : forall s v, v_name (refine s v) = v_name v /\ v_type (refine s v) = v_type v /\ v_size (refine s v) = v_size v /\ v_acc (refine s v) = v_acc v /\ v_init (refine s v) = v_init v
  /\ v_same (refine s v) = v_same v.
Proof.
  intros s v. unfold refine, promote, demote_temp, demote_flip.
  destruct (s_q s) as [[|]|]; repeat match goal with |- context [if ?b then _ else _] => destruct b end; repeat split.
Qed.

(** What the unit has once both passes are done: each variable settled on its own, from what the passes tell of it. *)
Definition settled (v0 v : var) : Prop := exists read s, settle read s v0 = Some v.
Definition settled_out (v0 v : var) : Prop := exists fsm s, v = settle_out fsm s v0.
Lemma settled_same v0 v : settled v0 v -> v_name v = v_name v0 /\ v_type v = v_type v0 /\ v_size v = v_size v0 /\ v_acc v = v_acc v0 /\ v_init v = v_init v0 /\ v_same v = v_same v0.
Proof.
  intros (r & s & H). unfold settle in H. destruct (usage_of r v0) as [u|]; [|discriminate H]. injection H as <-.
  destruct (same_name s (set_use v0 u)) as (A & B & C & D & E & F). rewrite A, B, C, D, E, F. repeat split.
Qed.
Lemma settled_out_same v0 v : settled_out v0 v -> v_name v = v_name v0 /\ v_type v = v_type v0 /\ v_size v = v_size v0.
Proof. intros (f & s & ->). unfold settle_out, refine_out. destruct (s_q s) as [[|]|]; try (repeat split; fail). destruct (_ && _); repeat split. Qed.

(** The usages there can be at the end, by cases on all of the flags. *)
Lemma settled_use v0 v : settled v0 v -> v_acc v0 <> NotAccessed -> v_use v <> NotUsed /\ v_use v <> Undetermined /\
  (v_use v = Const -> v_acc v = ReadOnly \/ v_size v = 0) /\ (v_use v = Temporary -> v_size v = 0).
Proof.
  intros (r & s & H) N. unfold settle in H. destruct (usage_of r v0) as [u|] eqn:U; [|discriminate H]. injection H as <-.
  assert (Z : v_size v0 = 0 \/ Nat.eqb (v_size v0) 0 = false) by (destruct (Nat.eqb_spec (v_size v0) 0); [left; assumption|right; reflexivity]).
  assert (K : u <> NotUsed /\ u <> Undetermined /\ (u = Const -> v_acc v0 = ReadOnly) /\ (u = Temporary -> v_size v0 = 0)).
  { unfold usage_of in U. destruct (v_use v0); try discriminate U; try (injection U as <-; repeat split; discriminate).
    destruct (acc_eqb (v_acc v0) ReadOnly) eqn:E1; [apply acc_eqb_true in E1; injection U as <-; repeat split; try discriminate; intros _; exact E1|].
    destruct (acc_eqb (v_acc v0) WriteOnly); [unfold scalar in U; destruct (Nat.eqb_spec (v_size v0) 0); injection U as <-; repeat split; try discriminate; intros _; assumption|].
    destruct (_ || _); [injection U as <-; repeat split; discriminate|].
    destruct (_ || _); [injection U as <-; repeat split; discriminate|].
    destruct (iff (v_acc v0)); [injection U as <-; repeat split; discriminate|].
    destruct (acc_eqb (v_acc v0) ReadAndWrite).
    { unfold scalar in U; destruct (Nat.eqb_spec (v_size v0) 0); cbn [andb] in U; [destruct (negb r)|]; injection U as <-; repeat split; try discriminate; intros _; assumption. }
    destruct (acc_eqb (v_acc v0) NotAccessed) eqn:E2; [apply acc_eqb_true in E2; contradiction|].
    destruct (acc_eqb (v_acc v0) BoundToInOut); [injection U as <-; repeat split; discriminate|discriminate U]. }
  destruct K as (K1 & K2 & K3 & K4). destruct (same_name s (set_use v0 u)) as (_ & _ & ES & EA & _). cbn [set_use v_size v_acc] in ES, EA. rewrite ES, EA. clear ES EA.
  unfold refine, promote, demote_temp, demote_flip, scalar.
  destruct u; try contradiction; cbn [set_use v_use usage_eqb v_size v_acc andb];
    (destruct (Nat.eqb_spec (v_size v0) 0) as [S0|S0]);
    destruct (s_stable s) as [[|]|]; destruct (s_q s) as [[|]|]; cbn [set_use no_init v_use usage_eqb v_size v_acc andb negb];
    try (destruct (acc_eqb (v_acc v0) ReadOnly) eqn:E1; cbn [set_use no_init v_use usage_eqb v_size v_acc andb negb]; try apply acc_eqb_true in E1);
    try rewrite S0; try rewrite (proj2 (Nat.eqb_neq _ _) S0); cbn [Nat.eqb set_use no_init v_use usage_eqb v_size v_acc andb negb];
    repeat split; try discriminate; intros; try (left; apply K3; reflexivity); try (left; assumption); try (right; assumption); try (right; reflexivity); try assumption; try (specialize (K4 eq_refl); contradiction).
Qed.
(** Outputs are registers, temporaries, or bound. *)
Lemma settled_out_use v0 v : settled_out v0 v -> v_use v = FlipFlop \/ v_use v = Temporary \/ v_use v = Bound.
Proof.
  intros (f & s & ->). unfold settle_out, refine_out, out_usage.
  destruct (s_q s) as [[|]|]; repeat match goal with |- context [if ?b then _ else _] => destruct b end; cbn [set_use v_use]; auto.
Qed.

(** ** Declarations of one name. *)
Lemma filter_flat_map {A B} (p : B -> bool) (f : A -> list B) l : filter p (flat_map f l) = flat_map (fun x => filter p (f x)) l.
Proof. induction l as [|x l IH]; [reflexivity|]. cbn [flat_map]. rewrite filter_app, IH. reflexivity. Qed.
Lemma flat_map_none {A B} (f : A -> list B) l : (forall x, In x l -> f x = []) -> flat_map f l = [].
Proof. induction l as [|x l IH]; intro H; [reflexivity|]. cbn [flat_map]. rewrite (H x (or_introl eq_refl)), IH; [reflexivity|]. intros y Y. apply H. right. exact Y. Qed.
Lemma flat_map_one {B} (f : var -> list B) l v : NoDup (map v_name l) -> In v l -> (forall u, In u l -> v_name u <> v_name v -> f u = []) -> flat_map f l = f v.
Proof.
  induction l as [|x l IH]; intros N I0 H; [destruct I0|]. cbn [map] in N. apply NoDup_cons_iff in N. destruct N as [NI N]. cbn [flat_map]. destruct I0 as [ ->|I0].
  - rewrite flat_map_none; [apply app_nil_r|]. intros y Y. apply H; [right; exact Y|]. intro E. apply NI. rewrite <- E. apply in_map. exact Y.
  - rewrite (H x (or_introl eq_refl)), (IH N I0); [reflexivity| |]; [intros u Y; apply H; right; exact Y|]. intro E. apply NI. rewrite E. apply in_map. exact I0.
Qed.

Definition named (s : string) (k : decl) : bool := String.eqb (k_name k) s.
Definition letter (s : string) (c : ascii) (n : string) : Prop := s = String "_"%char (String c (String "_"%char n)).
Lemma other_filter (p : var -> list decl) s c n : letter s c n ->
  (forall u k, In k (p u) -> exists c', letter (k_name k) c' (v_name u)) -> forall u, v_name u <> n -> filter (named s) (p u) = [].
Proof.
  intros L H u NE. pose proof (H u) as Hu. clear H. induction (p u) as [|k r IH]; [reflexivity|]. cbn [filter]. destruct (Hu k (or_introl eq_refl)) as (c' & L').
  assert (F : named s k = false).
  { unfold named. apply String.eqb_neq. unfold letter in L, L'. rewrite L', L. intro E. injection E. intros. contradiction. }
  rewrite F. apply IH. intros k0 K0. apply Hu. right. exact K0.
Qed.
Ltac letters := intros u k H; repeat match type of H with context [if ?b then _ else _] => destruct b end; repeat (destruct H as [H|H]; [subst k; eexists; reflexivity|]); destruct H.
Lemma temp_letter u k : In k (temp_decl u) -> exists c, letter (k_name k) c (v_name u).
Proof. revert u k. unfold temp_decl. letters. Qed.
Lemma const_letter u k : In k (const_decl u) -> exists c, letter (k_name k) c (v_name u).
Proof. revert u k. unfold const_decl. letters. Qed.
Lemma flip_letter u k : In k (flip_decl u) -> exists c, letter (k_name k) c (v_name u).
Proof. revert u k. unfold flip_decl. letters. Qed.
Lemma wire_letter u k : In k (wire_decl false u) -> exists c, letter (k_name k) c (v_name u).
Proof. revert u k. unfold wire_decl. intros u k. rewrite andb_false_r. revert u k. letters. Qed.

(** Names of the variables and of the outputs are all different ([addVar] refuses others, src/Algorithm.cpp 551-580). *)
Definition names_ok (vars outs : list var) : Prop := NoDup (map v_name vars) /\ NoDup (map v_name outs) /\ (forall v o, In v vars -> In o outs -> v_name v <> v_name o).
Lemma decls_of_var vars outs v s c : names_ok vars outs -> In v vars -> letter s c (v_name v) ->
  filter (named s) (decls false vars outs) = (filter (named s) (temp_decl v) ++ filter (named s) (const_decl v) ++ filter (named s) (wire_decl false v) ++ filter (named s) (flip_decl v))%list.
Proof.
  intros (N1 & N2 & N3) I0 L. unfold decls. rewrite !filter_app, !filter_flat_map.
  rewrite (flat_map_one (fun x => filter (named s) (temp_decl x)) vars v N1 I0 (fun u _ => other_filter _ s c _ L temp_letter u)).
  rewrite (flat_map_one (fun x => filter (named s) (const_decl x)) vars v N1 I0 (fun u _ => other_filter _ s c _ L const_letter u)).
  rewrite (flat_map_one (fun x => filter (named s) (wire_decl false x)) vars v N1 I0 (fun u _ => other_filter _ s c _ L wire_letter u)).
  rewrite (flat_map_one (fun x => filter (named s) (flip_decl x)) vars v N1 I0 (fun u _ => other_filter _ s c _ L flip_letter u)).
  rewrite (flat_map_none (fun x => filter (named s) (temp_decl x)) outs), (flat_map_none (fun x => filter (named s) (flip_decl x)) outs); [rewrite app_nil_r; reflexivity| |];
    intros o O; [apply (other_filter _ s c _ L flip_letter)|apply (other_filter _ s c _ L temp_letter)]; intro E; exact (N3 v o I0 O (eq_sym E)).
Qed.
Lemma decls_of_out vars outs v s c : names_ok vars outs -> In v outs -> letter s c (v_name v) ->
  filter (named s) (decls false vars outs) = (filter (named s) (temp_decl v) ++ filter (named s) (flip_decl v))%list.
Proof.
  intros (N1 & N2 & N3) I0 L. unfold decls. rewrite !filter_app, !filter_flat_map.
  rewrite (flat_map_one (fun x => filter (named s) (temp_decl x)) outs v N2 I0 (fun u _ => other_filter _ s c _ L temp_letter u)).
  rewrite (flat_map_one (fun x => filter (named s) (flip_decl x)) outs v N2 I0 (fun u _ => other_filter _ s c _ L flip_letter u)).
  rewrite (flat_map_none (fun x => filter (named s) (temp_decl x)) vars), (flat_map_none (fun x => filter (named s) (flip_decl x)) vars),
    (flat_map_none (fun x => filter (named s) (const_decl x)) vars), (flat_map_none (fun x => filter (named s) (wire_decl false x)) vars); [reflexivity| | | |];
    intros o O; [apply (other_filter _ s c _ L wire_letter)|apply (other_filter _ s c _ L const_letter)|apply (other_filter _ s c _ L flip_letter)|apply (other_filter _ s c _ L temp_letter)]; exact (N3 o v O I0).
Qed.

(** A signal is a register, except for constants and wires. *)
Definition is_reg (v : var) : bool := match v_use v with Const | Wire => false | _ => true end.
Ltac nofilter := cbn [filter]; unfold named; cbn [declare k_name]; unfold d_of, q_of, t_of, c_of, w_of; cbn [append String.eqb Ascii.eqb Bool.eqb andb]; rewrite ?String.eqb_refl; reflexivity.

(** The signal used for a variable that is accessed is declared exactly once in the module, with the type of the variable and the size of the table. *)
Theorem C64_declared : forall vars outs v0 v ffd dep s, names_ok vars outs -> In v vars -> settled v0 v -> v_acc v0 <> NotAccessed -> var_signal ffd dep v = Sig s ->
  filter (fun k => String.eqb (k_name k) s) (decls false vars outs) = [mkDecl (is_reg v) s (v_type v0) (v_size v0)].
Proof.
  intros vars outs v0 v ffd dep s N I0 S A H. change (fun k => String.eqb (k_name k) s) with (named s).
  destruct (settled_same v0 v S) as (_ & ET & ES & EA & _). destruct (settled_use v0 v S A) as (U1 & U2 & U3 & _). rewrite <- ET, <- ES. rewrite <- EA in A.
  unfold var_signal, is_define, scalar in H.
  assert (G : exists c, letter s c (v_name v)).
  { destruct (v_use v); try discriminate H; try contradiction; [destruct (_ && _); [discriminate H|]| | |]; try (injection H as <-; eexists; reflexivity).
    unfold flip_signal in H. destruct (ffd || dep); injection H as <-; eexists; reflexivity. }
  destruct G as (c & L). rewrite (decls_of_var vars outs v s c N I0 L). clear c L.
  unfold temp_decl, const_decl, wire_decl, flip_decl, is_reg. unfold flip_signal in H. destruct (v_use v) eqn:U; try contradiction; try discriminate H; cbn [usage_eqb negb andb orb].
  - destruct (acc_eqb (v_acc v) ReadOnly) eqn:E; cbn [negb]; cbn [usage_eqb negb andb] in H.
    + rewrite !andb_false_r in H. injection H as <-. nofilter.
    + destruct (U3 eq_refl) as [X|X]; [apply acc_eqb_false in E; contradiction|]. rewrite X in H. discriminate H.
  - injection H as <-. nofilter.
  - destruct (ffd || dep); injection H as <-; nofilter.
  - apply acc_eqb_false in A. rewrite A, andb_false_r. injection H as <-. nofilter.
Qed.
Print Assumptions C64_declared.
(** When inouts are split in three signals, the same holds of a variable whose name is not the one of such a signal. *)
Theorem C64_declared_split : forall vars outs v0 v ffd dep s, names_ok vars outs -> In v vars -> settled v0 v -> v_acc v0 <> NotAccessed -> v_acc v0 <> BoundToInOut ->
  (forall u x, In u vars -> v_acc u = BoundToInOut -> In x ["_oe"; "_o"; "_i"] -> v_name v <> v_name u ++ x) -> var_signal ffd dep v = Sig s ->
  filter (fun k => String.eqb (k_name k) s) (decls true vars outs) = [mkDecl (is_reg v) s (v_type v0) (v_size v0)].
Proof.
  intros vars outs v0 v ffd dep s N I0 S A NB F H. rewrite <- (C64_declared vars outs v0 v ffd dep s N I0 S A H). change (fun k => String.eqb (k_name k) s) with (named s).
  assert (G : exists c, letter s c (v_name v)).
  { unfold var_signal, flip_signal in H. destruct (v_use v); try discriminate H; try (destruct (is_define v); [discriminate H|]); try (destruct (ffd || dep)); injection H as <-; eexists; reflexivity. }
  destruct G as (c & L). destruct (settled_same v0 v S) as (_ & _ & _ & EA & _). rewrite <- EA in NB. apply acc_eqb_false in NB.
  assert (W : flat_map (fun x => filter (named s) (wire_decl true x)) vars = flat_map (fun x => filter (named s) (wire_decl false x)) vars).
  { destruct N as (N1 & _ & _).
    rewrite (flat_map_one (fun x => filter (named s) (wire_decl false x)) vars v N1 I0 (fun u _ => other_filter _ s c _ L wire_letter u)).
    rewrite (flat_map_one (fun x => filter (named s) (wire_decl true x)) vars v N1 I0).
    - unfold wire_decl. rewrite NB, !andb_false_l. reflexivity.
    - intros u IU NE. destruct (acc_eqb (v_acc u) BoundToInOut) eqn:B.
      + apply acc_eqb_true in B. assert (P : forall x, In x ["_oe"; "_o"; "_i"] -> named s (declare false u (w_of u ++ x)) = false).
        { intros x X. unfold named. apply String.eqb_neq. unfold letter in L. rewrite L. cbn. intro E. injection E as _ E. exact (F u x IU B X (eq_sym E)). }
        unfold wire_decl. rewrite B. change (acc_eqb BoundToInOut NotAccessed) with false. change (acc_eqb BoundToInOut BoundToInOut) with true. cbn [andb].
        destruct (_ || _); [|reflexivity]. cbn [map filter]. rewrite !P; [reflexivity|cbn; auto|cbn; auto|cbn; auto].
      + rewrite <- (other_filter _ s c _ L wire_letter u NE). unfold wire_decl. rewrite B, !andb_false_l. reflexivity. }
  unfold decls. rewrite !filter_app, !filter_flat_map, W. reflexivity.
Qed.
Print Assumptions C64_declared_split.
(** The same for outputs. *)
Theorem C64_output_declared : forall vars outs v0 v ffd dep s, names_ok vars outs -> In v outs -> settled_out v0 v -> out_signal ffd dep v = Sig s ->
  filter (fun k => String.eqb (k_name k) s) (decls false vars outs) = [mkDecl true s (v_type v0) (v_size v0)].
Proof.
  intros vars outs v0 v ffd dep s N I0 S H. change (fun k => String.eqb (k_name k) s) with (named s). destruct (settled_out_same v0 v S) as (_ & ET & ES). rewrite <- ET, <- ES.
  unfold out_signal, flip_signal in H.
  assert (G : exists c, letter s c (v_name v)).
  { destruct (v_use v); try discriminate H; [injection H as <-; eexists; reflexivity|]. destruct (ffd || dep); injection H as <-; eexists; reflexivity. }
  destruct G as (c & L). rewrite (decls_of_out vars outs v s c N I0 L). clear c L. unfold temp_decl, flip_decl. destruct (v_use v); try discriminate H; cbn [usage_eqb negb].
  - injection H as <-. nofilter.
  - destruct (ffd || dep); injection H as <-; nofilter.
Qed.
Print Assumptions C64_output_declared.
(** An output has a signal, or is bound: never an internal error. *)
Theorem C64_output_signal : forall v0 v ffd dep, settled_out v0 v -> out_signal ffd dep v <> Internal.
Proof. intros v0 v ffd dep S. unfold out_signal, flip_signal. destruct (settled_out_use v0 v S) as [ ->|[ ->| ->]]; discriminate. Qed.
Print Assumptions C64_output_signal.

(** Nothing else is declared: each declaration is the signal used on one of the two sides for a variable or output, or is for an inout bound to the variable; and the
    variable is accessed. *)
Theorem C64_only : forall vars outs k, (forall v, In v vars -> exists v0, settled v0 v) -> In k (decls false vars outs) ->
  (exists v ffd, In v vars /\ v_acc v <> NotAccessed /\ (var_signal ffd false v = Sig (k_name k) \/ v_acc v = BoundToInOut)) \/
  (exists v ffd, In v outs /\ out_signal ffd false v = Sig (k_name k)).
Proof.
  intros vars outs k S H. unfold decls in H.
  assert (NA : forall v, In v vars -> v_use v <> NotUsed -> v_use v <> Wire -> v_use v <> Bound -> v_acc v <> NotAccessed).
  { intros v V X1 X2 X3 E. destruct (S v V) as (v0 & r & s & Q). unfold settle in Q. destruct (usage_of r v0) as [u|] eqn:U; [|discriminate Q]. injection Q as <-.
    destruct (same_name s (set_use v0 u)) as (_ & _ & _ & EA & _). rewrite EA in E. cbn [set_use v_acc] in E. unfold usage_of in U. rewrite E in U.
    destruct (v_use v0); try discriminate U; cbn in U; injection U as <-; revert X1 X2 X3; unfold refine, promote, demote_temp, demote_flip; cbn [set_use v_use usage_eqb andb];
      destruct (s_q s) as [[|]|]; cbn [set_use v_use usage_eqb andb]; congruence. }
  rewrite !in_app_iff, !in_flat_map in H. destruct H as [(v & V & H)|[(v & V & H)|[(v & V & H)|[(v & V & H)|[(v & V & H)|(v & V & H)]]]]].
  - unfold temp_decl in H. destruct (v_use v) eqn:U; try (destruct H; fail). destruct H as [<-|[]]. left. exists v, true. split; [exact V|]. split; [apply NA; try exact V; rewrite U; discriminate|]. left. unfold var_signal. rewrite U. reflexivity.
  - unfold temp_decl in H. destruct (v_use v) eqn:U; try (destruct H; fail). destruct H as [<-|[]]. right. exists v, true. split; [exact V|]. unfold out_signal. rewrite U. reflexivity.
  - unfold const_decl in H. destruct (v_use v) eqn:U; try (destruct H; fail). cbn [usage_eqb negb] in H. destruct (acc_eqb (v_acc v) ReadOnly) eqn:E; [|destruct H]. cbn [negb] in H. destruct H as [<-|[]].
    left. exists v, true. split; [exact V|]. split; [apply NA; try exact V; rewrite U; discriminate|]. left. unfold var_signal, is_define. rewrite U, E. cbn [negb]. rewrite andb_false_r. reflexivity.
  - unfold wire_decl in H. destruct (_ || _) eqn:B; [|destruct H]. destruct (acc_eqb (v_acc v) NotAccessed) eqn:E; [destruct H|]. rewrite andb_false_r in H. destruct H as [<-|[]]. apply acc_eqb_false in E.
    left. exists v, true. split; [exact V|]. split; [exact E|]. apply orb_true_iff in B. destruct B as [B|B].
    + apply andb_true_iff in B. right. apply acc_eqb_true. apply B.
    + left. unfold var_signal. destruct (v_use v); try discriminate B. reflexivity.
  - unfold flip_decl in H. destruct (v_use v) eqn:U; try (destruct H; fail). left. destruct H as [<-|[<-|[]]]; [exists v, true|exists v, false]; (split; [exact V|]); (split; [apply NA; try exact V; rewrite U; discriminate|]); left; unfold var_signal; rewrite U; reflexivity.
  - unfold flip_decl in H. destruct (v_use v) eqn:U; try (destruct H; fail). right. destruct H as [<-|[<-|[]]]; [exists v, true|exists v, false]; (split; [exact V|]); unfold out_signal; rewrite U; reflexivity.
Qed.
Print Assumptions C64_only.

(** ** Which signal *)
(** A macro is used only for a variable that is assigned or made by the compiler as a register, is not a table, and is stable in every cycle for the first pass. *)
Theorem C64_macro : forall read s v0 v ffd dep m, settle read s v0 = Some v -> var_signal ffd dep v = Macro m ->
  v_acc v0 <> ReadOnly /\ v_size v0 = 0 /\ s_stable s = Some true /\ s_q s <> None /\ m = "_c_" ++ v_name v0.
Proof.
  intros read s v0 v ffd dep m S H. assert (SS : settled v0 v) by (exists read, s; exact S). destruct (settled_same v0 v SS) as (EN & _ & ES & EA & _).
  unfold var_signal in H. destruct (v_use v) eqn:U; try discriminate H; try (unfold flip_signal in H; discriminate H). destruct (is_define v) eqn:D; [|discriminate H]. injection H as <-.
  unfold is_define, scalar in D. apply andb_true_iff in D. destruct D as [D D3]. apply andb_true_iff in D. destruct D as [D1 _]. apply Nat.eqb_eq in D1. apply negb_true_iff, acc_eqb_false in D3.
  rewrite EA in D3. rewrite ES in D1. unfold c_of. rewrite EN.
  unfold settle in S. destruct (usage_of read v0) as [u|] eqn:UO; [|discriminate S]. injection S as <-.
  assert (W2 : u <> Const).
  { intros ->. unfold usage_of in UO. destruct (v_use v0); try discriminate UO. apply acc_eqb_false in D3. rewrite D3 in UO.
    repeat match type of UO with context [if ?b then _ else _] => destruct b end; discriminate UO. }
  split; [exact D3|]. split; [exact D1|]. apply acc_eqb_false in D3.
  revert U. unfold refine, promote, demote_temp, demote_flip, scalar.
  destruct u; try contradiction; cbn [set_use v_use usage_eqb v_size v_acc andb]; rewrite ?D1, ?D3; cbn [Nat.eqb];
    destruct (s_stable s) as [[|]|]; destruct (s_q s) as [[|]|]; cbn [set_use no_init v_use usage_eqb v_size v_acc andb negb]; rewrite ?D1, ?D3; cbn [Nat.eqb set_use no_init v_use usage_eqb v_size v_acc andb negb];
    rewrite ?D1; cbn [Nat.eqb set_use no_init v_use]; intro U; try discriminate U; repeat split; discriminate.
Qed.
Print Assumptions C64_macro.
(** A register that is read, or that the first pass tells nothing of, and a table assigned, are registers in the module: both signals are there. *)
Theorem C64_register : forall read s v0 v ffd dep, settle read s v0 = Some v -> usage_of read v0 = Some FlipFlop -> s_q s <> Some false \/ v_size v0 <> 0 ->
  v_acc v0 <> ReadOnly -> var_signal ffd dep v = Sig (if ffd || dep then "_d_" ++ v_name v0 else "_q_" ++ v_name v0).
Proof.
  intros read s v0 v ffd dep S U X R. assert (SS : settled v0 v) by (exists read, s; exact S). destruct (settled_same v0 v SS) as (EN & _).
  unfold settle in S. rewrite U in S. injection S as <-. apply acc_eqb_false in R.
  assert (G : v_use (refine s (set_use v0 FlipFlop)) = FlipFlop).
  { unfold refine, promote, demote_temp, demote_flip, scalar. cbn [set_use v_use usage_eqb v_size v_acc andb]. destruct X as [X|X]; [destruct (s_q s) as [[|]|]; [reflexivity|contradiction|reflexivity]|].
    rewrite R. apply Nat.eqb_neq in X. rewrite X. destruct (s_q s) as [[|]|]; reflexivity. }
  unfold var_signal. rewrite G. unfold flip_signal, d_of, q_of. rewrite EN. reflexivity.
Qed.
Print Assumptions C64_register.
(** A variable read before it is assigned in a cycle, or a table assigned, is first a register. *)
Theorem C64_first : forall read v, v_use v = Undetermined -> v_acc v = ReadAndWrite \/ v_acc v = WriteOnly -> usage_of read v = Some FlipFlop <-> v_size v <> 0 \/ (read = true /\ v_acc v = ReadAndWrite).
Proof.
  intros read v U A. unfold usage_of, scalar. rewrite U. destruct (Nat.eqb_spec (v_size v) 0) as [Z|Z]; destruct A as [ ->| ->]; cbn; destruct read; cbn;
    split; try discriminate; try reflexivity; auto; intros [X|[X Y]]; try discriminate X; try discriminate Y; try contradiction; try reflexivity.
Qed.
(** A variable bound to an output and assigned is an internal error; no pattern of plain reads and writes is. *)
Theorem C64_bound_and_assigned : forall read v, v_use v = Undetermined -> bout (v_acc v) = true -> wr (v_acc v) = true -> iff (v_acc v) = false -> usage_of read v = None.
Proof. intros read v U B W I0. unfold usage_of. rewrite U. destruct (v_acc v) as [[|] w b [|] f]; cbn in B, W, I0; subst; reflexivity. Qed.
Theorem C64_total : forall read v, v_use v = Undetermined -> bout (v_acc v) = false -> bio (v_acc v) = false -> exists u, usage_of read v = Some u.
Proof. intros read v U B W. unfold usage_of. rewrite U. destruct (v_acc v) as [[|] [|] b o [|]]; cbn in B, W; subst; eexists; reflexivity. Qed.
Print Assumptions C64_total.
(** Outputs that are read on their register, and outputs of a unit with a state machine that are not combinational, are registers. *)
Theorem C64_output_register : forall fsm s v0 ffd dep, bout (v_acc v0) = false -> s_q s = Some true \/ (fsm = true /\ v_comb v0 = false) ->
  out_signal ffd dep (settle_out fsm s v0) = Sig (if ffd || dep then "_d_" ++ v_name v0 else "_q_" ++ v_name v0).
Proof.
  intros fsm s v0 ffd dep B X. unfold settle_out. assert (O : out_usage v0 = FlipFlop) by (unfold out_usage; destruct (v_acc v0) as [[|] [|] b [|] [|]]; cbn in B; subst b; reflexivity).
  rewrite O. unfold refine_out. cbn [set_use v_comb v_use usage_eqb]. destruct X as [ ->|[ -> ->]]; [reflexivity|]. cbn. destruct (s_q s) as [[|]|]; reflexivity.
Qed.
Print Assumptions C64_output_register.

(** The outputs of the module, whatever the first pass tells of the unit: those declared with [output!] have the value assigned in the cycle, the others are those of a register,
    with or without a state machine. In all cases the signal is declared once, with the type of the output. *)
Theorem C64_output_assigned : forall vars outs fsm s v0, bout (v_acc v0) = false -> names_ok vars outs -> In (settle_out fsm (out_seen v0 s) v0) outs ->
  exists x, out_assign (settle_out fsm (out_seen v0 s) v0) = Some x /\ filter (fun k => String.eqb (k_name k) x) (decls false vars outs) = [mkDecl true x (v_type v0) (v_size v0)] /\
    (v_comb v0 = false -> x = "_q_" ++ v_name v0) /\ (v_comb v0 = true -> forall dep, out_signal true dep (settle_out fsm (out_seen v0 s) v0) = Sig x).
Proof.
  intros vars outs fsm s v0 B N I0. set (v := settle_out fsm (out_seen v0 s) v0) in *. assert (S : settled_out v0 v) by (exists fsm, (out_seen v0 s); reflexivity).
  assert (O : out_usage v0 = FlipFlop) by (unfold out_usage; destruct (v_acc v0) as [[|] [|] b [|] [|]]; cbn in B; subst b; reflexivity).
  assert (K : v_comb v = v_comb v0 /\ v_name v = v_name v0 /\ (v_use v = FlipFlop \/ (v_use v = Temporary /\ v_comb v0 = true))).
  { subst v. unfold settle_out, refine_out, out_seen. rewrite O. cbn [usage_eqb]. destruct (v_comb v0) eqn:C; cbn [s_q set_use v_comb v_use usage_eqb]; rewrite ?C; [|repeat split; auto].
    destruct (s_q s) as [[|]|]; rewrite ?orb_true_r; cbn [andb set_use v_comb v_name v_use]; rewrite ?C; repeat split; auto. }
  destruct K as (KC & KN & [U|[U C]]).
  - destruct (v_comb v0) eqn:C.
    + exists (d_of v). unfold out_assign. rewrite U, KC. split; [reflexivity|]. split; [|split; [discriminate|]].
      * apply (C64_output_declared vars outs v0 v true false); try assumption. unfold out_signal. rewrite U. reflexivity.
      * intros _ dep. unfold out_signal. rewrite U. reflexivity.
    + exists (q_of v). unfold out_assign. rewrite U, KC. split; [reflexivity|]. split; [|split; [|discriminate]].
      * apply (C64_output_declared vars outs v0 v false false); try assumption. unfold out_signal. rewrite U. reflexivity.
      * intros _. unfold q_of. rewrite KN. reflexivity.
  - exists (t_of v). unfold out_assign. rewrite U. split; [reflexivity|]. split; [|split; [congruence|]].
    + apply (C64_output_declared vars outs v0 v true false); try assumption. unfold out_signal. rewrite U. reflexivity.
    + intros _ dep. unfold out_signal. rewrite U. reflexivity.
Qed.
Print Assumptions C64_output_assigned.

(** ** Variables never assigned *)
(** The value written in the declaration, entry by entry; 0 for a variable without initial value. *)
Definition declared_value (v : var) (i : nat) (z : Z) : Prop := if v_noinit v then z = 0%Z /\ v_size v = 0 else nth_error (v_init v) i = Some z.
(** A variable that is never assigned has the value of its declaration in every cycle, when it is not read by parts, or is not read in the always_before block. The first pass tells of
    parts: [stable_in_cycle] is false. *)
Theorem C64_constant : forall zero read s n v0 v i z, settle read s v0 = Some v -> v_use v0 = Undetermined -> v_acc v0 = ReadOnly -> v_same v0 = None ->
  (v_noinit v0 = true -> v_init v0 = []) -> (v_size v0 = 0 -> i = 0) -> declared_value v0 i z -> s_stable s <> Some false \/ n = 0 -> constant zero n v i = Some z.
Proof.
  intros zero read s n v0 v i z S U A SM NI SZ DV X. unfold settle, usage_of in S. rewrite U, A in S. change (acc_eqb ReadOnly ReadOnly) with true in S. cbn [option_map] in S. injection S as <-.
  unfold declared_value in DV. unfold refine, promote, scalar. cbn [set_use v_use usage_eqb v_size andb].
  assert (CE : const_entry zero (set_use v0 Const) i = Some z).
  { unfold const_entry, scalar, init_value. cbn [set_use v_size v_noinit v_same v_init]. rewrite SM. destruct (v_noinit v0).
    - destruct DV as [-> Z]. rewrite Z. reflexivity.
    - destruct (Nat.eqb_spec (v_size v0) 0) as [Z|Z]; [|exact DV]. rewrite (SZ Z) in DV. destruct (v_init v0); [discriminate DV|exact DV]. }
  assert (TS : v_size v0 = 0 -> temp_start (pre_usage 0) (set_use v0 Temporary) = Some z).
  { intro Z. unfold temp_start, pre_usage. cbn [set_use v_init]. rewrite (SZ Z) in DV. destruct (v_noinit v0); [rewrite (NI eq_refl); destruct DV as [-> _]; reflexivity|]. destruct (v_init v0); [discriminate DV|exact DV]. }
  destruct (Nat.eqb_spec (v_size v0) 0) as [Z|Z]; cbn [andb negb].
  - destruct (s_stable s) as [[|]|] eqn:ST; cbn [negb andb].
    + destruct (s_q s) as [[|]|]; exact CE.
    + destruct X as [X| ->]; [contradiction|]. unfold demote_temp, demote_flip. destruct (s_q s) as [[|]|]; cbn [set_use v_use usage_eqb andb]; rewrite ?ST; exact (TS Z).
    + destruct (s_q s) as [[|]|]; exact CE.
  - unfold demote_temp, demote_flip. cbn [set_use v_use usage_eqb andb]. destruct (s_q s) as [[|]|]; exact CE.
Qed.
Print Assumptions C64_constant.
Lemma reads_only_d n : Nat.iter (S n) read_temp (mkFfu false false false false) = mkFfu true false false false.
Proof. induction n as [|n IH]; [reflexivity|]. change (Nat.iter (S (S n)) read_temp (mkFfu false false false false)) with (read_temp (Nat.iter (S n) read_temp (mkFfu false false false false))). rewrite IH. reflexivity. Qed.
(** Read by parts in the always_before block of an algorithm, or in the always block of a unit, a variable never assigned has no value at all: nothing in the module gives one to its signal.
    [uint8 c = 8hA5; always { leds = c[0,4]; }] *)
Theorem C64_part_of_constant_refuted : forall zero read s n v0 v i, settle read s v0 = Some v -> v_use v0 = Undetermined -> v_acc v0 = ReadOnly -> v_size v0 = 0 ->
  s_stable s = Some false -> constant zero (S n) v i = None.
Proof.
  intros zero read s n v0 v i S U A Z ST. unfold settle, usage_of in S. rewrite U, A in S. change (acc_eqb ReadOnly ReadOnly) with true in S. cbn [option_map] in S. injection S as <-.
  unfold refine, promote, scalar. cbn [set_use v_use usage_eqb v_size andb]. rewrite ST, Z. cbn [Nat.eqb andb negb].
  assert (P : temp_start (pre_usage (S n)) (set_use (set_use v0 Const) Temporary) = None) by (unfold temp_start, pre_usage; rewrite reads_only_d; reflexivity).
  unfold demote_temp, demote_flip. destruct (s_q s) as [[|]|]; cbn [set_use v_use usage_eqb andb]; rewrite ?ST; exact P.
Qed.
Print Assumptions C64_part_of_constant_refuted.
(** Declared with [sameas(x)], a variable never assigned has the initial value of x, not its own: [uint8 x = 5; sameas(x) c = 3;] *)
Theorem C64_sameas_refuted : forall zero read s n v0 v b, settle read s v0 = Some v -> v_use v0 = Undetermined -> v_acc v0 = ReadOnly -> v_size v0 = 0 -> v_noinit v0 = false ->
  v_same v0 = Some b -> s_stable s = None -> constant zero n v 0 = Some b.
Proof.
  intros zero read s n v0 v b S U A Z NI SM ST. unfold settle, usage_of in S. rewrite U, A in S. change (acc_eqb ReadOnly ReadOnly) with true in S. cbn [option_map] in S. injection S as <-.
  unfold refine, promote, scalar. cbn [set_use v_use usage_eqb v_size andb]. rewrite ST, Z. cbn [Nat.eqb andb negb].
  assert (P : const_entry zero (set_use v0 Const) 0 = Some b) by (unfold const_entry, scalar, init_value; cbn [set_use v_size v_noinit v_same]; rewrite Z, NI, SM; reflexivity).
  unfold demote_temp, demote_flip. destruct (s_q s) as [[|]|]; exact P.
Qed.
Print Assumptions C64_sameas_refuted.
(** Registers: the value when initialized is the one of the declaration. *)
Theorem C64_reset : forall v i z, v_same v = None -> v_noinit v = false -> (v_size v = 0 -> i = 0) -> declared_value v i z -> reset_entry v i = Some z.
Proof.
  intros v i z SM NI SZ DV. unfold declared_value in DV. rewrite NI in DV. unfold reset_entry, scalar, init_value. rewrite SM. destruct (Nat.eqb_spec (v_size v) 0) as [Z|Z]; [|exact DV].
  rewrite (SZ Z) in DV. destruct (v_init v); [discriminate DV|exact DV].
Qed.
Print Assumptions C64_reset.
(** With sameas it is the one of the other variable, when initialized on reset and not when the device is configured: [uint8 x = 5; sameas(x) c = 3;] gives 5, [sameas(x) c(3);] gives 3. *)
Theorem C64_sameas_reset_refuted : forall v a b, v_size v = 0 -> v_same v = Some b -> v_init v = [a] -> a <> b ->
  declared_value v 0 a -> reset_entry v 0 = Some b /\ startup_value v = Some a /\ reset_entry v 0 <> startup_value v.
Proof.
  intros v a b Z SM I0 NE _. unfold reset_entry, startup_value, scalar, init_value. rewrite Z, SM, I0. cbn. repeat split. intro E. injection E as E. congruence.
Qed.
Print Assumptions C64_sameas_reset_refuted.
(** A table that is never assigned and has no initial values is not driven. *)
Theorem C64_table_not_driven : forall zero v i, v_use v = Const -> v_size v <> 0 -> v_noinit v = true -> v_init v = [] -> constant zero 0 v i = None.
Proof. intros zero v i U Z NI I0. unfold constant, const_entry, scalar. rewrite U, NI, I0. apply Nat.eqb_neq in Z. rewrite Z. destruct zero; reflexivity. Qed.

(** ** Inouts split in three signals *)
(** The signals of a variable bound to an inout then have the names of others: [x] bound to an inout and a variable [x_o] tracking an expression. *)
Theorem C64_split_refuted : exists vars v w, names_ok vars [] /\ In v vars /\ In w vars /\ v <> w /\ (exists v0, settled v0 v) /\ (exists w0, settled w0 w) /\
  length (filter (fun k => String.eqb (k_name k) "_w_x_o") (decls true vars [])) = 2 /\ length (filter (fun k => String.eqb (k_name k) "_w_x_o") (decls false vars [])) = 1.
Proof.
  set (v := mkVar "x" 1 0 Bound BoundToInOut [] true false None). set (w := mkVar "x_o" 1 0 Wire ReadOnly [] true false None). exists [v; w], v, w.
  split; [|split; [left; reflexivity|split; [right; left; reflexivity|split; [discriminate|]]]].
  - split; [|split; [constructor|intros ? ? ? []]]. repeat constructor; cbn [v_name]; intros H; repeat destruct H as [H|H]; try discriminate H; destruct H.
  - split; [exists (mkVar "x" 1 0 Undetermined BoundToInOut [] true false None), false, (mkSeen None None); reflexivity|].
    split; [exists (mkVar "x_o" 1 0 Wire ReadOnly [] true false None), false, (mkSeen None None); reflexivity|]. split; reflexivity.
Qed.
Print Assumptions C64_split_refuted.

(** ** Examples *)
(** A constant, a constant read by parts, a table, a register, a macro, a wire, an output. *)
Definition mk (n : string) (ty sz : nat) (a : access) (i : list Z) : var := mkVar n ty sz Undetermined a i false false None.
Definition c0 := mk "c" 8 0 ReadOnly [165%Z].
Definition t0 := mk "t" 4 3 ReadAndWrite [1; 2; 3]%Z.
Definition r0 := mk "r" 7 0 ReadAndWrite [0%Z].
Definition m0 := mk "m" 6 0 ReadAndWrite [0%Z].
Definition w0 := mkVar "w" 5 0 Wire ReadOnly [] true false None.
Definition o0 := mkVar "o" 2 0 Undetermined WriteOnly [] true true None.
Definition settled_ex : option (list var) :=
  match settle false (mkSeen None None) c0, settle false (mkSeen None (Some false)) t0, settle true (mkSeen (Some false) (Some true)) r0, settle true (mkSeen (Some true) (Some false)) m0, settle false (mkSeen None None) w0 with
  | Some c, Some t, Some r, Some m, Some w => Some [c; t; r; m; w]
  | _, _, _, _, _ => None
  end.
Example C64_ex : exists vars, settled_ex = Some vars /\ names_ok vars [settle_out true (mkSeen None (Some false)) o0] /\
  map (var_signal false false) vars = [Sig "_c_c"; Sig "_q_t"; Sig "_q_r"; Macro "_c_m"; Sig "_w_w"] /\ map (var_signal true false) vars = [Sig "_c_c"; Sig "_d_t"; Sig "_d_r"; Macro "_c_m"; Sig "_w_w"] /\
  decls false vars [settle_out true (mkSeen None (Some false)) o0] =
    [mkDecl true "_t_o" 2 0; mkDecl false "_c_c" 8 0; mkDecl false "_w_w" 5 0; mkDecl true "_d_t" 4 3; mkDecl true "_q_t" 4 3; mkDecl true "_d_r" 7 0; mkDecl true "_q_r" 7 0].
Proof.
  eexists. split; [reflexivity|]. split.
  - split; [|split]; [repeat constructor; cbn; intros H; repeat destruct H as [H|H]; try discriminate H; destruct H|repeat constructor; intros []|].
    intros v o V [<-|[]]. cbn in V. repeat destruct V as [<-|V]; try discriminate. destruct V.
  - repeat split.
Qed.
Example C64_constant_ex : exists v v', settle false (mkSeen None None) c0 = Some v /\ constant false 3 v 0 = Some 165%Z /\
  settle false (mkSeen (Some false) None) c0 = Some v' /\ constant false 0 v' 0 = Some 165%Z /\ constant false 1 v' 0 = None.
Proof. eexists. eexists. repeat split. Qed.
Example C64_sameas_ex : exists v, settle false (mkSeen None None) (mkVar "c" 8 0 Undetermined ReadOnly [3%Z] false false (Some 5%Z)) = Some v /\ constant false 0 v 0 = Some 5%Z.
Proof. eexists. split; reflexivity. Qed.
Example C64_bound_ex : usage_of false (mk "b" 1 0 (mkAcc true true true false false) []) = None /\ usage_of false (mk "b" 1 0 (mkAcc true false true false false) []) = Some Bound.
Proof. split; reflexivity. Qed.
(** A combinational output of a unit, never read: a temporary. The same output without [!]: a register. *)
Example C64_output_ex : out_assign (settle_out true (out_seen o0 (mkSeen None None)) o0) = Some "_t_o" /\
  out_assign (settle_out false (out_seen (mkVar "p" 2 0 Undetermined WriteOnly [] true false None) (mkSeen None (Some false))) (mkVar "p" 2 0 Undetermined WriteOnly [] true false None)) = Some "_q_p".
Proof. split; reflexivity. Qed.
Example C64_reset_ex : reset_entry t0 2 = Some 3%Z /\ declared_value t0 2 3%Z /\ declared_value (mkVar "c" 8 0 Undetermined ReadAndWrite [3%Z] false false (Some 5%Z)) 0 3%Z /\
  reset_entry (mkVar "c" 8 0 Undetermined ReadAndWrite [3%Z] false false (Some 5%Z)) 0 = Some 5%Z.
Proof. repeat split. Qed.
(** Split inouts: [x] bound to an inout, [y] tracking an expression. *)
Example C64_split_ex : exists vars y, names_ok vars [] /\ In y vars /\ settled y y /\ (forall u x, In u vars -> v_acc u = BoundToInOut -> In x ["_oe"; "_o"; "_i"] -> v_name y <> v_name u ++ x) /\
  decls true vars [] = [mkDecl false "_w_x_oe" 1 0; mkDecl false "_w_x_o" 1 0; mkDecl false "_w_x_i" 1 0; mkDecl false "_w_y" 1 0].
Proof.
  set (v := mkVar "x" 1 0 Bound BoundToInOut [] true false None). set (w := mkVar "y" 1 0 Wire ReadOnly [] true false None). exists [v; w], w.
  split; [|split; [right; left; reflexivity|split; [exists false, (mkSeen None None); reflexivity|split; [|reflexivity]]]].
  - split; [|split; [constructor|intros ? ? ? []]]. repeat constructor; cbn [v_name]; intros H; repeat destruct H as [H|H]; try discriminate H; destruct H.
  - intros u x [<-|[<-|[]]] B X; [|discriminate B]. destruct X as [<-|[<-|[<-|[]]]]; discriminate.
Qed.
