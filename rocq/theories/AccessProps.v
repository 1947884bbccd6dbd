(** C63: an access has the type the compiler believes it has. *)
From Coq Require Import String List Bool ZArith Lia.
From Verif Require Import BitfieldModel AccessModel.
Import ListNotations.
Local Open Scope Z_scope.

(** * What identifiers designate *)
(** In a unit [h], for a read or a write ([wr]): a name (a variable, an input or an output), an input of an instance that is not bound, an output of an
    instance, which is only read, a member of a group. Of which type, and how many entries (0: not a table). *)
Inductive designates (h : host) (wr : bool) : ident -> typ -> Z -> Prop :=
| d_name x t n : h_vios h (h_tr h x) = Some (t, n) -> h_inout h (h_tr h x) = false -> designates h wr (Id x) t n
| d_input b m J t n : h_insts h (h_tr h b) = Some J -> i_in J m = Some (t, n) -> i_bound J m = false -> designates h wr (Io b [m]) t n
| d_output b m J t n : h_insts h (h_tr h b) = Some J -> i_in J m = None -> i_out J m = Some (t, n) -> wr = false -> designates h wr (Io b [m]) t n
| d_member b m l t n : h_insts h (h_tr h b) = None -> h_groups h (h_tr h b) = Some l -> In m l -> h_bound h (h_tr h b) = false ->
    h_vios h (h_tr h (h_tr h b ++ "_" ++ m)%string) = Some (t, n) -> h_inout h (h_tr h (h_tr h b ++ "_" ++ m)%string) = false -> designates h wr (Io b [m]) t n.
(** Variables of the inputs of instances that are not bound are those the compiler makes (src/Algorithm.cpp 6499-6509): with the type of the input. *)
Definition made (h : host) : Prop := forall b J m p, h_insts h b = Some J -> i_in J m = Some p -> i_bound J m = false ->
  h_vios h (h_tr h (i_prefix J ++ "_" ++ m)%string) = Some p /\ h_inout h (h_tr h (i_prefix J ++ "_" ++ m)%string) = false.

Lemma in_members : forall m l, existsb (String.eqb m) l = true <-> In m l.
Proof.
  intros m l. rewrite existsb_exists. split.
  - intros (x & H & E). apply String.eqb_eq in E. subst x. exact H.
  - intro H. exists m. split; [exact H|apply String.eqb_refl].
Qed.
(** The signal written for an identifier is declared with the type of what it designates. *)
Definition written_as (h : host) (wr : bool) (i : ident) (t : typ) (n : Z) : Prop :=
  exists s x, write_ident h wr i = Some (s, (t, n)) /\ declared h s = Some (actual h x t, n).
Lemma written_ident : forall h wr i t n, made h -> designates h wr i t n -> type_ident h i = Some t /\ written_as h wr i t n.
Proof.
  intros h wr i t n M D. unfold written_as. destruct D as [x t n V N|b m J t n K V B|b m J t n K N V W|b m l t n K G L B V N]; cbn [type_ident write_ident]; cbv zeta; unfold name_of; cbv zeta.
  - rewrite V, N. split; [reflexivity|]. exists (SVio (h_tr h x)), (h_tr h x). split; [reflexivity|]. cbn [declared]. rewrite V. reflexivity.
  - destruct (M _ J m (t, n) K V B) as [E1 E2]. rewrite K, V, B, E1, E2. split; [reflexivity|]. eexists. eexists. split; [reflexivity|]. cbn [declared]. rewrite E1. reflexivity.
  - rewrite K, N, V, W. split; [reflexivity|]. eexists. eexists. split; [reflexivity|]. cbn [declared]. rewrite V. reflexivity.
  - apply in_members in L. rewrite K, G, L, B, V, N. split; [reflexivity|]. eexists. eexists. split; [reflexivity|]. cbn [declared]. rewrite V. reflexivity.
Qed.
Lemma ident_designates : forall h wr i s t n, write_ident h wr i = Some (s, (t, n)) -> designates h wr i t n.
Proof.
  intros h wr i s t n W. destruct i as [x|b [|m [|m' ms]]]; cbn [write_ident] in W; cbv zeta in W; unfold name_of in W; cbv zeta in W; try discriminate W.
  - destruct (h_vios h (h_tr h x)) as [p|] eqn:V; [|discriminate W]. destruct (h_inout h (h_tr h x)) eqn:N; [discriminate W|]. injection W as _ ->. exact (d_name h wr x t n V N).
  - destruct (h_insts h (h_tr h b)) as [J|] eqn:K.
    + destruct (i_in J m) as [p|] eqn:P.
      * destruct (i_bound J m) eqn:B; [discriminate W|]. destruct (h_vios h (h_tr h (i_prefix J ++ "_" ++ m)%string)); [|discriminate W].
        destruct (h_inout h (h_tr h (i_prefix J ++ "_" ++ m)%string)); [discriminate W|]. cbn [option_map] in W. injection W as _ ->. exact (d_input h wr b m J t n K P B).
      * destruct (i_out J m) as [p|] eqn:Q; [|discriminate W]. destruct wr; [discriminate W|]. injection W as _ ->. exact (d_output h false b m J t n K P Q eq_refl).
    + destruct (h_groups h (h_tr h b)) as [l|] eqn:G; [|discriminate W]. destruct (existsb (String.eqb m) l) eqn:L; [|discriminate W]. apply in_members in L.
      destruct (h_bound h (h_tr h b)) eqn:B; [discriminate W|]. destruct (h_vios h (h_tr h (h_tr h b ++ "_" ++ m)%string)) as [p|] eqn:V; [|discriminate W].
      destruct (h_inout h (h_tr h (h_tr h b ++ "_" ++ m)%string)) eqn:N; [discriminate W|]. injection W as _ ->. exact (d_member h wr b m l t n K G L B V N).
Qed.
(** Exactly the identifiers that designate something are written. *)
Theorem C63_identifiers : forall h wr i, made h -> (write_ident h wr i <> None <-> exists t n, designates h wr i t n).
Proof.
  intros h wr i M. split.
  - intro W. destruct (write_ident h wr i) as [[s [t n]]|] eqn:E; [|congruence]. exists t, n. exact (ident_designates h wr i s t n E).
  - intros (t & n & D). destruct (written_ident h wr i t n M D) as [_ (s & x & W & _)]. rewrite W. discriminate.
Qed.

(** * Width and sign *)
Definition ident_of (p : packed) : ident := match p with Item (Plain i) | Item (Entry i _) | Field _ (Plain i) _ | Field _ (Entry i _) _ => i end.
Definition index_of (p : packed) : option string := match p with Item (Plain _) | Field _ (Plain _) _ => None | Item (Entry _ e) | Field _ (Entry _ e) _ => Some e end.
Definition packed_of (a : access) : packed := match a with Whole p | Part p _ _ => p end.
(** Widths of parts written as numbers, or with widthof. *)
Definition plain (a : access) : Prop := match a with Part _ _ (CSized _ _ _) => False | _ => True end.

Lemma stoi_value : forall h c w, (forall s x v, c <> CSized s x v) -> stoi h c = Some w -> const_value h c = Some w.
Proof.
  intros h [neg n|neg w0 v|x] w P S; [| |].
  - cbn [stoi const_value] in *. cbv zeta in S. destruct ((- 2 ^ 31 <=? (if neg then - n else n)) && ((if neg then - n else n) <? 2 ^ 31)); [exact S|discriminate S].
  - exfalso. exact (P _ _ _ eq_refl).
  - cbn [stoi const_value] in *. cbv zeta in S. destruct (h_vios h x) as [[[[] w1] n]|]; try discriminate S; cbn [t_base t_width] in *;
      destruct ((- 2 ^ 31 <=? w1) && (w1 <? 2 ^ 31)); try discriminate S; exact S.
Qed.
Lemma write_ident_sound : forall h wr i s t n, made h -> write_ident h wr i = Some (s, (t, n)) -> type_ident h i = Some t /\ exists x, declared h s = Some (actual h x t, n).
Proof.
  intros h wr i s t n M W. destruct (written_ident h wr i t n M (ident_designates h wr i s t n W)) as [T (s' & x & W' & D)]. split; [exact T|].
  rewrite W in W'. injection W' as <-. exists x. exact D.
Qed.
Lemma write_item_sound : forall h wr i s e, made h -> write_item h wr i = Some (s, e) ->
  exists t n x, type_item h i = Some t /\ declared h s = Some (actual h x t, n) /\ e = match i with Plain _ => None | Entry _ y => Some y end.
Proof.
  intros h wr i s e M W. destruct i as [i|i y]; cbn [write_item type_item] in *; destruct (write_ident h wr i) as [[s0 [t n]]|] eqn:E; try discriminate W.
  - injection W as -> <-. destruct (write_ident_sound h wr i s t n M E) as [T [x D]]. exists t, n, x. auto.
  - destruct (n =? 0); [discriminate W|]. injection W as -> <-. destruct (write_ident_sound h wr i s t n M E) as [T [x D]]. exists t, n, x. auto.
Qed.
Lemma actual_known : forall h x t, t_base t <> Param -> actual h x t = t.
Proof. intros h x t N. unfold actual. destruct (t_base t); [reflexivity|reflexivity|congruence]. Qed.

(** The width of every access, read or written: what Verilog reads or assigns has the width the compiler found. Only the whole of what has a parameterized type has no
    width for the compiler. *)
Theorem C63_width : forall h wr a t x s w, made h -> type_access h a = Some t -> write_access h wr a = Some x -> verilog h wr x = Some (s, w) -> plain a ->
  (t_base t <> Param \/ exists p e n, a = Part p e n) -> w = t_width t.
Proof.
  intros h wr a t x s w M T W V P K. destruct a as [p|p e c].
  - destruct K as [K|(p' & e & n & K)]; [|discriminate K]. cbn [type_access write_access] in *. destruct p as [i|f i m]; cbn [type_packed write_packed] in *.
    + destruct (write_item h wr i) as [[s0 e0]|] eqn:E; [|discriminate W]. destruct (write_item_sound h wr i s0 e0 M E) as (t' & n & y & T' & D & _).
      rewrite T in T'. injection T' as <-. cbn [option_map fst snd] in W. injection W as <-. unfold verilog in V. cbn [x_sig x_index x_range x_signed] in V. rewrite D in V.
      destruct ((match e0 with None => n =? 0 | Some _ => negb (n =? 0) end) && negb (wr && false)); [|discriminate V]. rewrite actual_known in V by exact K. injection V as _ <-. reflexivity.
    + destruct (h_fields h f) as [F|]; [|discriminate W]. destruct (type_item h i) as [ti|]; [|discriminate T]. destruct (verifyMemberBitfield m F); [|discriminate W].
      destruct (member_of F m) as [[mt o]|]; [|discriminate W]. assert (t = mt) as -> by (destruct (t_base ti); [destruct (t_width ti <? t_width mt + o)|destruct (t_width ti <? t_width mt + o)|]; congruence).
      destruct (write_item h wr i) as [[s0 e0]|]; [|discriminate W]. injection W as <-. unfold verilog in V. cbn [x_sig x_index x_range x_signed const_value] in V.
      destruct (declared h s0) as [[td n]|]; [|discriminate V]. destruct (_ && _) in V; [|discriminate V]. destruct (0 <? t_width mt); [|discriminate V]. injection V as _ <-. reflexivity.
  - cbn [type_access write_access] in *. destruct (type_packed h p) as [tp|] eqn:TP; [|discriminate T]. destruct (stoi h c) as [v|] eqn:S; [|discriminate T].
    destruct (v <=? 0) eqn:L; [discriminate T|]. injection T as <-. cbn [t_width]. assert (C : const_value h c = Some v) by (apply stoi_value; [intros ? ? ? ->; exact P|exact S]).
    destruct p as [i|f i m]; cbn [write_packed] in W.
    + destruct (write_item h wr i) as [[s0 e0]|]; [|discriminate W]. cbn [option_map fst snd] in W. injection W as <-. unfold verilog in V. cbn [x_sig x_index x_range x_signed] in V. rewrite C in V.
      destruct (declared h s0) as [[td n]|]; [|discriminate V]. destruct (_ && _) in V; [|discriminate V]. destruct (0 <? v); [|discriminate V]. injection V as _ <-. reflexivity.
    + destruct (h_fields h f) as [F|]; [|discriminate W]. destruct (verifyMemberBitfield m F); [|discriminate W]. destruct (member_of F m) as [[mt o]|]; [|discriminate W].
      destruct (write_item h wr i) as [[s0 e0]|]; [|discriminate W]. injection W as <-. unfold verilog in V. cbn [x_sig x_index x_range x_signed] in V. rewrite C in V.
      destruct (declared h s0) as [[td n]|]; [|discriminate V]. destruct (_ && _) in V; [|discriminate V]. destruct (0 <? v); [|discriminate V]. injection V as _ <-. reflexivity.
Qed.

(** The sign: the one the compiler found, but for parts of variables and entries, which Verilog always reads without a sign. *)
Theorem C63_sign : forall h wr a t x s w, made h -> type_access h a = Some t -> t_base t <> Param -> write_access h wr a = Some x -> verilog h wr x = Some (s, w) ->
  match a with Part (Item _) _ _ => s = false | _ => s = true <-> t_base t = Int end.
Proof.
  intros h wr a t x s w M T K W V. assert (B : forall mt, (match t_base mt with Int => true | _ => false end) = true <-> t_base mt = Int) by (intros [[] ?]; cbn; split; congruence).
  destruct a as [[i|f i m]|[i|f i m] e c]; cbn [type_access write_access type_packed write_packed] in *.
  - destruct (write_item h wr i) as [[s0 e0]|] eqn:E; [|discriminate W]. destruct (write_item_sound h wr i s0 e0 M E) as (t' & n & y & T' & D & _).
    rewrite T in T'. injection T' as <-. cbn [option_map fst snd] in W. injection W as <-. unfold verilog in V. cbn [x_sig x_index x_range x_signed] in V. rewrite D in V.
    destruct (_ && _) in V; [|discriminate V]. rewrite actual_known in V by exact K. injection V as <- _. apply B.
  - destruct (h_fields h f) as [F|]; [|discriminate W]. destruct (type_item h i) as [ti|]; [|discriminate T]. destruct (verifyMemberBitfield m F); [|discriminate W].
    destruct (member_of F m) as [[mt o]|]; [|discriminate W]. assert (t = mt) as -> by (destruct (t_base ti); [destruct (t_width ti <? t_width mt + o)|destruct (t_width ti <? t_width mt + o)|]; congruence).
    destruct (write_item h wr i) as [[s0 e0]|]; [|discriminate W]. injection W as <-. unfold verilog in V. cbn [x_sig x_index x_range x_signed const_value] in V.
    destruct (declared h s0) as [[td n]|]; [|discriminate V]. destruct (_ && _) in V; [|discriminate V]. destruct (0 <? t_width mt); [|discriminate V]. injection V as <- _. apply B.
  - destruct (write_item h wr i) as [[s0 e0]|]; [|discriminate W]. cbn [option_map fst snd] in W. injection W as <-. unfold verilog in V. cbn [x_sig x_index x_range x_signed] in V.
    destruct (declared h s0) as [[td n]|]; [|discriminate V]. destruct (_ && _) in V; [|discriminate V]. destruct (const_value h c) as [v|]; [|discriminate V]. destruct (0 <? v); [|discriminate V]. injection V as <- _. reflexivity.
  - destruct (h_fields h f) as [F|]; [|discriminate W]. destruct (type_item h i) as [ti|]; [|discriminate T]. destruct (verifyMemberBitfield m F); [|discriminate W].
    destruct (member_of F m) as [[mt o]|]; [|discriminate W].
    assert (t_base t = t_base mt) as ->.
    { destruct (t_base ti); [destruct (t_width ti <? t_width mt + o); [discriminate T|]|destruct (t_width ti <? t_width mt + o); [discriminate T|]|]; destruct (stoi h c); try discriminate T; destruct (_ <=? 0); try discriminate T; injection T as <-; reflexivity. }
    destruct (write_item h wr i) as [[s0 e0]|]; [|discriminate W]. injection W as <-. unfold verilog in V. cbn [x_sig x_index x_range x_signed] in V.
    destruct (declared h s0) as [[td n]|]; [|discriminate V]. destruct (_ && _) in V; [|discriminate V]. destruct (const_value h c) as [v|]; [|discriminate V]. destruct (0 <? v); [|discriminate V]. injection V as <- _. apply B.
Qed.

(** * Legal accesses *)
(** Bitfields with members of different names, each of one bit at least. *)
Definition fields_ok (h : host) : Prop := forall f F, h_fields h f = Some F -> NoDup (map m_name F) /\ Forall (fun x => 0 < m_width x) F.

Lemma same_member : forall F x y, NoDup (map m_name F) -> In x F -> In y F -> m_name x = m_name y -> x = y.
Proof.
  intros F x y N. induction F as [|z F IH]; [intros []|]. cbn [map] in N. inversion N as [|? ? A B]. subst. intros X Y E. destruct X as [ ->|X], Y as [ ->|Y].
  - reflexivity.
  - exfalso. apply A. rewrite E. apply in_map. exact Y.
  - exfalso. apply A. rewrite <- E. apply in_map. exact X.
  - exact (IH B X Y E).
Qed.
Lemma verified : forall F m, verifyMemberBitfield m F = true -> exists x, In x F /\ m_name x = m /\ m_unsigned x = true.
Proof.
  intros F m. induction F as [|x F IH]; cbn [verifyMemberBitfield]; [discriminate|]. destruct (String.eqb_spec (m_name x) m) as [E|E]; intro V.
  - apply andb_true_iff in V. exists x. split; [left; reflexivity|]. tauto.
  - destruct (IH V) as (y & I & R). exists y. split; [right; exact I|exact R].
Qed.
Definition sum_widths (l : list member) : Z := fold_right (fun x n => m_width x + n) 0 l.
Lemma member_split : forall l1 x l2 o, ~ In (m_name x) (map m_name l1) ->
  member_loop (l1 ++ x :: l2) (m_name x) o = Some ({| t_base := if m_unsigned x then UInt else Int; t_width := m_width x |}, o + sum_widths l1).
Proof.
  induction l1 as [|y l1 IH]; intros x l2 o N; cbn [app member_loop sum_widths fold_right].
  - rewrite String.eqb_refl, Z.add_0_r. reflexivity.
  - destruct (String.eqb_spec (m_name x) (m_name y)) as [E|E]; [exfalso; apply N; left; congruence|]. rewrite IH by (intro I; apply N; right; exact I). rewrite <- Z.add_assoc. reflexivity.
Qed.
Lemma sum_rev : forall l, sum_widths (rev l) = sum_widths l.
Proof.
  assert (S : forall x l, sum_widths (x :: l) = m_width x + sum_widths l) by reflexivity.
  assert (A : forall a b, sum_widths (a ++ b) = sum_widths a + sum_widths b).
  { intros a b. induction a as [|x a IH]; cbn [app]; [change (sum_widths []) with 0; lia|]. rewrite !S, IH. lia. }
  induction l as [|x l IH]; cbn [rev]; [reflexivity|]. rewrite A, IH, !S. change (sum_widths []) with 0. lia.
Qed.
Lemma member_at : forall F m, NoDup (map m_name F) -> verifyMemberBitfield m F = true -> exists l1 x l2, F = l1 ++ x :: l2 /\ m_name x = m /\ m_unsigned x = true /\
  member_of F m = Some ({| t_base := UInt; t_width := m_width x |}, sum_widths l2).
Proof.
  intros F m N V. destruct (verified F m V) as (x & I & E & U). destruct (in_split x F I) as (l1 & l2 & ->). exists l1, x, l2. split; [reflexivity|]. split; [exact E|]. split; [exact U|].
  unfold member_of. rewrite rev_app_distr. cbn [rev]. rewrite <- app_assoc. cbn [app]. rewrite <- E. rewrite (member_split (rev l2) x (rev l1) 0).
  - rewrite U, sum_rev. reflexivity.
  - rewrite map_app in N. cbn [map] in N. apply NoDup_remove_2 in N. intro J. apply N. apply in_or_app. right. rewrite map_rev in J. apply in_rev in J. exact J.
Qed.

Lemma item_written : forall h wr i t n, made h -> designates h wr (ident_of (Item i)) t n -> (index_of (Item i) = None <-> n = 0) ->
  exists s x, write_item h wr i = Some (s, index_of (Item i)) /\ declared h s = Some (actual h x t, n).
Proof.
  intros h wr i t n M D X. destruct i as [i|i e]; cbn [ident_of index_of] in *; destruct (written_ident h wr i t n M D) as [_ (s & x & W & E)]; exists s, x; cbn [write_item]; rewrite W.
  - split; [reflexivity|exact E].
  - destruct (Z.eqb_spec n 0) as [Z|Z]; [apply X in Z; discriminate Z|]. split; [reflexivity|exact E].
Qed.
(** Every access the compiler gives a type to is written, and is accepted by Verilog tools, when an index is given for tables and only for them, and the identifier can be read, or assigned. *)
Theorem C63_legal : forall h wr a t ti n, made h -> fields_ok h -> type_access h a = Some t -> plain a -> designates h wr (ident_of (packed_of a)) ti n ->
  (index_of (packed_of a) = None <-> n = 0) -> exists x s w, write_access h wr a = Some x /\ verilog h wr x = Some (s, w).
Proof.
  intros h wr a t ti n M FO T P D X.
  assert (G : forall e : option string, (e = None <-> n = 0) -> (match e with None => n =? 0 | Some _ => negb (n =? 0) end) = true).
  { intros [e|] Y; destruct (Z.eqb_spec n 0) as [Z|Z]; try reflexivity; [apply Y in Z; discriminate Z|exfalso; apply Z; apply Y; reflexivity]. }
  assert (C : forall p e c, a = Part p e c -> exists v, const_value h c = Some v /\ 0 < v /\ type_packed h p <> None).
  { intros p e c ->. cbn [type_access] in T. destruct (type_packed h p); [|discriminate T]. destruct (stoi h c) as [v|] eqn:S; [|discriminate T]. destruct (Z.leb_spec v 0) as [L|L]; [discriminate T|].
    exists v. split; [apply stoi_value; [intros ? ? ? ->; exact P|exact S]|]. split; [exact L|discriminate]. }
  assert (TP : type_packed h (packed_of a) <> None) by (destruct a as [p|p e c]; cbn [packed_of type_access] in *; [congruence|destruct (C p e c eq_refl) as (_ & _ & _ & Y); exact Y]).
  destruct a as [p|p e c]; cbn [packed_of write_access] in *; destruct p as [i|f i m].
  - destruct (item_written h wr i ti n M D X) as (s & y & W & E). cbn [write_packed]. rewrite W. eexists. eexists. eexists. split; [reflexivity|]. unfold verilog. cbn [x_sig x_index x_range x_signed option_map fst snd].
    rewrite E, (G _ X), andb_false_r. reflexivity.
  - assert (D' : designates h wr (ident_of (Item i)) ti n) by (destruct i; exact D). assert (X' : index_of (Item i) = None <-> n = 0) by (destruct i; exact X).
    destruct (item_written h wr i ti n M D' X') as (s & y & W & E). cbn [write_packed type_packed] in *. destruct (h_fields h f) as [F|] eqn:HF; [|congruence]. destruct (type_item h i); [|congruence].
    destruct (verifyMemberBitfield m F) eqn:VM; [|congruence]. destruct (FO f F HF) as [ND POS]. destruct (member_at F m ND VM) as (l1 & z & l2 & EF & _ & _ & MO). rewrite MO, W.
    eexists. eexists. eexists. split; [reflexivity|]. unfold verilog. cbn [x_sig x_index x_range x_signed t_base t_width const_value]. rewrite E, (G _ X'), andb_false_r. cbn [negb andb].
    rewrite Forall_forall in POS. assert (0 < m_width z) as L by (apply POS; rewrite EF; apply in_or_app; right; left; reflexivity). apply Z.ltb_lt in L. rewrite L. reflexivity.
  - destruct (item_written h wr i ti n M D X) as (s & y & W & E). destruct (C _ _ _ eq_refl) as (v & CV & L & _). cbn [write_packed]. rewrite W. eexists. eexists. eexists. split; [reflexivity|].
    unfold verilog. cbn [x_sig x_index x_range x_signed option_map fst snd]. apply Z.ltb_lt in L. rewrite E, (G _ X), andb_false_r, CV, L. reflexivity.
  - assert (D' : designates h wr (ident_of (Item i)) ti n) by (destruct i; exact D). assert (X' : index_of (Item i) = None <-> n = 0) by (destruct i; exact X).
    destruct (C _ _ _ eq_refl) as (v & CV & L & _).
    destruct (item_written h wr i ti n M D' X') as (s & y & W & E). cbn [write_packed type_packed] in *. destruct (h_fields h f) as [F|] eqn:HF; [|congruence]. destruct (type_item h i); [|congruence].
    destruct (verifyMemberBitfield m F) eqn:VM; [|congruence]. destruct (FO f F HF) as [ND _]. destruct (member_at F m ND VM) as (l1 & z & l2 & EF & _ & _ & MO). rewrite MO, W.
    eexists. eexists. eexists. split; [reflexivity|]. unfold verilog. cbn [x_sig x_index x_range x_signed t_base t_width]. apply Z.ltb_lt in L. rewrite E, (G _ X'), andb_false_r, CV. cbn [negb andb]. rewrite L. reflexivity.
Qed.
(** An index on what is not a table is an error. *)
Theorem C63_not_a_table : forall h wr a t, made h -> designates h wr (ident_of (packed_of a)) t 0 -> index_of (packed_of a) <> None -> write_access h wr a = None.
Proof.
  intros h wr a t M D X. assert (N : forall i e, designates h wr i t 0 -> write_item h wr (Entry i e) = None).
  { intros i e D0. destruct (written_ident h wr i t 0 M D0) as [_ (s & x & W & _)]. cbn [write_item]. rewrite W. reflexivity. }
  destruct a as [[[i|i e]|f [i|i e] m]|[[i|i e]|f [i|i e] m] e0 c]; cbn [packed_of index_of ident_of write_access write_packed] in *; try congruence; rewrite (N i e D); try reflexivity;
    destruct (h_fields h f) as [F|]; try reflexivity; destruct (verifyMemberBitfield m F); try reflexivity; destruct (member_of F m) as [[mt o]|]; reflexivity.
Qed.
(** An input of an instance that is bound is an error in every access: no type is given to it. *)
Theorem C63_bound_input : forall h a b m J t, ident_of (packed_of a) = Io b [m] -> h_insts h (h_tr h b) = Some J -> i_in J m = Some t -> i_bound J m = true ->
  type_access h a = None.
Proof.
  intros h a b m J t A B C D. assert (N : type_ident h (Io b [m]) = None) by (cbn [type_ident]; rewrite B, C, D; reflexivity).
  destruct a as [[[i|i e]|f [i|i e] k]|[[i|i e]|f [i|i e] k] e0 c]; cbn [packed_of ident_of] in A; subst i; cbn [type_access type_packed type_item]; rewrite N; try reflexivity;
    destruct (h_fields h f) as [F|]; try reflexivity; destruct (verifyMemberBitfield k F); try reflexivity; destruct (member_of F k) as [[? ?]|]; reflexivity.
Qed.
Print Assumptions C63_bound_input.
(** Members of bitfields: those of the declaration, counted from the last, and inside of the variable when its width is known. *)
Theorem C63_member : forall h wr f i m t x, made h -> fields_ok h -> type_access h (Whole (Field f i m)) = Some t -> write_access h wr (Whole (Field f i m)) = Some x ->
  exists l1 y l2 ti, h_fields h f = Some (l1 ++ y :: l2) /\ m_name y = m /\ m_unsigned y = true /\ t = {| t_base := UInt; t_width := m_width y |} /\
    x_range x = Some ((None, sum_widths l2), CNum false (m_width y)) /\ type_item h i = Some ti /\ (t_base ti <> Param -> sum_widths l2 + m_width y <= t_width ti).
Proof.
  intros h wr f i m t x M FO T W. cbn [type_access write_access type_packed write_packed] in *. destruct (h_fields h f) as [F|] eqn:HF; [|discriminate T]. destruct (type_item h i) as [ti|] eqn:TI; [|discriminate T].
  destruct (verifyMemberBitfield m F) eqn:VM; [|discriminate T]. destruct (FO f F HF) as [ND _]. destruct (member_at F m ND VM) as (l1 & y & l2 & EF & E & U & MO). rewrite MO in *. cbn [t_width t_base] in *.
  exists l1, y, l2, ti. rewrite <- EF. split; [reflexivity|]. split; [exact E|]. split; [exact U|]. destruct (write_item h wr i) as [[s e]|]; [|discriminate W]. injection W as <-. cbn [x_range].
  destruct (t_base ti) eqn:B.
  - destruct (Z.ltb_spec (t_width ti) (m_width y + sum_widths l2)) as [L|L]; [discriminate T|]. injection T as <-. repeat split; auto. intros _. lia.
  - destruct (Z.ltb_spec (t_width ti) (m_width y + sum_widths l2)) as [L|L]; [discriminate T|]. injection T as <-. repeat split; auto. intros _. lia.
  - injection T as <-. repeat split; auto. congruence.
Qed.
(** Parts of members are counted from the member. *)
Theorem C63_member_part : forall h wr f i m e c t x, made h -> fields_ok h -> type_access h (Part (Field f i m) e c) = Some t -> write_access h wr (Part (Field f i m) e c) = Some x ->
  exists l1 y l2, h_fields h f = Some (l1 ++ y :: l2) /\ m_name y = m /\ x_range x = Some ((Some e, sum_widths l2), c) /\ t_base t = UInt.
Proof.
  intros h wr f i m e c t x M FO T W. cbn [type_access write_access type_packed write_packed] in *. destruct (h_fields h f) as [F|] eqn:HF; [|discriminate T]. destruct (type_item h i) as [ti|] eqn:TI; [|discriminate T].
  destruct (verifyMemberBitfield m F) eqn:VM; [|discriminate T]. destruct (FO f F HF) as [ND _]. destruct (member_at F m ND VM) as (l1 & y & l2 & EF & E & U & MO). rewrite MO in *. cbn [t_width t_base] in *.
  exists l1, y, l2. rewrite <- EF. split; [reflexivity|]. split; [exact E|]. destruct (write_item h wr i) as [[s e']|]; [|discriminate W]. injection W as <-. split; [reflexivity|].
  destruct (t_base ti); try (destruct (t_width ti <? m_width y + sum_widths l2); [discriminate T|]); destruct (stoi h c) as [v|]; try discriminate T; destruct (v <=? 0); try discriminate T; injection T as <-; reflexivity.
Qed.
(** Parts of variables and entries start where they are said to, and the index is the one of the source. *)
Theorem C63_place : forall h wr a x, write_access h wr a = Some x -> x_index x = index_of (packed_of a) /\
  match a with Whole (Item _) => x_range x = None | Part (Item _) e c => x_range x = Some ((Some e, 0), c) | _ => True end.
Proof.
  intros h wr a x W.
  assert (I : forall i s e, write_item h wr i = Some (s, e) -> e = index_of (Item i)).
  { intros [i|i y] s e E; cbn [write_item index_of] in *; destruct (write_ident h wr i) as [[s0 [t n]]|]; try discriminate E; [cbn [option_map] in E; congruence|]. destruct (n =? 0); [discriminate E|congruence]. }
  destruct a as [[i|f i m]|[i|f i m] e c]; cbn [packed_of write_access write_packed] in *.
  - destruct (write_item h wr i) as [[s y]|] eqn:E; [|discriminate W]. injection W as <-. cbn [x_index x_range]. split; [exact (I _ _ _ E)|reflexivity].
  - destruct (h_fields h f) as [F|]; [|discriminate W]. destruct (verifyMemberBitfield m F); [|discriminate W]. destruct (member_of F m) as [[mt o]|]; [|discriminate W].
    destruct (write_item h wr i) as [[s y]|] eqn:E; [|discriminate W]. injection W as <-. cbn [x_index]. split; [|exact Logic.I]. rewrite (I _ _ _ E). destruct i; reflexivity.
  - destruct (write_item h wr i) as [[s y]|] eqn:E; [|discriminate W]. injection W as <-. cbn [x_index x_range]. split; [exact (I _ _ _ E)|reflexivity].
  - destruct (h_fields h f) as [F|]; [|discriminate W]. destruct (verifyMemberBitfield m F); [|discriminate W]. destruct (member_of F m) as [[mt o]|]; [|discriminate W].
    destruct (write_item h wr i) as [[s y]|] eqn:E; [|discriminate W]. injection W as <-. cbn [x_index]. split; [|exact Logic.I]. rewrite (I _ _ _ E). destruct i; reflexivity.
Qed.
(** Every legal access written has a type, but members that are not inside of their variable. *)
Theorem C63_typed : forall h wr a x s w, made h -> plain a -> write_access h wr a = Some x -> verilog h wr x = Some (s, w) -> w < 2 ^ 31 ->
  type_access h a <> None \/ exists f i m F mt o ti, packed_of a = Field f i m /\ h_fields h f = Some F /\ member_of F m = Some (mt, o) /\ type_item h i = Some ti /\ t_width ti < o + t_width mt.
Proof.
  intros h wr a x s w M P W V B.
  assert (TI : forall i y, write_item h wr i = Some y -> exists t, type_item h i = Some t) by (intros i [s0 e0] E; destruct (write_item_sound h wr i s0 e0 M E) as (t & _ & _ & T & _); exists t; exact T).
  assert (C : forall c, (forall s x v, c <> CSized s x v) -> const_value h c = Some w -> 0 < w -> stoi h c = Some w).
  { intros [neg n|neg u v|y] N E L; cbn [const_value stoi] in *; cbv zeta.
    - injection E as ->. destruct (Z.leb_spec (- 2 ^ 31) w); [|lia]. destruct (Z.ltb_spec w (2 ^ 31)); [reflexivity|lia].
    - exfalso. exact (N _ _ _ eq_refl).
    - destruct (h_vios h y) as [[[[] u] n]|]; try discriminate E; cbn [t_width] in *; injection E as ->; (destruct (Z.leb_spec (- 2 ^ 31) w); [|lia]); (destruct (Z.ltb_spec w (2 ^ 31)); [reflexivity|lia]). }
  assert (FI : forall f i m F mt o y, h_fields h f = Some F -> verifyMemberBitfield m F = true -> member_of F m = Some (mt, o) -> write_item h wr i = Some y ->
    type_packed h (Field f i m) <> None \/ exists ti, type_item h i = Some ti /\ t_width ti < o + t_width mt).
  { intros f i m F mt o y E1 E2 E3 E4. destruct (TI i y E4) as [ti T]. cbn [type_packed]. rewrite E1, T, E2, E3. destruct (t_base ti); try (left; discriminate);
    (destruct (Z.ltb_spec (t_width ti) (t_width mt + o)) as [L|L]; [right; exists ti; split; [reflexivity|lia]|left; discriminate]). }
  destruct a as [[i|f i m]|[i|f i m] e c]; cbn [packed_of type_access write_access write_packed] in *.
  - left. destruct (write_item h wr i) as [y|] eqn:E; [|discriminate W]. destruct (TI i y E) as [t T]. cbn [type_packed]. rewrite T. discriminate.
  - destruct (h_fields h f) as [F|] eqn:E1; [|discriminate W]. destruct (verifyMemberBitfield m F) eqn:E2; [|discriminate W]. destruct (member_of F m) as [[mt o]|] eqn:E3; [|discriminate W].
    destruct (write_item h wr i) as [y|] eqn:E4; [|discriminate W]. destruct (FI f i m F mt o y E1 E2 E3 E4) as [K|(ti & K1 & K2)]; [left; exact K|right]. exists f, i, m, F, mt, o, ti. auto.
  - left. destruct (write_item h wr i) as [y|] eqn:E; [|discriminate W]. destruct (TI i y E) as [t T]. cbn [type_packed]. rewrite T. cbn [option_map] in W. injection W as <-.
    unfold verilog in V. cbn [x_sig x_index x_range option_map snd] in V. destruct (declared h (fst y)) as [[td n]|]; [|discriminate V]. destruct (_ && _) in V; [|discriminate V].
    destruct (const_value h c) as [v|] eqn:CV; [|discriminate V]. destruct (Z.ltb_spec 0 v) as [L|L]; [|discriminate V]. injection V as _ ->. rewrite (C c) by (assumption || (intros ? ? ? ->; exact P)).
    destruct (Z.leb_spec w 0); [lia|discriminate].
  - destruct (h_fields h f) as [F|] eqn:E1; [|discriminate W]. destruct (verifyMemberBitfield m F) eqn:E2; [|discriminate W]. destruct (member_of F m) as [[mt o]|] eqn:E3; [|discriminate W].
    destruct (write_item h wr i) as [y|] eqn:E4; [|discriminate W]. destruct (FI f i m F mt o y E1 E2 E3 E4) as [K|(ti & K1 & K2)]; [left|right; exists f, i, m, F, mt, o, ti; auto].
    destruct y as [s0 e0]. injection W as <-. unfold verilog in V. cbn [x_sig x_index x_range] in V. destruct (declared h s0) as [[td n]|]; [|discriminate V]. destruct (_ && _) in V; [|discriminate V].
    destruct (const_value h c) as [v|] eqn:CV; [|discriminate V]. destruct (Z.ltb_spec 0 v) as [L|L]; [|discriminate V]. injection V as _ ->. rewrite (C c) by (assumption || (intros ? ? ? ->; exact P)).
    destruct (type_packed h (Field f i m)); [|congruence]. destruct (Z.leb_spec w 0); [lia|discriminate].
Qed.

(** * A unit *)
Local Open Scope string_scope.
Local Open Scope Z_scope.
(** int8 a; uint8 u; uint8 tbl[4]; an input p declared auto, of 4 bits in the instance; an instance c with inputs i and k (bound) and a signed output o; a group g
    with members x and y; bitfield F { uint3 hi, uint5 lo }; bitfield D { uint4 m, int4 m }. *)
Definition ty (b : base) (w : Z) : typ := {| t_base := b; t_width := w |}.
Definition c_ex : instance := {| i_prefix := "c"; i_in := fun m => if (m =? "i")%string || (m =? "k")%string then Some (ty UInt 4, 0) else None;
  i_out := fun m => if (m =? "o")%string then Some (ty Int 6, 0) else None; i_bound := fun m => (m =? "k")%string |}.
Definition h_ex : host :=
  {| h_tr := fun x => x;
     h_vios := fun x => if (x =? "a")%string then Some (ty Int 8, 0) else if (x =? "u")%string then Some (ty UInt 8, 0) else if (x =? "tbl")%string then Some (ty UInt 8, 4)
               else if (x =? "p")%string then Some (ty Param 0, 0) else if (x =? "c_i")%string then Some (ty UInt 4, 0) else if (x =? "g_x")%string || (x =? "g_y")%string then Some (ty Int 2, 0) else None;
     h_insts := fun b => if (b =? "c")%string then Some c_ex else None; h_groups := fun b => if (b =? "g")%string then Some ["x"; "y"]%string else None;
     h_fields := fun f => if (f =? "F")%string then Some [mkMember "hi" true 3 false; mkMember "lo" true 5 false] else None;
     h_bound := fun _ => false; h_inout := fun _ => false; h_actual := fun _ => ty UInt 4 |}.
Definition h_dup : host :=
  {| h_tr := h_tr h_ex; h_vios := h_vios h_ex; h_insts := h_insts h_ex; h_groups := h_groups h_ex;
     h_fields := fun f => if (f =? "D")%string then Some [mkMember "m" true 4 false; mkMember "m" false 4 false] else None;
     h_bound := h_bound h_ex; h_inout := h_inout h_ex; h_actual := h_actual h_ex |}.
Lemma made_ex : made h_ex.
Proof.
  intros b J m p K I B. cbn [h_insts h_ex] in K. destruct (b =? "c")%string; [|discriminate K]. injection K as <-. cbn [i_in i_bound c_ex i_prefix] in *. rewrite B, orb_false_r in I.
  destruct (String.eqb_spec m "i") as [ ->|N]; [|discriminate I]. injection I as <-. split; reflexivity.
Qed.
Lemma fields_ex : fields_ok h_ex.
Proof.
  intros f F K. cbn [h_fields h_ex] in K. destruct (f =? "F")%string; [|discriminate K]. injection K as <-. split; [|repeat constructor].
  repeat constructor; cbn; intros [E|[]] || intros []; discriminate E.
Qed.
Example C63_ex : made h_ex /\ fields_ok h_ex /\
  (let r a wr := match type_access h_ex a, write_access h_ex wr a with Some t, Some x => Some (t, verilog h_ex wr x) | _, _ => None end in
   map (fun a => r a false) [Whole (Item (Plain (Id "a"))); Whole (Item (Entry (Id "tbl") "1")); Whole (Item (Plain (Io "c" ["o"]))); Whole (Item (Plain (Io "g" ["x"])));
     Whole (Field "F" (Plain (Id "u")) "hi"); Part (Field "F" (Entry (Id "tbl") "i") "lo") "1" (CNum false 2); Part (Item (Plain (Io "c" ["i"]))) "0" (CWidthof "g_x")]%string
   = [Some (ty Int 8, Some (true, 8)); Some (ty UInt 8, Some (false, 8)); Some (ty Int 6, Some (true, 6)); Some (ty Int 2, Some (true, 2)); Some (ty UInt 3, Some (false, 3)); Some (ty UInt 2, Some (false, 2));
      Some (ty UInt 2, Some (false, 2))]
   /\ map (fun a => r a true) [Whole (Item (Plain (Io "c" ["o"]))); Whole (Item (Plain (Io "c" ["i"]))); Whole (Item (Plain (Io "c" ["k"]))); Whole (Item (Entry (Id "u") "1"))]%string
   = [None; Some (ty UInt 4, Some (false, 4)); None; None]).
Proof. split; [exact made_ex|]. split; [exact fields_ex|]. split; reflexivity. Qed.
Example C63_designates_ex : designates h_ex true (Io "c" ["i"]) (ty UInt 4) 0 /\ designates h_ex false (Io "c" ["o"]) (ty Int 6) 0 /\ designates h_ex true (Io "g" ["y"]) (ty Int 2) 0
  /\ designates h_ex true (Id "tbl") (ty UInt 8) 4.
Proof.
  split; [apply (d_input h_ex true "c" "i" c_ex); reflexivity|]. split; [apply (d_output h_ex false "c" "o" c_ex); reflexivity|]. split; [|apply (d_name h_ex true "tbl"); reflexivity].
  apply (d_member h_ex true "g" "y" ["x"; "y"]%string); try reflexivity. right. left. reflexivity.
Qed.

(** * Where the property fails *)

(** The width of a part written as a sized number: the compiler takes the size of the number for its value. u[0,8d4] is a part of 8 bits for the compiler, of 4 in Verilog. *)
Theorem C63_sized_refuted : forall w v, 0 < w < 2 ^ 31 -> 0 < v < 2 ^ w -> exists t x s, let a := Part (Item (Plain (Id "u"))) "0" (CSized false w v) in
  type_access h_ex a = Some t /\ t_width t = w /\ write_access h_ex false a = Some x /\ verilog h_ex false x = Some (s, v).
Proof.
  intros w v W V. exists (ty UInt w). eexists. exists false. cbv zeta. split; [|split; [reflexivity|split; [reflexivity|]]].
  - cbn [type_access type_packed type_item type_ident h_ex h_vios h_tr option_map fst stoi]. cbv zeta. cbn. change 2147483648 with (2 ^ 31). change (-2147483648) with (- 2 ^ 31).
    destruct (Z.leb_spec (- 2 ^ 31) w); [|lia]. destruct (Z.ltb_spec w (2 ^ 31)); [|lia]. cbn [andb]. destruct (Z.leb_spec w 0); [lia|reflexivity].
  - unfold verilog. cbn [x_sig x_index x_range x_signed declared h_ex h_vios option_map fst snd const_value]. cbn. rewrite Z.mod_small by lia. destruct (Z.ltb_spec 0 v); [reflexivity|lia].
Qed.
Example C63_sized_ex : type_access h_ex (Part (Item (Plain (Id "u"))) "0" (CSized false 8 4)) = Some (ty UInt 8).
Proof. reflexivity. Qed.
(** A part of a signed variable is signed for the compiler, and not in Verilog. *)
Theorem C63_part_sign_refuted : exists a t x, a = Part (Item (Plain (Id "a"))) "0" (CNum false 4) /\ type_access h_ex a = Some t /\ t_base t = Int /\ write_access h_ex false a = Some x /\
  verilog h_ex false x = Some (false, 4).
Proof. eexists. eexists. eexists. split; [reflexivity|]. split; [reflexivity|]. split; [reflexivity|]. split; reflexivity. Qed.
(** A table without an index is accepted, has the type of an entry for the compiler, and is written as it is, read or assigned, which Verilog tools refuse. For every table. *)
Theorem C63_table_refuted : forall h wr x t n, h_vios h (h_tr h x) = Some (t, n) -> h_inout h (h_tr h x) = false -> n <> 0 -> let a := Whole (Item (Plain (Id x))) in
  type_access h a = Some t /\ exists v, write_access h wr a = Some v /\ verilog h wr v = None.
Proof.
  intros h wr x t n V N Z. cbv zeta. split; [cbn [type_access type_packed type_item type_ident]; rewrite V; reflexivity|].
  cbn [write_access write_packed write_item write_ident]. unfold name_of. cbv zeta. rewrite V, N. eexists. split; [reflexivity|]. unfold verilog. cbn [x_sig x_index option_map fst snd declared]. rewrite V.
  cbn [option_map fst snd]. destruct (Z.eqb_spec n 0); [congruence|reflexivity].
Qed.
Example C63_table_ex : h_vios h_ex (h_tr h_ex "tbl") = Some (ty UInt 8, 4) /\ h_inout h_ex "tbl" = false.
Proof. split; reflexivity. Qed.
(** Signed members of bitfields are refused, but the member checked is the first of its name and the one used is the last: D(u).m is signed, and is written in
    $signed( ) on the left of an assignment. *)
Theorem C63_same_member_refuted : exists a t x, a = Whole (Field "D" (Plain (Id "u")) "m") /\ type_access h_dup a = Some t /\ t_base t = Int /\ write_access h_dup true a = Some x /\
  x_signed x = true /\ verilog h_dup true x = None.
Proof. eexists. eexists. eexists. split; [reflexivity|]. split; [reflexivity|]. split; [reflexivity|]. split; [reflexivity|]. split; reflexivity. Qed.
(** In a variable of a parameterized type members are not compared with the width: F(p).hi is made of bits 5 to 7 of an input that has 4 bits in this instance. *)
Theorem C63_parameterized_refuted : exists a t x s d, a = Whole (Field "F" (Plain (Id "p")) "hi") /\ type_access h_ex a = Some t /\ write_access h_ex false a = Some x /\
  x_range x = Some ((None, 5), CNum false 3) /\ declared h_ex (x_sig x) = Some (d, s) /\ t_width d = 4.
Proof. eexists. eexists. eexists. eexists. eexists. split; [reflexivity|]. split; [reflexivity|]. split; [reflexivity|]. split; [reflexivity|]. split; reflexivity. Qed.

Print Assumptions C63_identifiers.
Print Assumptions C63_width.
Print Assumptions C63_sign.
Print Assumptions C63_legal.
Print Assumptions C63_not_a_table.
Print Assumptions C63_member.
Print Assumptions C63_member_part.
Print Assumptions C63_place.
Print Assumptions C63_typed.
Print Assumptions C63_sized_refuted.
Print Assumptions C63_part_sign_refuted.
Print Assumptions C63_table_refuted.
Print Assumptions C63_same_member_refuted.
Print Assumptions C63_parameterized_refuted.
Example C63_bound_input_ex : exists h b m J t, h_insts h (h_tr h b) = Some J /\ i_in J m = Some t /\ i_bound J m = true /\ type_access h (Whole (Item (Plain (Io b [m])))) = None.
Proof.
  exists h_ex, "c"%string, "k"%string, c_ex, (ty UInt 4, 0). repeat split.
Qed.
