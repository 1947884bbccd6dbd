(** Module names: parts between underscores, positions of units in a design, different names. *)
From Coq Require Import String Ascii List Bool.
From Verif Require Import ModModel.
Import ListNotations.
Local Open Scope string_scope.

(** ** Names and their parts. *)
Fixpoint parts (s : string) : list string :=
  match s with
  | "" => [""]
  | String c r => if Ascii.eqb c "_" then "" :: parts r else match parts r with h :: t => String c h :: t | [] => [] end
  end.
Lemma parts_ne : forall s, parts s <> [].
Proof. destruct s as [|c r]; cbn [parts]; [discriminate|]. destruct (Ascii.eqb c "_"); [discriminate|]. induction r as [|d r IH]; cbn [parts]; [discriminate|].
  destruct (Ascii.eqb d "_"); [discriminate|]. destruct (parts r); [congruence|discriminate]. Qed.
Lemma parts_app : forall a b, parts (a ++ "_" ++ b) = (parts a ++ parts b)%list.
Proof.
  induction a as [|c r IH]; intro b; [reflexivity|].
  change (String c r ++ "_" ++ b) with (String c (r ++ "_" ++ b)). cbn [parts]. rewrite IH.
  destruct (Ascii.eqb c "_"); [reflexivity|]. destruct (parts r) eqn:E; [destruct (parts_ne _ E)|reflexivity].
Qed.
Lemma parts_inj : forall a b, parts a = parts b -> a = b.
Proof.
  induction a as [|c r IH]; destruct b as [|d t]; intro H.
  - reflexivity.
  - cbn [parts] in H. destruct (Ascii.eqb d "_"); [injection H as H; symmetry in H; destruct (parts_ne _ H)|].
    destruct (parts t) eqn:E; [discriminate|injection H as H _; discriminate].
  - cbn [parts] in H. destruct (Ascii.eqb c "_"); [injection H as H; destruct (parts_ne _ H)|].
    destruct (parts r) eqn:E; [discriminate|injection H as H _; discriminate].
  - cbn [parts] in H. destruct (Ascii.eqb c "_") eqn:E1; destruct (Ascii.eqb d "_") eqn:E2.
    + injection H as H. apply Ascii.eqb_eq in E1, E2. subst. f_equal. apply IH; assumption.
    + destruct (parts t); [discriminate|injection H as H _; discriminate].
    + destruct (parts r); [discriminate|injection H as H _; discriminate].
    + destruct (parts r) eqn:F1; [destruct (parts_ne _ F1)|]. destruct (parts t) eqn:F2; [destruct (parts_ne _ F2)|].
      injection H as -> -> ->. f_equal. apply IH. rewrite F2. first [reflexivity | assumption].
Qed.

(** ** Lists. *)
Lemma first_unique : forall {A} (P : A -> Prop) (l1 l2 : list A) a b r1 r2, Forall (fun x => ~ P x) l1 -> Forall (fun x => ~ P x) l2 -> P a -> P b ->
  (l1 ++ a :: r1 = l2 ++ b :: r2)%list -> l1 = l2 /\ a = b /\ r1 = r2.
Proof.
  induction l1 as [|x l1 IH]; intros [|y l2] a b r1 r2 F1 F2 Pa Pb E; cbn [app] in E; injection E as E E'.
  - auto.
  - subst y. inversion F2; contradiction.
  - subst x. inversion F1; contradiction.
  - inversion F1; inversion F2; subst. destruct (IH l2 a b r1 r2) as (-> & -> & ->); auto.
Qed.
Lemma first_none : forall {A} (P : A -> Prop) (l1 l2 : list A) b r2, Forall (fun x => ~ P x) l1 -> P b -> (l1 = l2 ++ b :: r2)%list -> False.
Proof. intros A P l1 l2 b r2 F Pb ->. apply Forall_app in F. destruct F as [_ F]. inversion F; contradiction. Qed.
Lemma nodup_map_via : forall {A B C} (f : A -> B) (g : A -> C) (l : list A), NoDup (map g l) -> (forall a b, In a l -> In b l -> f a = f b -> g a = g b) -> NoDup (map f l).
Proof.
  induction l as [|x l IH]; intros N H; [constructor|]. cbn [map] in *. inversion N as [|? ? Hx Hl]; subst. constructor.
  - intro I. apply in_map_iff in I. destruct I as (y & E & I). apply Hx. rewrite (H x y); [apply in_map; exact I|left; reflexivity|right; exact I|symmetry; exact E].
  - apply IH; [exact Hl|]. intros a b Ia Ib. apply H; right; assumption.
Qed.
Lemma nodup_app : forall {A} (a b : list A), NoDup a -> NoDup b -> (forall x, In x a -> ~ In x b) -> NoDup (a ++ b)%list.
Proof.
  induction a as [|x a IH]; intros b Na Nb D; [exact Nb|]. inversion Na as [|? ? Hx Ha]; subst. cbn [app]. constructor.
  - rewrite in_app_iff. intros [H|H]; [contradiction|]. apply (D x); [left; reflexivity|exact H].
  - apply IH; auto. intros y Hy. apply D. right; exact Hy.
Qed.
Lemma nodup_flat : forall {A B} (f : A -> list B) (l : list A), (forall a, In a l -> NoDup (f a)) -> ForallOrdPairs (fun a b => forall x, In x (f a) -> ~ In x (f b)) l -> NoDup (flat_map f l).
Proof.
  induction l as [|x l IH]; intros N F; [constructor|]. inversion F as [|? ? Hx Hl]; subst. cbn [flat_map]. apply nodup_app.
  - apply N; left; reflexivity.
  - apply IH; [|exact Hl]. intros a I; apply N; right; exact I.
  - intros y Hy I. apply in_flat_map in I. destruct I as (b & I & Hb). rewrite Forall_forall in Hx. exact (Hx b I y Hy Hb).
Qed.

(** ** Units of a design. *)
Section UnitInd.
  Variable P : unit -> Prop.
  Hypothesis H : forall n b m l, (forall i v, In (i, Own v) l -> P v) -> P (Unit n b m l).
  Definition Pb (b : bp) : Prop := match b with Own v => P v | Static _ => True end.
  Lemma H' : forall n b m l, Forall (fun e : string * bp => Pb (snd e)) l -> P (Unit n b m l).
  Proof. intros n b m l F. apply H. intros i v I. rewrite Forall_forall in F. exact (F _ I). Qed.
  Fixpoint unit_tree_ind (u : unit) : P u :=
    match u with
    | Unit n b m l =>
        H' n b m l
          ((fix go (l : list (string * bp)) : Forall (fun e : string * bp => Pb (snd e)) l :=
              match l with
              | [] => Forall_nil _
              | (i, x) :: r => Forall_cons (i, x) (match x return Pb x with Static _ => I | Own v => unit_tree_ind v end) (go r)
              end) l)
    end.
End UnitInd.

(** [within u p w]: [w] is the unit reached from [u] through the instances named [p]. *)
Inductive within : unit -> list string -> unit -> Prop :=
  | within_here : forall u, within u [] u
  | within_in : forall u i v p w, In (i, Own v) (u_insts u) -> within v p w -> within u (i :: p) w.

Lemma write_as_module_eq : forall f m c u, write_as_module f m c u =
  (flat_map (fun e : string * bp => let (i, b) := e in match b with Static _ => [] | Own v => write_as_module f m (child c i) v end) (u_insts u) ++ (if f then [] else write_module m c u))%list.
Proof. intros f m c [n b x l]. reflexivity. Qed.
Lemma first_pass : forall m u c, write_as_module true m c u = [].
Proof.
  intros m u. induction u as [n b x l IH] using unit_tree_ind. intro c. rewrite write_as_module_eq. cbn [u_insts]. rewrite app_nil_r.
  induction l as [|[i q] r IHl]; [reflexivity|]. cbn [flat_map]. rewrite IHl; [|intros j v I; apply (IH j); right; exact I].
  destruct q; [reflexivity|]. rewrite (IH i u); [reflexivity|left; reflexivity].
Qed.
Lemma write_unit_eq : forall m t u, write_unit m t u = write_as_module false m {| top_name := t; instance_name := "" |} u.
Proof. intros. unfold write_unit. cbv zeta. rewrite first_pass. reflexivity. Qed.
Definition ctx_at (c : ictx) (p : list string) : ictx := fold_left child p c.
Lemma write_in : forall m u p w, within u p w -> forall c x, In x (write_module m (ctx_at c p) w) -> In x (write_as_module false m c u).
Proof.
  intros m u p w W. induction W as [u|u i v p w I W IH]; intros c x H; rewrite write_as_module_eq; apply in_app_iff.
  - right. exact H.
  - left. apply in_flat_map. exists (i, Own v). split; [exact I|]. apply IH. exact H.
Qed.
Lemma write_inv : forall m u c x, In x (write_as_module false m c u) -> exists p w, within u p w /\ In x (write_module m (ctx_at c p) w).
Proof.
  intros m u. induction u as [n b y l IH] using unit_tree_ind. intros c x H. rewrite write_as_module_eq in H. apply in_app_iff in H. destruct H as [H|H].
  - apply in_flat_map in H. destruct H as ([i q] & I & H). cbn [u_insts] in I. destruct q as [s|v]; [contradiction|].
    destruct (IH i v I _ _ H) as (p & w & W & K). exists (i :: p), w. split; [econstructor; [exact I|exact W]|exact K].
  - exists [], (Unit n b y l). split; [constructor|exact H].
Qed.
Lemma within_snoc : forall u p w, within u p w -> forall i v, In (i, Own v) (u_insts w) -> within u (p ++ [i])%list v.
Proof. intros u p w W. induction W as [u|u j x p w I W IH]; intros i v K; cbn [app]; econstructor; try eassumption; [constructor|apply IH; exact K]. Qed.

(** ** Static blueprints. *)
Definition item_name (t : item) : option string := match t with TImport _ n _ | TRiscv n _ => Some n | TAppend _ => None | TUnit u => Some (u_name u) end.
Definition static_of (t : item) : option static := match t with TImport _ _ m => Some (SVerilog m) | TRiscv _ m => Some (SRiscv m) | TAppend _ => None | TUnit u => Some (SUnit u) end.
Definition names (l : list item) : list string := flat_map (fun t => match item_name t with Some n => [n] | None => [] end) l.

Lemma find_app : forall a b n, find (a ++ b)%list n = match find a n with Some s => Some s | None => find b n end.
Proof. induction a as [|[k s] a IH]; intros b n; [reflexivity|]. cbn [find app]. destruct (String.eqb k n); [reflexivity|apply IH]. Qed.
Lemma find_insert : forall m k s n, find (insert m k s) n = match find m n with Some x => Some x | None => if String.eqb k n then Some s else None end.
Proof.
  intros m k s n. unfold insert. destruct (find m k) eqn:E.
  - destruct (find m n) eqn:F; [reflexivity|]. destruct (String.eqb k n) eqn:G; [apply String.eqb_eq in G; congruence|reflexivity].
  - rewrite find_app. reflexivity.
Qed.
Lemma gather_one_state : forall s t s', gather_one s t = Some s' ->
  s_order s' = (s_order s ++ names [t])%list /\
  (forall n, find (s_map s') n = match find (s_map s) n with Some x => Some x | None => match item_name t with Some k => if String.eqb k n then static_of t else None | None => None end end).
Proof.
  intros s [path k mods|mods|u|k mods] s' H; cbn [gather_one] in H.
  - destruct (find (s_map s) path); [discriminate|]. injection H as <-. cbn [s_order s_map]. split; [reflexivity|]. intro n. rewrite find_insert. reflexivity.
  - injection H as <-. cbn [s_order s_map]. split; [symmetry; apply app_nil_r|]. intro n. destruct (find (s_map s) n); reflexivity.
  - injection H as <-. cbn [s_order s_map]. split; [reflexivity|]. intro n. rewrite find_insert. reflexivity.
  - injection H as <-. cbn [s_order s_map]. split; [reflexivity|]. intro n. rewrite find_insert. reflexivity.
Qed.
(** The blueprint of a name is that of the first item of this name. *)
Fixpoint first_named (l : list item) (n : string) : option static :=
  match l with
  | [] => None
  | t :: r => match item_name t with Some k => if String.eqb k n then static_of t else first_named r n | None => first_named r n end
  end.
Lemma gather_state : forall l s s', gather s l = Some s' ->
  s_order s' = (s_order s ++ names l)%list /\ (forall n, find (s_map s') n = match find (s_map s) n with Some x => Some x | None => first_named l n end).
Proof.
  induction l as [|t l IH]; intros s s' H; cbn [gather] in H.
  - injection H as <-. split; [symmetry; apply app_nil_r|]. intro n. cbn [first_named]. destruct (find (s_map s) n); reflexivity.
  - destruct (gather_one s t) as [s1|] eqn:E; [|discriminate]. destruct (gather_one_state _ _ _ E) as [O1 F1]. destruct (IH _ _ H) as [O2 F2]. split.
    + rewrite O2, O1, <- app_assoc. f_equal. unfold names. cbn [flat_map]. rewrite app_nil_r. reflexivity.
    + intro n. rewrite F2, F1. cbn [first_named]. destruct (find (s_map s) n); [reflexivity|].
      destruct (item_name t) eqn:G; [|reflexivity]. destruct (String.eqb s0 n); [|reflexivity]. destruct t; cbn [item_name static_of] in *; try discriminate; reflexivity.
Qed.
Lemma first_named_in : forall l n s, first_named l n = Some s -> exists t, In t l /\ item_name t = Some n /\ static_of t = Some s.
Proof.
  induction l as [|t l IH]; intros n s H; cbn [first_named] in H; [discriminate|].
  assert (R : first_named l n = Some s -> exists t0, In t0 (t :: l) /\ item_name t0 = Some n /\ static_of t0 = Some s).
  { intro K. destruct (IH _ _ K) as (t0 & I & J). exists t0. split; [right; exact I|exact J]. }
  destruct (item_name t) as [k|] eqn:G; [|auto]. destruct (String.eqb k n) eqn:E; [|auto]. apply String.eqb_eq in E. subst k. exists t. auto using in_eq.
Qed.
Lemma first_named_none : forall l n, first_named l n = None <-> ~ In n (names l).
Proof.
  induction l as [|t l IH]; intro n; [cbn; tauto|]. cbn [first_named]. unfold names. cbn [flat_map]. fold (names l). rewrite in_app_iff.
  destruct (item_name t) as [k|] eqn:G; cbn [In].
  - destruct (String.eqb k n) eqn:E.
    + apply String.eqb_eq in E. split; intro H; [|destruct H; auto]. destruct t; cbn [item_name static_of] in *; discriminate.
    + apply String.eqb_neq in E. rewrite IH. tauto.
  - rewrite IH. tauto.
Qed.

(** ** Names of the modules of a unit, in parts. *)
Definition key := (string * list string * option string)%type. (* name of the unit, parts of the instances, memory *)
Definition kq (k : key) : list string * option string := let '(_, q, x) := k in (q, x).
Definition enc (tp : list string) (k : key) : list string :=
  let '(n, q, x) := k in
  match x with
  | None => if q then tp else "M" :: parts n ++ tp ++ q
  | Some y => if q then "M" :: parts n ++ "" :: "mem" :: parts y else "M" :: parts n ++ tp ++ q ++ "mem" :: parts y
  end%list.
Fixpoint keys (q : list string) (u : unit) : list key :=
  match u with
  | Unit n _ m l =>
      (flat_map (fun e : string * bp => let (i, b) := e in match b with Static _ => [] | Own v => keys (q ++ parts i) v end) l
       ++ map (fun x => (n, q, Some x)) m ++ [(n, q, None)])%list
  end.
Definition at_parts (tp q : list string) (c : ictx) : Prop :=
  (q = [] /\ instance_name c = "" /\ parts (top_name c) = tp) \/ (q <> [] /\ instance_name c <> "" /\ parts (instance_name c) = (tp ++ q)%list).
Lemma app_not_empty : forall a b, a ++ "_" ++ b <> "".
Proof. destruct a; discriminate. Qed.
Lemma at_child : forall tp q c i, at_parts tp q c -> at_parts tp (q ++ parts i) (child c i).
Proof.
  intros tp q c i H. right. split; [|split].
  - intro E. apply app_eq_nil in E. destruct E as [_ E]. exact (parts_ne _ E).
  - unfold child. cbn [instance_name]. apply app_not_empty.
  - unfold child, here. cbn [instance_name]. rewrite parts_app. destruct H as [(-> & -> & E)|(_ & N & E)]; [cbn [String.eqb app]; rewrite E; reflexivity|].
    apply String.eqb_neq in N. rewrite N, E, app_assoc. reflexivity.
Qed.
Lemma names_keys : forall tp m u q c, at_parts tp q c -> map (fun x : module => parts (fst x)) (write_as_module false m c u) = map (enc tp) (keys q u).
Proof.
  intros tp m u. induction u as [n b ms l IH] using unit_tree_ind. intros q c A. rewrite write_as_module_eq. cbn [u_insts keys]. rewrite !map_app. f_equal.
  - induction l as [|[i x] r IHl]; [reflexivity|]. cbn [flat_map]. rewrite !map_app. rewrite IHl; [|intros j v I; apply (IH j); right; exact I]. f_equal.
    destruct x as [s|v]; [reflexivity|]. apply (IH i); [left; reflexivity|]. apply at_child; exact A.
  - unfold write_module. cbn [u_mems u_name u_body]. rewrite map_app, !map_map. f_equal.
    + apply map_ext. intro x. unfold mem_module. cbn [fst u_name enc]. change ("M_" ++ ?z) with ("M" ++ "_" ++ z). rewrite !parts_app.
      change ("_mem_" ++ x) with ("_" ++ "mem" ++ "_" ++ x). rewrite !parts_app.
      destruct A as [(-> & -> & E)|(N & _ & ->)]; [reflexivity|]. destruct q; [congruence|]. rewrite <- !app_assoc. reflexivity.
    + cbn [map fst enc]. f_equal. unfold header. cbn [u_name]. destruct A as [(-> & -> & E)|(N & NN & E)].
      * exact E.
      * apply String.eqb_neq in NN. rewrite NN. destruct q; [congruence|]. change ("M_" ++ ?z) with ("M" ++ "_" ++ z). rewrite !parts_app, E. reflexivity.
Qed.

(** ** Conditions on names. *)
Definition marker (p : string) : Prop := p = "M" \/ p = "formal".
Definition starts_with (a b : list string) : Prop := exists r, b = (a ++ r)%list.
(** Two names: the parts of none start the parts of the other. *)
Definition apart (a b : string) : Prop := ~ starts_with (parts a) (parts b) /\ ~ starts_with (parts b) (parts a).
Definition unmarked (n : string) : Prop := Forall (fun p => ~ marker p) (parts n).
Definition no_mem (n : string) : Prop := Forall (fun p => p <> "mem") (parts n).
Definition unit_names_ok (u : unit) : Prop :=
  unmarked (u_name u) /\ NoDup (u_mems u) /\ Forall unmarked (u_mems u) /\
  ForallOrdPairs apart (map fst (u_insts u)) /\ Forall (fun i => unmarked i /\ no_mem i) (map fst (u_insts u)).
Definition tree_ok (u : unit) : Prop := forall p w, within u p w -> unit_names_ok w.

Lemma tree_ok_child : forall u i v, tree_ok u -> In (i, Own v) (u_insts u) -> tree_ok v.
Proof. intros u i v H I p w W. apply (H (i :: p)). econstructor; eassumption. Qed.

Definition key_ok (k : key) : Prop :=
  let '(n, q, x) := k in
  unmarked n /\ (q = [] -> no_mem n) /\ Forall (fun p => ~ marker p) q /\ Forall (fun p => p <> "mem") q /\ match x with Some y => unmarked y | None => True end.
Lemma keys_ok : forall u q, tree_ok u -> (q = [] -> no_mem (u_name u)) -> Forall (fun p => ~ marker p) q -> Forall (fun p => p <> "mem") q -> Forall key_ok (keys q u).
Proof.
  intros u. induction u as [n b ms l IH] using unit_tree_ind. intros q T Q0 Q1 Q2. cbn [keys].
  destruct (T [] _ (within_here _)) as (U & _ & Um & _ & Ui). cbn [u_name u_mems u_insts] in *.
  apply Forall_app. split; [|apply Forall_app; split].
  - rewrite Forall_forall. intros k K. apply in_flat_map in K. destruct K as ([i x] & I & K). destruct x as [s|v]; [contradiction|].
    pose proof (proj1 (Forall_forall _ _) Ui i (in_map fst _ _ I)) as [Mi Mm].
    assert (F : Forall key_ok (keys (q ++ parts i) v)).
    { apply (IH i); [exact I|exact (tree_ok_child _ _ _ T I)|intro Z; apply app_eq_nil in Z; destruct (parts_ne _ (proj2 Z))|apply Forall_app; split; assumption|apply Forall_app; split; assumption]. }
    rewrite Forall_forall in F. exact (F k K).
  - rewrite Forall_map. apply Forall_forall. intros x I. rewrite Forall_forall in Um. exact (conj U (conj Q0 (conj Q1 (conj Q2 (Um x I))))).
  - constructor; [exact (conj U (conj Q0 (conj Q1 (conj Q2 I))))|constructor].
Qed.
Lemma keys_path : forall u q k, In k (keys q u) -> starts_with q (fst (kq k)).
Proof.
  intros u. induction u as [n b ms l IH] using unit_tree_ind. intros q k K. cbn [keys] in K. rewrite !in_app_iff in K. destruct K as [K|[K|K]].
  - apply in_flat_map in K. destruct K as ([i x] & I & K). destruct x as [s|v]; [contradiction|]. destruct (IH i v I _ _ K) as (r & E).
    exists (parts i ++ r)%list. rewrite E, app_assoc. reflexivity.
  - apply in_map_iff in K. destruct K as (x & <- & _). exists []. symmetry; apply app_nil_r.
  - destruct K as [ <-|[]]. exists []. symmetry; apply app_nil_r.
Qed.
Lemma app_prefixes : forall {A} (a b r s : list A), (a ++ r = b ++ s)%list -> (exists t, b = (a ++ t)%list) \/ (exists t, a = (b ++ t)%list).
Proof.
  induction a as [|x a IH]; intros [|y b] r s E.
  - left. exists []. reflexivity.
  - left. exists (y :: b). reflexivity.
  - right. exists (x :: a). reflexivity.
  - cbn [app] in E. injection E as -> E. destruct (IH _ _ _ E) as [(t & ->)|(t & ->)]; [left|right]; exists t; reflexivity.
Qed.
Lemma keys_nodup : forall u q, tree_ok u -> NoDup (map kq (keys q u)).
Proof.
  intros u. induction u as [n b ms l IH] using unit_tree_ind. intros q T. cbn [keys].
  destruct (T [] _ (within_here _)) as (_ & Nm & _ & Ap & _). cbn [u_mems u_insts] in *.
  assert (Own' : forall i v, In (i, Own v) l -> tree_ok v) by (intros i v I; exact (tree_ok_child _ _ _ T I)). clear T.
  rewrite !map_app. apply nodup_app.
  - rewrite flat_map_concat_map, concat_map, map_map, <- flat_map_concat_map. apply nodup_flat.
    + intros [i [s|v]] I; [constructor|]. apply (IH i); [exact I|exact (Own' _ _ I)].
    + clear IH Own'. induction l as [|[i x] r IHl]; [constructor|]. cbn [map fst] in Ap. inversion Ap as [|? ? H1 H2]; subst. constructor; [|apply IHl; exact H2].
      apply Forall_forall. intros [j y] I z Hz Hz'. destruct x as [s|v]; [contradiction|]. destruct y as [s|w]; [contradiction|].
      apply in_map_iff in Hz. destruct Hz as (k1 & <- & K1). apply in_map_iff in Hz'. destruct Hz' as (k2 & E & K2).
      destruct (keys_path _ _ _ K1) as (r1 & E1). destruct (keys_path _ _ _ K2) as (r2 & E2). rewrite E in E2. rewrite E2 in E1.
      rewrite <- !app_assoc in E1. apply app_inv_head in E1.
      rewrite Forall_forall in H1. destruct (H1 j (in_map fst _ _ I)) as [A1 A2]. cbn [fst] in *.
      destruct (app_prefixes _ _ _ _ E1) as [P|P]; [exact (A2 P)|exact (A1 P)].
  - rewrite map_map. cbn [kq map]. apply nodup_app.
    + apply (nodup_map_via _ (fun x => x)); [rewrite map_id; exact Nm|]. intros a c _ _ E. injection E as ->. reflexivity.
    + constructor; [intros []|constructor].
    + intros x I. apply in_map_iff in I. destruct I as (y & <- & _). intros [E|[]]. discriminate.
  - intros z Hz Hz'. rewrite map_map in Hz'. cbn [kq map] in Hz'.
    assert (fst z = q) as Q.
    { apply in_app_iff in Hz'. destruct Hz' as [H|[ <-|[]]]; [|reflexivity]. apply in_map_iff in H. destruct H as (y & <- & _). reflexivity. }
    rewrite in_map_iff in Hz. destruct Hz as (k & <- & K). apply in_flat_map in K. destruct K as ([i [s|v]] & I & K); [contradiction|].
    destruct (keys_path _ _ _ K) as (r & E). rewrite Q, <- app_assoc in E. rewrite <- (app_nil_r q) in E at 1. apply app_inv_head in E. symmetry in E. apply app_eq_nil in E.
    exact (parts_ne _ (proj1 E)).
Qed.

(** ** Names give back the position. *)
Definition top_ok (tp : list string) : Prop := exists mk T, marker mk /\ tp = mk :: parts T /\ unmarked T /\ no_mem T.
Lemma app_c : forall {A} (a : list A) x q r, (a ++ x :: q ++ r = (a ++ x :: q) ++ r)%list.
Proof. intros. rewrite <- app_assoc. reflexivity. Qed.
Lemma enc_inj : forall tp1 tp2 k1 k2, top_ok tp1 -> top_ok tp2 -> key_ok k1 -> key_ok k2 -> enc tp1 k1 = enc tp2 k2 ->
  snd (kq k1) = snd (kq k2) /\
  ((tp1 ++ fst (kq k1) = tp2 ++ fst (kq k2))%list \/ (fst (kq k1) = [] /\ fst (kq k2) = [] /\ fst (fst k1) = fst (fst k2))).
Proof.
  intros tp1 tp2 [[n1 q1] x1] [[n2 q2] x2] (m1 & T1 & M1 & -> & A1 & B1) (m2 & T2 & M2 & -> & A2 & B2) (N1 & Z1 & Q1 & R1 & X1) (N2 & Z2 & Q2 & R2 & X2) E.
  cbn [kq fst snd]. unfold unmarked, no_mem in *.
  assert (ME : ~ marker "") by (intros [H|H]; discriminate). assert (MM : ~ marker "mem") by (intros [H|H]; discriminate).
  assert (CM : forall n y, Forall (fun p => ~ marker p) (parts n) -> Forall (fun p => ~ marker p) (parts y) -> Forall (fun p => ~ marker p) (parts n ++ "" :: "mem" :: parts y)%list).
  { intros n y Hn Hy. apply Forall_app. split; [exact Hn|]. constructor; [exact ME|]. constructor; [exact MM|exact Hy]. }
  assert (TQ : forall T q, Forall (fun p => p <> "mem") (parts T) -> Forall (fun p => p <> "mem") q -> Forall (fun p => ~ p = "mem") (parts T ++ q)%list).
  { intros T q Ht Hq. apply Forall_app. split; assumption. }
  destruct x1 as [y1|], x2 as [y2|]; unfold enc in E; destruct q1 as [|a1 q1], q2 as [|a2 q2].
  - injection E as E. change (parts n1 ++ "" :: "mem" :: parts y1)%list with (parts n1 ++ [""] ++ "mem" :: parts y1)%list in E. change (parts n2 ++ "" :: "mem" :: parts y2)%list with (parts n2 ++ [""] ++ "mem" :: parts y2)%list in E.
    rewrite !app_assoc in E. apply (first_unique (fun p => p = "mem")) in E; try reflexivity.
    + destruct E as (E & _ & F). apply app_inj_tail in E. destruct E as [E _]. apply parts_inj in E, F. subst. split; [reflexivity|]. right. auto.
    + apply Forall_app; split; [exact (Z1 eq_refl)|constructor; [discriminate|constructor]].
    + apply Forall_app; split; [exact (Z2 eq_refl)|constructor; [discriminate|constructor]].
  - exfalso. injection E as E. exact (first_none marker _ _ _ _ (CM _ _ N1 X1) M2 E).
  - exfalso. injection E as E. symmetry in E. exact (first_none marker _ _ _ _ (CM _ _ N2 X2) M1 E).
  - injection E as E. apply (first_unique marker) in E; auto. destruct E as (_ & -> & E).
    rewrite !app_c in E. apply (first_unique (fun p => p = "mem")) in E; try reflexivity; try (apply TQ; assumption).
    destruct E as (E & _ & F). apply parts_inj in F. subst. split; [reflexivity|]. left. cbn [app]. f_equal. exact E.
  - exfalso. injection E as _ E. symmetry in E.
    change (parts n1 ++ "" :: "mem" :: parts y1)%list with (parts n1 ++ [""] ++ "mem" :: parts y1)%list in E. rewrite app_assoc in E.
    apply (first_none (fun p => p = "mem") _ _ _ _ B2 eq_refl E).
  - exfalso. injection E as E. change ((m2 :: parts T2) ++ a2 :: q2)%list with (m2 :: parts T2 ++ a2 :: q2)%list in E. symmetry in E. exact (first_none marker _ _ _ _ (CM _ _ N1 X1) M2 (eq_sym E)).
  - exfalso. injection E as _ E. symmetry in E. exact (first_none marker _ _ _ _ A2 M1 E).
  - exfalso. injection E as E. apply (first_unique marker) in E; auto. destruct E as (_ & _ & E). rewrite app_c in E. symmetry in E.
    refine (first_none (fun p => p = "mem") _ _ _ _ (TQ _ _ B2 R2) eq_refl E).
  - exfalso. injection E as _ E. 
    change (parts n2 ++ "" :: "mem" :: parts y2)%list with (parts n2 ++ [""] ++ "mem" :: parts y2)%list in E. rewrite app_assoc in E.
    apply (first_none (fun p => p = "mem") _ _ _ _ B1 eq_refl E).
  - exfalso. injection E as _ E. exact (first_none marker _ _ _ _ A1 M2 E).
  - exfalso. injection E as E. symmetry in E. exact (first_none marker _ _ _ _ (CM _ _ N2 X2) M1 E).
  - exfalso. injection E as E. apply (first_unique marker) in E; auto. destruct E as (_ & _ & E). rewrite app_c in E.
    refine (first_none (fun p => p = "mem") _ _ _ _ (TQ _ _ B1 R1) eq_refl E).
  - split; [reflexivity|]. left. rewrite !app_nil_r. exact E.
  - exfalso. injection E as _ E. exact (first_none marker _ _ _ _ A1 M2 E).
  - exfalso. injection E as _ E. symmetry in E. exact (first_none marker _ _ _ _ A2 M1 E).
  - injection E as E. apply (first_unique marker) in E; auto. destruct E as (_ & -> & E). split; [reflexivity|]. left. cbn [app]. f_equal. exact E.
Qed.

(** Modules of the units written from the top: [f] for formal ones. *)
Definition label (t : bool * unit) : string := if fst t then u_name (snd t) ++ "$" else u_name (snd t).
Definition top_parts (t : bool * unit) : list string := (if fst t then "formal" else "M") :: parts (label t).
Definition top_of (t : bool * unit) : string := (if fst t then "formal_" else "M_") ++ label t.
Lemma top_of_parts : forall t, parts (top_of t) = top_parts t.
Proof. intros [[|] u]; unfold top_of, top_parts; cbn [fst]; [change ("formal_" ++ ?z) with ("formal" ++ "_" ++ z)|change ("M_" ++ ?z) with ("M" ++ "_" ++ z)]; rewrite parts_app; reflexivity. Qed.
Definition write_top (m : statics) (t : bool * unit) : list module := write_unit m (top_of t) (snd t).
Lemma write_top_keys : forall m t, map (fun x : module => parts (fst x)) (write_top m t) = map (enc (top_parts t)) (keys [] (snd t)).
Proof. intros m t. unfold write_top. rewrite write_unit_eq. apply names_keys. left. split; [reflexivity|]. split; [reflexivity|]. apply top_of_parts. Qed.

Definition tops_ok (l : list (bool * unit)) : Prop :=
  NoDup (map (fun t => u_name (snd t)) l) /\
  ForallOrdPairs (fun a b => fst a = fst b -> apart (label a) (label b)) l /\
  (forall t, In t l -> unmarked (label t) /\ no_mem (label t) /\ no_mem (u_name (snd t)) /\ tree_ok (snd t)).

Lemma root_name : forall u k, In k (keys [] u) -> fst (kq k) = [] -> fst (fst k) = u_name u.
Proof.
  intros [n b ms l] k K E. cbn [keys] in K. rewrite !in_app_iff in K. destruct K as [K|[K|K]].
  - exfalso. apply in_flat_map in K. destruct K as ([i [s|v]] & I & K); [contradiction|]. destruct (keys_path _ _ _ K) as (r & F). rewrite E in F. cbn [app] in F.
    symmetry in F. apply app_eq_nil in F. exact (parts_ne _ (proj1 F)).
  - apply in_map_iff in K. destruct K as (x & <- & _). reflexivity.
  - destruct K as [ <-|[]]. reflexivity.
Qed.
Lemma marker_inj : forall a b, apart a b -> forall q r, (parts a ++ q)%list <> (parts b ++ r)%list.
Proof. intros a b [A1 A2] q r E. destruct (app_prefixes _ _ _ _ E) as [P|P]; [exact (A1 P)|exact (A2 P)]. Qed.

Lemma tops_nodup : forall m l, tops_ok l -> NoDup (map (fun x : module => parts (fst x)) (flat_map (write_top m) l)).
Proof.
  intros m l (ND & AP & OK). rewrite flat_map_concat_map, concat_map, map_map, <- flat_map_concat_map.
  assert (TK : forall t, In t l -> top_ok (top_parts t) /\ Forall key_ok (keys [] (snd t))).
  { intros t I. destruct (OK t I) as (U & N & N' & T). split.
    - exists (if fst t then "formal" else "M"), (label t). split; [destruct (fst t); [right|left]; reflexivity|auto].
    - apply keys_ok; auto. }
  apply nodup_flat.
  - intros t I. rewrite write_top_keys. destruct (TK t I) as [T1 T2]. rewrite Forall_forall in T2.
    apply (nodup_map_via _ kq); [apply keys_nodup; apply OK; exact I|]. intros a b Ia Ib E.
    destruct (enc_inj _ _ _ _ T1 T1 (T2 a Ia) (T2 b Ib) E) as [F G]. destruct (kq a) as [qa xa], (kq b) as [qb xb]. cbn [fst snd] in *.
    destruct G as [G|(-> & -> & _)]; [|subst; reflexivity]. apply app_inv_head in G. subst. reflexivity.
  - clear OK. induction l as [|t l IH]; [constructor|]. inversion AP as [|? ? A1 A2]; subst. cbn [map] in ND. inversion ND as [|? ? N1 N2]; subst. constructor.
    + apply Forall_forall. intros t' I x Hx Hy. rewrite write_top_keys in Hx, Hy. apply in_map_iff in Hx. destruct Hx as (a & <- & Ia). apply in_map_iff in Hy. destruct Hy as (b & E & Ib).
      destruct (TK t (or_introl eq_refl)) as [T1 T2]. destruct (TK t' (or_intror I)) as [T1' T2']. rewrite Forall_forall in T2, T2'. symmetry in E.
      destruct (enc_inj _ _ _ _ T1 T1' (T2 a Ia) (T2' b Ib) E) as [_ [G|(Ea & Eb & G)]].
      * unfold top_parts in G. cbn [app] in G. injection G as G1 G2. rewrite Forall_forall in A1. apply (marker_inj _ _ (A1 t' I ltac:(destruct (fst t), (fst t'); try discriminate; reflexivity)) _ _ G2).
      * apply N1. rewrite (root_name _ _ Ia Ea), (root_name _ _ Ib Eb) in G. rewrite G. apply (in_map (fun t => u_name (snd t))). exact I.
    + apply IH; [exact N2|exact A2|]. intros t' I. apply TK. right; exact I.
Qed.
