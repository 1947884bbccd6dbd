(** C60: every instance and every memory refers to the module written for it, and modules have different names. *)
From Coq Require Import String Ascii List Bool.
From Verif Require Import ModModel ModProofs.
Import ListNotations.
Local Open Scope string_scope.

(** The units written from the top: static ones, the one exported, formal ones. *)
Definition units (l : list item) : list unit := flat_map (fun t => match t with TUnit u => [u] | _ => [] end) l.
Definition tops (d : design) : list (bool * unit) := (map (pair false) (units (d_items d)) ++ [(false, d_top d)] ++ map (pair true) (d_formals d))%list.
(** Unit [w] of the design, below the unit [t]. *)
Definition unit_of (d : design) (w : unit) : Prop := exists t p, In t (tops d) /\ within (snd t) p w.
(** Static blueprints are those found at top level. *)
Definition resolved (d : design) : Prop :=
  forall w i b, unit_of d w -> In (i, b) (u_insts w) -> match b with Static n => In n (names (d_items d)) | Own v => ~ In (u_name v) (names (d_items d)) end.
(** Verilog files have the module they are imported for, files of riscv units the one of the unit. *)
Definition provided (d : design) : Prop :=
  (forall path n mods, In (TImport path n mods) (d_items d) -> In n mods) /\ (forall n mods, In (TRiscv n mods) (d_items d) -> In ("M_" ++ n) mods).

Lemma str_app_nil : forall s, s ++ "" = s.
Proof. induction s as [|c r IH]; [reflexivity|]. cbn [append]. rewrite IH. reflexivity. Qed.
Lemma output_inv : forall d o, output d = Some o -> exists s, gather start (d_items d) = Some s /\
  s_order s = names (d_items d) /\ (forall n, find (s_map s) n = first_named (d_items d) n) /\
  o = (others_of (d_framework d) ++ others_of (s_appends s) ++ flat_map (write_static (s_map s)) (names (d_items d))
       ++ flat_map (write_top (s_map s)) ((false, d_top d) :: map (pair true) (d_formals d)))%list.
Proof.
  intros d o H. unfold output in H. destruct (gather start (d_items d)) as [s|] eqn:G; [|discriminate]. injection H as <-. exists s.
  destruct (gather_state _ _ _ G) as [O F]. cbn [start s_order s_map find app] in O, F. split; [reflexivity|]. split; [exact O|]. split; [exact F|].
  rewrite O. do 3 f_equal. cbn [flat_map]. unfold write_top at 1, top_of, label. cbn [fst snd]. f_equal.
  induction (d_formals d) as [|u l IH]; [reflexivity|]. cbn [flat_map map]. rewrite IH. reflexivity.
Qed.
(** Which units are written: a static one if it is the one found under its name. *)
Lemma write_static_unit : forall d s u, (forall n, find (s_map s) n = first_named (d_items d) n) -> NoDup (names (d_items d)) -> In u (units (d_items d)) ->
  write_static (s_map s) (u_name u) = write_top (s_map s) (false, u) /\ In (u_name u) (names (d_items d)).
Proof.
  intros d s u F N I. assert (J : first_named (d_items d) (u_name u) = Some (SUnit u) /\ In (u_name u) (names (d_items d))).
  { clear F. induction (d_items d) as [|t l IH]; [contradiction|]. unfold units in I. cbn [flat_map] in I. fold (units l) in I. apply in_app_iff in I.
    unfold names in N |- *. cbn [flat_map] in N |- *. fold (names l) in N |- *. cbn [first_named].
    assert (R : In u (units l) -> first_named (t :: l) (u_name u) = Some (SUnit u) /\ In (u_name u) ((match item_name t with Some n => [n] | None => [] end) ++ names l)%list).
    { intro K. cbn [first_named]. destruct (item_name t) as [k|] eqn:E; cbn [app] in N |- *.
      - inversion N as [|? ? N1 N2]; subst. destruct (IH N2 K) as [A B]. destruct (String.eqb k (u_name u)) eqn:Q; [apply String.eqb_eq in Q; subst k; contradiction|]. split; [exact A|right; exact B].
      - exact (IH N K). }
    destruct I as [I|I]; [|exact (R I)]. destruct t; try contradiction. destruct I as [ ->|[]]. cbn [item_name static_of]. rewrite String.eqb_refl. split; [reflexivity|left; reflexivity]. }
  destruct J as [J K]. split; [|exact K]. unfold write_static. rewrite F, J. reflexivity.
Qed.
Lemma unit_written : forall d o s, (forall n, find (s_map s) n = first_named (d_items d) n) -> NoDup (names (d_items d)) ->
  o = (others_of (d_framework d) ++ others_of (s_appends s) ++ flat_map (write_static (s_map s)) (names (d_items d))
       ++ flat_map (write_top (s_map s)) ((false, d_top d) :: map (pair true) (d_formals d)))%list ->
  forall t, In t (tops d) -> incl (write_top (s_map s) t) o.
Proof.
  intros d o s F N -> t I x X. unfold tops in I. rewrite !in_app_iff in I. rewrite !in_app_iff. destruct I as [I|I].
  - right. right. left. apply in_map_iff in I. destruct I as (u & <- & I). destruct (write_static_unit d s u F N I) as [E K]. apply in_flat_map. exists (u_name u). split; [exact K|]. rewrite E. exact X.
  - right. right. right. apply in_flat_map. exists t. split; [|exact X]. destruct I as [I|I]; [left; destruct I as [I|[]]; exact I|right; exact I].
Qed.
(** Every module written for a unit is at a position of the design. *)
Lemma module_position : forall d o s x, (forall n, find (s_map s) n = first_named (d_items d) n) ->
  o = (others_of (d_framework d) ++ others_of (s_appends s) ++ flat_map (write_static (s_map s)) (names (d_items d))
       ++ flat_map (write_top (s_map s)) ((false, d_top d) :: map (pair true) (d_formals d)))%list ->
  In x o -> snd x <> DOther -> exists t, In t (tops d) /\ In x (write_top (s_map s) t) /\ incl (write_top (s_map s) t) o.
Proof.
  intros d o s x F -> I D. rewrite !in_app_iff in I.
  assert (O : forall l, In x (others_of l) -> False).
  { intros l K. apply in_map_iff in K. destruct K as (y & <- & _). apply D. reflexivity. }
  destruct I as [I|[I|[I|I]]]; [destruct (O _ I)|destruct (O _ I)| |].
  - apply in_flat_map in I. destruct I as (n & I & X). unfold write_static in X. rewrite F in X. destruct (first_named (d_items d) n) as [st|] eqn:E; [|contradiction].
    destruct st as [mods|mods|u]; [destruct (O _ X)|destruct (O _ X)|]. destruct (first_named_in _ _ _ E) as (it & J & K & L).
    destruct it; cbn [static_of item_name] in *; try discriminate. injection L as ->. exists (false, u). split; [|split].
    + unfold tops. apply in_app_iff. left. apply in_map. unfold units. apply in_flat_map. exists (TUnit u). split; [exact J|left; reflexivity].
    + exact X.
    + intros y Y. rewrite !in_app_iff. right. right. left. apply in_flat_map. exists n. split; [exact I|]. unfold write_static. rewrite F, E. exact Y.
  - apply in_flat_map in I. destruct I as (t & I & X). exists t. split; [|split].
    + unfold tops. rewrite !in_app_iff. right. destruct I as [I|I]; [left; left; exact I|right; exact I].
    + exact X.
    + intros y Y. rewrite !in_app_iff. right. right. right. apply in_flat_map. exists t. auto.
Qed.
Definition root_ctx (t : bool * unit) : ictx := {| top_name := top_of t; instance_name := "" |}.
Lemma write_top_eq : forall m t, write_top m t = write_as_module false m (root_ctx t) (snd t).
Proof. intros m t. apply write_unit_eq. Qed.
Lemma own_ref : forall m c v i, find m (u_name v) = None -> ref_of m c (i, Own v) = (i, header (child c i) v).
Proof.
  intros m c v i F. unfold ref_of. cbn [bp_name]. rewrite F. f_equal. unfold module_name, header, child. cbn [instance_name].
  assert (N : here c ++ "_" ++ i <> "") by apply app_not_empty. apply String.eqb_neq in N. rewrite N. reflexivity.
Qed.
Lemma ctx_snoc : forall c p i, ctx_at c (p ++ [i])%list = child (ctx_at c p) i.
Proof. intros. unfold ctx_at. rewrite fold_left_app. reflexivity. Qed.
Lemma own_module_in : forall m t p w i v, within (snd t) p w -> In (i, Own v) (u_insts w) ->
  exists refs, In (header (child (ctx_at (root_ctx t) p) i) v, DUnit (u_body v) refs) (write_top m t).
Proof.
  intros m t p w i v W I. eexists. rewrite write_top_eq. apply (write_in m _ _ _ (within_snoc _ _ _ W _ _ I)). rewrite ctx_snoc. unfold write_module. apply in_app_iff. right. left. reflexivity.
Qed.
Lemma module_in : forall m t p w, within (snd t) p w ->
  In (header (ctx_at (root_ctx t) p) w, DUnit (u_body w) (map (ref_of m (ctx_at (root_ctx t) p)) (u_insts w) ++ map (mem_ref (ctx_at (root_ctx t) p) w) (u_mems w))) (write_top m t).
Proof. intros m t p w W. rewrite write_top_eq. apply (write_in m _ _ _ W). unfold write_module. apply in_app_iff. right. left. reflexivity. Qed.
Lemma mem_in : forall m t p w x, within (snd t) p w -> In x (u_mems w) -> In (mem_module (ctx_at (root_ctx t) p) w x, DMem x) (write_top m t).
Proof. intros m t p w x W I. rewrite write_top_eq. apply (write_in m _ _ _ W). unfold write_module. apply in_app_iff. left. apply (in_map (fun x => (mem_module (ctx_at (root_ctx t) p) w x, DMem x))). exact I. Qed.

(** Whatever a module instantiates is a module of the output. *)
Theorem C60_referred : forall d o n b refs cell x, output d = Some o -> resolved d -> provided d ->
  In (n, DUnit b refs) o -> In (cell, x) refs -> In x (map fst o).
Proof.
  intros d o n b refs cell x H R [P1 P2] I J. destruct (output_inv _ _ H) as (s & G & O & F & E).
  destruct (module_position d o s _ F E I ltac:(discriminate)) as (t & T & X & INC). rewrite write_top_eq in X. destruct (write_inv _ _ _ _ X) as (p & w & W & K).
  unfold write_module in K. apply in_app_iff in K. destruct K as [K|K]; [apply in_map_iff in K; destruct K as (y & K & _); discriminate|].
  destruct K as [K|[]]. injection K as <- <- <-. apply in_app_iff in J. destruct J as [J|J].
  - apply in_map_iff in J. destruct J as ([i q] & J & Iq). pose proof (R w i q (ex_intro _ t (ex_intro _ p (conj T W))) Iq) as Rq. destruct q as [k|v].
    + unfold ref_of in J. cbn [bp_name] in J. rewrite F in J. destruct (first_named (d_items d) k) as [st|] eqn:Q; [|apply first_named_none in Q; contradiction].
      injection J as <- <-. destruct (first_named_in _ _ _ Q) as (it & I1 & I2 & I3).
      assert (WS : incl (write_static (s_map s) k) o).
      { rewrite E. intros y Y. rewrite !in_app_iff. right. right. left. apply in_flat_map. exists k. auto. }
      assert (KN : exists df, In (static_module k st, df) (write_static (s_map s) k)).
      { unfold write_static. rewrite F, Q. destruct st as [mods|mods|u]; destruct it; cbn [static_of item_name] in *; try discriminate; injection I3 as ->; injection I2 as I2; subst.
        - exists DOther. apply (in_map (fun x => (x, DOther))). exact (P1 _ _ _ I1).
        - exists DOther. apply (in_map (fun x => (x, DOther))). exact (P2 _ _ I1).
        - pose proof (module_in (s_map s) (false, u) [] u (within_here u)) as M. eexists. cbn [static_module]. unfold module_name. rewrite str_app_nil. exact M. }
      destruct KN as (df & KN). exact (in_map fst _ _ (WS _ KN)).
    + rewrite own_ref in J; [|rewrite F; apply first_named_none; exact Rq]. injection J as <- <-.
      destruct (own_module_in (s_map s) t p w i v W Iq) as (rf & M). exact (in_map fst _ _ (INC _ M)).
  - apply in_map_iff in J. destruct J as (y & J & Iy). injection J as <- <-. exact (in_map fst _ _ (INC _ (mem_in (s_map s) t p w y W Iy))).
Qed.

(** Each instance of a unit that is not static refers to a module with the text of the unit parsed for this instance. *)
Theorem C60_own_module : forall d o w i v, output d = Some o -> NoDup (names (d_items d)) -> resolved d -> unit_of d w -> In (i, Own v) (u_insts w) ->
  exists n refs x refs', In (n, DUnit (u_body w) refs) o /\ In (i, x) refs /\ In (x, DUnit (u_body v) refs') o.
Proof.
  intros d o w i v H N R U I. destruct (output_inv _ _ H) as (s & G & O & F & E). pose proof (R w i _ U I) as Rq. cbn in Rq. destruct U as (t & p & T & W).
  pose proof (unit_written d o s F N E t T) as INC. destruct (own_module_in (s_map s) t p w i v W I) as (rf & M).
  pose proof (module_in (s_map s) t p w W) as M0. eexists _, _, _, rf. split; [exact (INC _ M0)|]. split; [|exact (INC _ M)].
  apply in_app_iff. left. apply in_map_iff. exists (i, Own v). split; [|exact I]. apply own_ref. rewrite F. apply first_named_none. exact Rq.
Qed.
(** Each memory of a unit refers to a module written for it. *)
Theorem C60_memories : forall d o w x, output d = Some o -> NoDup (names (d_items d)) -> unit_of d w -> In x (u_mems w) ->
  exists n refs y, In (n, DUnit (u_body w) refs) o /\ In ("__mem__" ++ x, y) refs /\ In (y, DMem x) o.
Proof.
  intros d o w x H N (t & p & T & W) I. destruct (output_inv _ _ H) as (s & G & O & F & E). pose proof (unit_written d o s F N E t T) as INC.
  eexists _, _, _. split; [exact (INC _ (module_in (s_map s) t p w W))|]. split; [|exact (INC _ (mem_in (s_map s) t p w x W I))].
  apply in_app_iff. right. apply (in_map (mem_ref (ctx_at (root_ctx t) p) w)). exact I.
Qed.
(** All instances of a static blueprint refer to the same module. *)
Theorem C60_static : forall d o n, output d = Some o -> NoDup (names (d_items d)) -> provided d -> In n (names (d_items d)) ->
  exists x, In x (map fst o) /\ forall w i, unit_of d w -> In (i, Static n) (u_insts w) -> exists m refs, In (m, DUnit (u_body w) refs) o /\ In (i, x) refs.
Proof.
  intros d o n H N [P1 P2] I. destruct (output_inv _ _ H) as (s & G & O & F & E).
  destruct (first_named (d_items d) n) as [st|] eqn:Q; [|apply first_named_none in Q; contradiction]. exists (static_module n st). split.
  - destruct (first_named_in _ _ _ Q) as (it & I1 & I2 & I3).
    assert (WS : incl (write_static (s_map s) n) o).
    { rewrite E. intros y Y. rewrite !in_app_iff. right. right. left. apply in_flat_map. exists n. auto. }
    assert (KN : exists df, In (static_module n st, df) (write_static (s_map s) n)).
    { unfold write_static. rewrite F, Q. destruct st as [mods|mods|u]; destruct it; cbn [static_of item_name] in *; try discriminate; injection I3 as ->; injection I2 as I2; subst.
      - exists DOther. apply (in_map (fun x => (x, DOther))). exact (P1 _ _ _ I1).
      - exists DOther. apply (in_map (fun x => (x, DOther))). exact (P2 _ _ I1).
      - pose proof (module_in (s_map s) (false, u) [] u (within_here u)) as M. eexists. cbn [static_module]. unfold module_name. rewrite str_app_nil. exact M. }
    destruct KN as (df & KN). exact (in_map fst _ _ (WS _ KN)).
  - intros w i (t & p & T & W) J. eexists _, _. split; [exact (unit_written d o s F N E t T _ (module_in (s_map s) t p w W))|]. apply in_app_iff. left. apply in_map_iff.
    exists (i, Static n). split; [|exact J]. unfold ref_of. cbn [bp_name]. rewrite F, Q. reflexivity.
Qed.

(** Modules written for units and memories. *)
Definition written (o : list module) : list module := filter (fun x => match snd x with DOther => false | _ => true end) o.
Lemma written_others : forall l, written (others_of l) = [].
Proof. induction l as [|x l IH]; [reflexivity|exact IH]. Qed.
Lemma written_all : forall m t, written (write_top m t) = write_top m t.
Proof.
  intros m t. rewrite write_top_eq. assert (K : forall l : list module, (forall x, In x l -> snd x <> DOther) -> written l = l).
  { induction l as [|x l IH]; intro H; [reflexivity|]. unfold written. cbn [filter]. fold (written l). rewrite IH; [|intros y I; apply H; right; exact I].
    pose proof (H x (or_introl eq_refl)) as D. destruct (snd x); [reflexivity|reflexivity|congruence]. }
  apply K. intros x I. destruct (write_inv _ _ _ _ I) as (p & w & _ & J). unfold write_module in J. apply in_app_iff in J.
  destruct J as [J|[ <-|[]]]; [apply in_map_iff in J; destruct J as (y & <- & _)|]; discriminate.
Qed.
Lemma written_app : forall a b, written (a ++ b)%list = (written a ++ written b)%list.
Proof. intros. apply filter_app. Qed.
Lemma written_tops : forall m l, written (flat_map (write_top m) l) = flat_map (write_top m) l.
Proof. induction l as [|t l IH]; [reflexivity|]. cbn [flat_map]. rewrite written_app, written_all, IH. reflexivity. Qed.
Lemma written_statics : forall m l, NoDup (names l) -> (forall n, In n (names l) -> find m n = first_named l n) ->
  written (flat_map (write_static m) (names l)) = flat_map (write_top m) (map (pair false) (units l)).
Proof.
  induction l as [|t l IH]; intros N F; [reflexivity|]. unfold names in N, F |- *. cbn [flat_map] in N, F |- *. fold (names l) in N, F |- *.
  unfold units. cbn [flat_map]. fold (units l). rewrite flat_map_app, written_app, map_app, flat_map_app.
  assert (R : forall n, In n (names l) -> find m n = first_named l n).
  { intros n I. rewrite F; [|apply in_app_iff; right; exact I]. cbn [first_named]. destruct (item_name t) as [k|]; [|reflexivity]. cbn [app] in N. inversion N; subst.
    destruct (String.eqb k n) eqn:Q; [apply String.eqb_eq in Q; subst; contradiction|reflexivity]. }
  assert (N' : NoDup (names l)) by (destruct (item_name t); cbn [app] in N; [inversion N; assumption|exact N]).
  rewrite (IH N' R). f_equal. destruct t as [path k mods|mods|u|k mods]; cbn [item_name flat_map map app] in *; [| reflexivity | |].
  - rewrite app_nil_r. unfold write_static. rewrite F; [|left; reflexivity]. cbn [first_named item_name static_of]. rewrite String.eqb_refl. apply written_others.
  - rewrite !app_nil_r. unfold write_static. rewrite F; [|left; reflexivity]. cbn [first_named item_name static_of]. rewrite String.eqb_refl. apply (written_all m (false, u)).
  - rewrite app_nil_r. unfold write_static. rewrite F; [|left; reflexivity]. cbn [first_named item_name static_of]. rewrite String.eqb_refl. apply written_others.
Qed.

(** If names keep apart, no two modules written have the same name. [tops_ok]: units written from the top have different names, whose parts between underscores do not start those of another one;
    so have the instances of each unit; memories of a unit are different; no part is M or formal, nor mem for instances and units at the top. *)
Theorem C60_once : forall d o, output d = Some o -> NoDup (names (d_items d)) -> tops_ok (tops d) -> NoDup (map fst (written o)).
Proof.
  intros d o H N T. destruct (output_inv _ _ H) as (s & G & O & F & ->). rewrite !written_app, !written_others, written_tops, (written_statics _ _ N); [|intros; apply F]. cbn [app].
  rewrite <- flat_map_app. pose proof (tops_nodup (s_map s) (tops d) T) as K. unfold tops in K. cbn [app] in K.
  apply (NoDup_map_inv parts). rewrite map_map. exact K.
Qed.
(** So each instance has the text of its unit and nothing else, if no Verilog file has a module of this name. *)
Theorem C60_own_only : forall d o w i v, output d = Some o -> NoDup (names (d_items d)) -> resolved d -> tops_ok (tops d) -> unit_of d w -> In (i, Own v) (u_insts w) ->
  exists n refs x refs', In (n, DUnit (u_body w) refs) o /\ In (i, x) refs /\ In (x, DUnit (u_body v) refs') o /\ (forall df, In (x, df) o -> df = DOther \/ df = DUnit (u_body v) refs').
Proof.
  intros d o w i v H N R T U I. destruct (C60_own_module d o w i v H N R U I) as (n & refs & x & refs' & A & B & C). exists n, refs, x, refs'. split; [exact A|]. split; [exact B|]. split; [exact C|].
  intros df D. destruct df as [b r|y|]; [right|right|left; reflexivity]; pose proof (C60_once d o H N T) as K.
  - assert (X : In (x, DUnit b r) (written o)) by (apply filter_In; split; [exact D|reflexivity]). assert (Y : In (x, DUnit (u_body v) refs') (written o)) by (apply filter_In; split; [exact C|reflexivity]).
    clear - K X Y. induction (written o) as [|z l IH]; [contradiction|]. cbn [map] in K. inversion K as [|? ? K1 K2]; subst. destruct X as [ ->|X], Y as [Y|Y].
    + injection Y as -> ->. reflexivity.
    + destruct K1. exact (in_map fst _ _ Y).
    + subst z. destruct K1. exact (in_map fst _ _ X).
    + exact (IH K2 X Y).
  - exfalso. assert (X : In (x, DMem y) (written o)) by (apply filter_In; split; [exact D|reflexivity]). assert (Y : In (x, DUnit (u_body v) refs') (written o)) by (apply filter_In; split; [exact C|reflexivity]).
    clear - K X Y. induction (written o) as [|z l IH]; [contradiction|]. cbn [map] in K. inversion K as [|? ? K1 K2]; subst. destruct X as [ ->|X], Y as [Y|Y].
    + discriminate.
    + destruct K1. exact (in_map fst _ _ Y).
    + subst z. destruct K1. exact (in_map fst _ _ X).
    + exact (IH K2 X Y).
Qed.
(** The names frameworks and formal tools look for. *)
Theorem C60_exported : forall d o, output d = Some o -> exists refs, In ("M_" ++ u_name (d_top d), DUnit (u_body (d_top d)) refs) o.
Proof.
  intros d o H. destruct (output_inv _ _ H) as (s & _ & _ & _ & ->). eexists. rewrite !in_app_iff. right. right. right. apply in_flat_map. exists (false, d_top d). split; [left; reflexivity|].
  exact (module_in (s_map s) (false, d_top d) [] _ (within_here _)).
Qed.
Theorem C60_formal : forall d o u, output d = Some o -> In u (d_formals d) -> exists refs, In ("formal_" ++ u_name u ++ "$", DUnit (u_body u) refs) o.
Proof.
  intros d o u H I. destruct (output_inv _ _ H) as (s & _ & _ & _ & ->). eexists. rewrite !in_app_iff. right. right. right. apply in_flat_map. exists (true, u). split; [right; apply in_map; exact I|].
  exact (module_in (s_map s) (true, u) [] _ (within_here _)).
Qed.
(** Names of the modules written start with M_ or formal_. *)
Theorem C60_prefix : forall d o x df, output d = Some o -> In (x, df) o -> df <> DOther -> String.prefix "M_" x = true \/ String.prefix "formal_" x = true.
Proof.
  intros d o x df H I D. destruct (output_inv _ _ H) as (s & G & O & F & E). destruct (module_position d o s _ F E I D) as (t & T & X & _).
  rewrite write_top_eq in X. destruct (write_inv _ _ _ _ X) as (p & w & W & K). assert (PM : forall z, String.prefix "M_" ("M_" ++ z) = true) by (intro z; destruct z; reflexivity).
  assert (PF : forall z, String.prefix "formal_" ("formal_" ++ z) = true) by (intro z; destruct z; reflexivity).
  unfold write_module in K. apply in_app_iff in K. destruct K as [K|[K|[]]].
  - apply in_map_iff in K. destruct K as (y & K & _). injection K as <- _. left. apply PM.
  - injection K as <- _. unfold header. destruct (String.eqb (instance_name (ctx_at (root_ctx t) p)) "") eqn:Q; [|left; apply PM].
    assert (TN : forall q c, top_name (ctx_at c q) = top_name c) by (induction q as [|i q IH]; intro c; [reflexivity|exact (IH (child c i))]). rewrite TN. cbn [root_ctx top_name]. unfold top_of.
    destruct (fst t); [right; apply PF|left; apply PM].
Qed.

(** Two instances at different places given modules of the same name, with different texts: instance b_c, and instance c of instance b. *)
Definition collide : design :=
  {| d_framework := ["top"]; d_items := [];
     d_top := Unit "main" 0 [] [("b_c", Own (Unit "a" 1 [] [])); ("b", Own (Unit "x" 2 [] [("c", Own (Unit "a" 3 [] []))]))]; d_formals := [] |}.
Theorem C60_paths_refuted : exists d o x r1 r2, output d = Some o /\ NoDup (names (d_items d)) /\ resolved d /\
  (forall w, unit_of d w -> NoDup (map fst (u_insts w))) /\ In (x, DUnit 1 r1) o /\ In (x, DUnit 3 r2) o.
Proof.
  exists collide. eexists. exists "M_a_M_main_b_c", [], []. split; [vm_compute; reflexivity|]. split; [constructor|]. split; [|split].
  - intros w i b U I. destruct b as [n|v]; [|intros []]. exfalso. destruct U as (t & p & T & W). cbn in T. destruct T as [ <-|[]]. cbn [snd collide] in W.
    inversion W as [|? ? ? ? ? I1 W1]; subst; [cbn in I; destruct I as [I|[I|[]]]; discriminate|]. destruct I1 as [I1|[I1|[]]]; injection I1 as <- <-.
    + inversion W1 as [|? ? ? ? ? I2 W2]; subst; [destruct I|destruct I2].
    + inversion W1 as [|? ? ? ? ? I2 W2]; subst; [destruct I as [I|[]]; discriminate|]. destruct I2 as [I2|[]]; injection I2 as <- <-.
      inversion W2 as [|? ? ? ? ? I3 W3]; subst; [destruct I|destruct I3].
  - intros w U. destruct U as (t & p & T & W). cbn in T. destruct T as [ <-|[]]. cbn [snd collide] in W.
    inversion W as [|? ? ? ? ? I1 W1]; subst; [cbn; repeat constructor; cbn; intuition discriminate|]. destruct I1 as [I1|[I1|[]]]; injection I1 as <- <-.
    + inversion W1 as [|? ? ? ? ? I2 W2]; subst; [constructor|destruct I2].
    + inversion W1 as [|? ? ? ? ? I2 W2]; subst; [cbn; repeat constructor; cbn; intuition discriminate|]. destruct I2 as [I2|[]]; injection I2 as <- <-.
      inversion W2 as [|? ? ? ? ? I3 W3]; subst; [constructor|destruct I3].
  - split; vm_compute; tauto.
Qed.
(** A memory given a module of the same name as an instance: memory y of instance i, and instance i_mem_y of the same unit. *)
Theorem C60_memory_refuted : exists d o x r, output d = Some o /\ In (x, DMem "y") o /\ In (x, DUnit 1 r) o.
Proof.
  exists {| d_framework := ["top"]; d_items := []; d_top := Unit "main" 0 [] [("i", Own (Unit "a" 1 ["y"] [])); ("i_mem_y", Own (Unit "a" 1 ["y"] []))]; d_formals := [] |}.
  eexists. exists "M_a_M_main_i_mem_y". eexists. split; [vm_compute; reflexivity|]. split; [vm_compute; tauto|]. vm_compute. right. right. right. right. left. reflexivity.
Qed.
(** Importing a module twice is accepted, whatever the file, and writes it twice: the name compared is that of the file. *)
Theorem C60_import_twice_refuted : forall path name mods path' mods' u, path' <> name -> exists o,
  output {| d_framework := []; d_items := [TImport path name mods; TImport path' name mods']; d_top := u; d_formals := [] |} = Some o /\
  exists rest, o = (map (fun x => (x, DOther)) mods ++ map (fun x => (x, DOther)) mods ++ rest)%list.
Proof.
  intros path name mods path' mods' u D. assert (E : String.eqb name path' = false) by (apply String.eqb_neq; congruence).
  assert (G : gather start [TImport path name mods; TImport path' name mods'] = Some {| s_map := [(name, SVerilog mods)]; s_order := [name; name]; s_appends := [] |}).
  { cbn [gather gather_one start s_map find]. unfold insert. cbn [find app s_map s_order s_appends]. rewrite E. rewrite String.eqb_refl. reflexivity. }
  unfold output. cbn [d_items d_framework d_top d_formals]. rewrite G. eexists. split; [reflexivity|]. cbn [others_of map app flat_map s_map s_order s_appends]. unfold write_static. cbn [find]. rewrite String.eqb_refl.
  eexists. rewrite <- !app_assoc. reflexivity.
Qed.
(** Appending a file twice is accepted and writes its modules twice. *)
Theorem C60_append_twice_refuted : forall mods u, exists o,
  output {| d_framework := []; d_items := [TAppend mods; TAppend mods]; d_top := u; d_formals := [] |} = Some o /\
  exists rest, o = (map (fun x => (x, DOther)) mods ++ map (fun x => (x, DOther)) mods ++ rest)%list.
Proof.
  intros mods u. unfold output. cbn [d_items d_framework d_top d_formals gather gather_one start s_map s_order s_appends app]. eexists. split; [reflexivity|].
  eexists. cbn [others_of map app flat_map]. unfold others_of. rewrite map_app, <- !app_assoc. reflexivity.
Qed.
(** A unit both exported and formal has each of its memories twice. *)
Theorem C60_exported_formal_refuted : forall u, u_mems u <> [] -> exists o, output {| d_framework := []; d_items := []; d_top := u; d_formals := [u] |} = Some o /\ ~ NoDup (map fst (written o)).
Proof.
  intros u M. destruct (output {| d_framework := []; d_items := []; d_top := u; d_formals := [u] |}) as [o|] eqn:H; [|discriminate]. exists o. split; [reflexivity|]. intro N.
  destruct (output_inv _ _ H) as (s & _ & _ & _ & ->). rewrite !written_app, written_tops in N. cbn [d_framework d_items d_top d_formals names flat_map map app written others_of filter] in N.
  assert (W : written (others_of (s_appends s)) = []) by apply written_others. rewrite W in N. cbn [app] in N. rewrite app_nil_r, map_app in N.
  assert (N2 : NoDup (map fst (write_top (s_map s) (false, u)) ++ map fst (write_top (s_map s) (true, u)))%list) by exact N. clear N. rename N2 into N.
  destruct (u_mems u) as [|x l] eqn:E; [congruence|].
  assert (I : forall f, In (mem_module {| top_name := ""; instance_name := "" |} u x) (map fst (write_top (s_map s) (f, u)))).
  { intro f. apply in_map_iff. eexists. split; [|apply (mem_in (s_map s) (f, u) [] u x (within_here u)); rewrite E; left; reflexivity]. reflexivity. }
  pose proof (I false) as I1. pose proof (I true) as I2. clear - N I1 I2. apply in_split in I1. destruct I1 as (a & b & K). rewrite K in N. rewrite <- app_assoc in N. apply NoDup_remove_2 in N. apply N. rewrite !in_app_iff. auto.
Qed.

(** The hypotheses are met: static units, a Verilog module, two instances of a unit with memories, names with underscores. *)
Definition leaf (b : nat) : unit := Unit "frame_buffer" b ["pixels"; "mem_map"] [].
Definition sample : design :=
  {| d_framework := ["top"]; d_items := [TImport "/x/pll.v" "pll" ["pll"; "pll_core"]; TUnit (Unit "fifo" 5 ["data"] [])];
     d_top := Unit "main" 0 ["rom"] [("fb_0", Own (leaf 1)); ("fb_1", Own (leaf 2)); ("p", Static "pll"); ("q", Own (Unit "video" 3 [] [("fb_0", Own (leaf 4)); ("f", Static "fifo")]))];
     d_formals := [Unit "check" 6 ["rom"] [("dut", Own (leaf 7))]] |}.
Ltac not_in := let H := fresh in intros H; cbn in H; intuition discriminate.
Ltac apart_names := let H := fresh in let r := fresh in let E := fresh in split; intros (r & E); vm_compute in E; discriminate.
Lemma sample_units : forall w, unit_of sample w -> In w [Unit "fifo" 5 ["data"] []; d_top sample; leaf 1; leaf 2; Unit "video" 3 [] [("fb_0", Own (leaf 4)); ("f", Static "fifo")]; leaf 4; Unit "check" 6 ["rom"] [("dut", Own (leaf 7))]; leaf 7].
Proof.
  assert (L : forall b p w, within (leaf b) p w -> w = leaf b) by (intros b p w W; inversion W as [|? ? ? ? ? I _]; [reflexivity|destruct I]).
  intros w (t & p & T & W). cbn in T. destruct T as [ <-|[ <-|[ <-|[]]]]; cbn [snd] in W.
  - inversion W as [|? ? ? ? ? I W1]; subst; [left; reflexivity|destruct I].
  - inversion W as [|? ? ? ? ? I W1]; subst; [right; left; reflexivity|]. destruct I as [I|[I|[I|[I|[]]]]]; try discriminate; injection I as <- <-.
    + apply L in W1. subst. cbn. tauto.
    + apply L in W1. subst. cbn. tauto.
    + inversion W1 as [|? ? ? ? ? I W2]; subst; [cbn; tauto|]. destruct I as [I|[I|[]]]; try discriminate; injection I as <- <-. apply L in W2. subst. cbn. tauto.
  - inversion W as [|? ? ? ? ? I W1]; subst; [cbn; tauto|]. destruct I as [I|[]]; injection I as <- <-. apply L in W1. subst. cbn. tauto.
Qed.
Ltac okl := let H := fresh in repeat first [intros [H|H]; discriminate | intro H; discriminate H | constructor].
Lemma leaf_ok : forall b, unit_names_ok (leaf b).
Proof.
  intro b. split; [vm_compute; okl|]. split; [repeat constructor; not_in|]. split; [vm_compute; okl|]. split; [constructor|constructor].
Qed.
Example sample_ok : exists o, output sample = Some o /\ NoDup (names (d_items sample)) /\ resolved sample /\ provided sample /\ tops_ok (tops sample).
Proof.
  eexists. split; [vm_compute; reflexivity|]. split; [repeat constructor; not_in|]. split; [|split].
  - intros w i b U I. apply sample_units in U. cbn [In] in U.
    repeat (destruct U as [U|U]; [subst w; cbn in I; repeat (destruct I as [I|I]; [injection I as <- <-; cbn; first [tauto | intuition discriminate]|]); contradiction|]). contradiction.
  - split; intros; cbn in H; repeat (destruct H as [H|H]; [try discriminate; injection H; intros; subst; cbn; tauto|]); contradiction.
  - split; [|split].
    + cbn. repeat constructor; not_in.
    + cbn [tops sample d_items units flat_map app map d_top d_formals]. repeat (constructor; try (intro; try discriminate; apart_names)).
    + intros t T. assert (TO : tree_ok (snd t)).
      { intros p w W. assert (U : unit_of sample w) by (exists t, p; auto). apply sample_units in U. cbn [In] in U.
        destruct U as [ <-|[ <-|[ <-|[ <-|[ <-|[ <-|[ <-|[ <-|[]]]]]]]]]; try apply leaf_ok.
        all: split; [vm_compute; okl|]; split; [repeat constructor; not_in|]; split; [vm_compute; okl|]; split; cbn [sample d_top u_insts map fst].
        all: try (repeat (constructor; try apart_names)).
        all: try (vm_compute; okl). }
      cbn in T. destruct T as [ <-|[ <-|[ <-|[]]]]; (split; [vm_compute; okl|]; split; [vm_compute; okl|]; split; [vm_compute; okl|exact TO]).
Qed.
Example sample_names : option_map (map fst) (output sample) = Some
  ["top"; "pll"; "pll_core"; "M_fifo__mem_data"; "M_fifo"; "M_frame_buffer_M_main_fb_0_mem_pixels"; "M_frame_buffer_M_main_fb_0_mem_mem_map"; "M_frame_buffer_M_main_fb_0";
   "M_frame_buffer_M_main_fb_1_mem_pixels"; "M_frame_buffer_M_main_fb_1_mem_mem_map"; "M_frame_buffer_M_main_fb_1"; "M_frame_buffer_M_main_q_fb_0_mem_pixels"; "M_frame_buffer_M_main_q_fb_0_mem_mem_map";
   "M_frame_buffer_M_main_q_fb_0"; "M_video_M_main_q"; "M_main__mem_rom"; "M_main"; "M_frame_buffer_formal_check$_dut_mem_pixels"; "M_frame_buffer_formal_check$_dut_mem_mem_map";
   "M_frame_buffer_formal_check$_dut"; "M_check__mem_rom"; "formal_check$"].
Proof. vm_compute. reflexivity. Qed.

Print Assumptions C60_referred.
Print Assumptions C60_own_module.
Print Assumptions C60_memories.
Print Assumptions C60_static.
Print Assumptions C60_once.
Print Assumptions C60_own_only.
Print Assumptions C60_prefix.
Print Assumptions C60_paths_refuted.
Print Assumptions C60_memory_refuted.
Print Assumptions C60_import_twice_refuted.
Print Assumptions C60_append_twice_refuted.
Print Assumptions C60_exported_formal_refuted.
Print Assumptions C60_exported.
Print Assumptions C60_formal.
