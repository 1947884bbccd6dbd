(** C39: width, sign and initial value of parameterized inputs and outputs. *)
From Coq Require Import String Ascii List Bool ZArith Lia.
Import ListNotations.
From Verif Require Import ParamModel ParamProofs ParamTree.
Local Open Scope string_scope.

(** * sameas. Each variable declared with sameas, directly or through any number of other sameas, ends on a single declaration with a type or 'auto', and has the width and the
    sign of this one. With 'auto', the values are those found in the context for it. *)
Theorem C39_sameas ds l b d : (forall e, In e ds -> d_name e <> "") -> declare_all [] ds = Ok l -> (forall n, get_vio b n = find_in n l) -> In d ds ->
  exists r v, types ds (d_name d) r /\ (forall r', types ds (d_name d) r' -> r' = r) /\ get_vio b (d_name d) = Some v /\ forall c,
    match d_type r with
    | TType t w => var_bit_width b v c = Ok (to_string w) /\ var_bit_range b v c = Ok (to_string (w - 1)) /\ var_type b v c = Ok t
    | _ => (forall w, c (upper (d_name r) ++ "_WIDTH") = Some w -> var_bit_width b v c = Ok w /\ var_bit_range b v c = Ok (w ++ "-1")) /\
           (forall s, c (upper (d_name r) ++ "_SIGNED") = Some s -> var_type b v c = Ok (if s =? "signed" then Int else UInt)) /\
           (forall s, c (upper (d_name r) ++ "_INIT") = Some s -> var_init b v c = Ok s)
    end.
Proof.
  intros NE H G I. pose proof (declared_ok _ _ NE H) as DC. destruct (dc_find _ _ DC d I) as [v [V M]].
  assert (X : exists r, types ds (d_name d) r).
  { destruct M as [_ [_ [_ M]]]. destruct (d_type d) eqn:T; [exists d; apply M|destruct M as [_ [_ [r [R _]]]]; now exists r|exists d; apply M]. }
  destruct X as [r R]. exists r, v. split; [exact R|]. split; [intros r' R'; exact (types_fun _ _ _ _ _ DC R' R)|]. split; [now rewrite G|].
  intros c. exact (chain_values ds l b d r v c NE H G I R V).
Qed.
Print Assumptions C39_sameas.

(** * Bound ports. A port without type, not specialized, has the width, initial value and sign its bound variable has in the unit instantiating, in the context of this unit.
    Missing: groups and interfaces bound together, bindings not yet known or to tables; the names of the ports must differ by more than the case, and no port declared before, and no
    specialization, may have the name of the variable giving its type to the bound variable (see the refuted claims below). *)
Theorem C39_bound_partial p i cp c n w u v : unit_ok (i_bp i) -> cased (map v_name (ios (i_bp i))) -> make_ctx p i cp = Ok c ->
  auto_port (i_bp i) n -> get_vio (i_bp i) n = Some u -> v_table u = false -> var_in_ctx n (i_spec i) = false ->
  bound_to n (i_binds i) = Some w -> get_vio p w = Some v -> v_table v = false -> no_capture p i n v ->
  exists x y t, var_bit_width p v cp = Ok x /\ var_bit_width (i_bp i) u c = Ok x /\ var_init p v cp = Ok y /\ var_init (i_bp i) u c = Ok y /\
    var_type p v cp = Ok t /\ (t <> Parameterized -> var_type (i_bp i) u c = Ok t).
Proof.
  intros UO CS MK A GU TU NS B G TB NC. destruct (make_spec p i cp c UO CS MK) as [_ M].
  destruct (M n v) as [x [y [t [H1 [H2 [H3 [H4 [H5 H6]]]]]]]]; [split; [unfold specialized; congruence|]; split; [exact A|]; exists w; auto|exact NC|].
  destruct A as [A1 [u' [A2 [A3 [A4 A5]]]]]. rewrite GU in A2. injection A2 as <-. exists x, y, t.
  destruct (read_auto _ n u c _ _ GU A4 A3 H4 H6) as [R1 [R2 _]]. repeat (split; [assumption|]). split; [|split; [assumption|]].
  - unfold var_init, base_of. rewrite TU, A4, A3. cbn [String.eqb]. rewrite A5, GU, A4, A5. fold (ki n). now rewrite H5.
  - intros NP. rewrite R2. destruct t; try reflexivity. contradiction.
Qed.
Print Assumptions C39_bound_partial.

(** * Specializations. A port with a specialization has the width and the sign it gives, whatever the bindings and the context. *)
Theorem C39_specialized p i cp c n u : unit_ok (i_bp i) -> cased (map v_name (ios (i_bp i))) -> make_ctx p i cp = Ok c ->
  auto_port (i_bp i) n -> get_vio (i_bp i) n = Some u -> forall s t w, (forall k, i_spec i k = specialize s n t w k) -> t <> Parameterized ->
  var_bit_width (i_bp i) u c = Ok (to_string w) /\ var_type (i_bp i) u c = Ok t /\ var_bit_range (i_bp i) u c = Ok (to_string w ++ "-1").
Proof.
  intros UO CS MK A GU s t w S NP. destruct (make_spec p i cp c UO CS MK) as [M _].
  assert (K1 : i_spec i (kw n) = Some (to_string w)).
  { rewrite S. unfold specialize. fold (kw n) (ki n) (ks n). rewrite put_other, put_other, put_same by (apply kwi || apply kws). reflexivity. }
  assert (K2 : i_spec i (ki n) = Some "").
  { rewrite S. unfold specialize. fold (kw n) (ki n) (ks n). rewrite put_other, put_same by apply kis. reflexivity. }
  assert (K3 : i_spec i (ks n) = Some (type_string t)) by (rewrite S; apply put_same).
  assert (SP : specialized i n) by (unfold specialized, var_in_ctx, has; fold (kw n) (ki n) (ks n); now rewrite K1, K2, K3).
  rewrite <- (M (kw n) n) in K1; [|now left|assumption|assumption]. rewrite <- (M (ks n) n) in K3; [|unfold keyof; tauto|assumption|assumption].
  pose proof A as [A1 [u' [A2 [A3 [A4 A5]]]]]. rewrite GU in A2. injection A2 as <-. destruct (read_auto _ n u c _ _ GU A4 A3 K1 K3) as [R1 [R2 _]].
  split; [exact R1|]. split; [rewrite R2; destruct t; try reflexivity; contradiction|].
  unfold var_bit_range, base_of. rewrite A4, A3. cbn [String.eqb]. rewrite A5, GU, A4, A5. fold (kw n). now rewrite K1.
Qed.
Print Assumptions C39_specialized.

(** * Hierarchies. In any hierarchy of instances, every variable has the type found by going up: its own type, the one of the variable it is sameas of, the one of its specialization,
    or the one of the variable it is bound to in the unit instantiating. Missing: as above. *)
Theorem C39_hierarchy_partial h n w t c v : resolved h n (w, t) -> legal h -> context h = Ok c -> get_vio (unit_of h) n = Some v ->
  var_bit_width (unit_of h) v c = Ok w /\ var_type (unit_of h) v c = Ok t /\
  exists e, var_bit_range (unit_of h) v c = Ok e /\ (e = w ++ "-1" \/ exists z, w = to_string z /\ e = to_string (z - 1)).
Proof. intros R L C G. exact (resolved_ok h n (w, t) R L c v C G). Qed.
Print Assumptions C39_hierarchy_partial.

(** * The context is recorded by the instance and computed again later, from any other context: the values are those found first. *)
Theorem C39_recorded p i cp c : unit_ok (i_bp i) -> cased (map v_name (ios (i_bp i))) ->
  (forall n, auto_port (i_bp i) n -> specialized i n \/ exists v, bound_var p i n v) ->
  (forall v r, In v (ios (i_bp i)) -> given v -> reads (i_bp i) v r -> auto_port (i_bp i) r) ->
  make_ctx p i cp = Ok c ->
  forall p' cx, exists c', make_ctx p' (recorded i c) cx = Ok c' /\ forall k, c k <> None -> c' k = c k.
Proof.
  intros UO CS CM SO MK p' cx. destruct (recorded_ok p i cp c UO CS CM SO MK p' cx) as [c' [H1 H2]]. exists c'. split; [exact H1|].
  intros k Hk. rewrite H2. unfold override. now destruct (c k).
Qed.
Print Assumptions C39_recorded.

(** * Examples. *)
Definition typed (n : string) (t : base) (w : Z) (init : option string) : vio :=
  {| v_name := n; v_base := t; v_width := w; v_same := ""; v_init := init; v_noinit := match init with None => true | _ => false end; v_table := false |}.
Definition autop (n : string) : vio := {| v_name := n; v_base := Parameterized; v_width := 0; v_same := ""; v_init := None; v_noinit := true; v_table := false |}.
Definition samep (n m : string) : vio := {| v_name := n; v_base := Parameterized; v_width := 0; v_same := m; v_init := None; v_noinit := true; v_table := false |}.
Definition none : ctx := fun _ => None.

(** The unit of the documentation: unit mirror(input auto i, output sameas(i) o). *)
Definition mirror : bprint := {| b_vars := []; b_ins := [autop "i"]; b_outs := [samep "o" "i"]; b_inouts := []; b_params := ["i"; "o"]; b_alg := true |}.
Example mirror_ok : unit_ok mirror /\ cased (map v_name (ios mirror)) /\ same_ok mirror /\ auto_port mirror "i".
Proof.
  split; [|split; [|split]].
  - split.
    + repeat constructor; cbn; intuition discriminate.
    + repeat constructor; cbn; intuition discriminate.
    + intros v [<- |[<- |[]]] _; cbn; auto.
    + intros n [<- |[<- |[]]]; [exists (autop "i")|exists (samep "o" "i")]; repeat split; cbn; auto.
  - intros n m [<- |[<- |[]]] [<- |[<- |[]]] E; try reflexivity; discriminate.
  - intros n v u G P S GU. unfold get_vio, mirror in G. cbn [b_vars b_ins b_outs b_inouts find_in find autop samep v_name] in G.
    destruct ("i" =? n); [injection G as <-; now cbn in S|]. destruct ("o" =? n); [|discriminate]. injection G as <-. cbn in GU. injection GU as <-. reflexivity.
  - split; [now left|]. exists (autop "i"). auto.
Qed.
Definition main : bprint := {| b_vars := [typed "x" Int 12 (Some "3")]; b_ins := []; b_outs := []; b_inouts := []; b_params := []; b_alg := true |}.
Definition m0 : instance := {| i_bp := mirror; i_spec := none; i_binds := [("i", "x")] |}.
(** mirror m0(i <: x), with int12 x = 3, in a unit at the top. *)
Example C39_mirror : exists c, context (Under (Top main none) m0) = Ok c /\ var_bit_width mirror (samep "o" "i") c = Ok "12" /\ var_type mirror (samep "o" "i") c = Ok Int /\
  var_init mirror (autop "i") c = Ok "3" /\ resolved (Under (Top main none) m0) "o" ("12", Int) /\ legal (Under (Top main none) m0).
Proof.
  eexists. split; [reflexivity|]. split; [reflexivity|]. split; [reflexivity|]. split; [reflexivity|]. split.
  - apply (rs_same _ _ (samep "o" "i")); [reflexivity|reflexivity|reflexivity|discriminate|].
    apply (rs_bind _ _ "i" (autop "i") "x"); [apply mirror_ok|reflexivity|reflexivity|discriminate|reflexivity|].
    apply (rs_type (Top main none) "x" (typed "x" Int 12 (Some "3"))); reflexivity.
  - destruct mirror_ok as [U [C [S A]]]. split; [|split; [exact S|split; [exact U|split; [exact C|]]]].
    + intros n v u G P. unfold get_vio, main in G. cbn [b_vars b_ins b_outs b_inouts find_in find typed v_name] in G. destruct ("x" =? n); [|discriminate]. now injection G as <-.
    + intros n v [_ [_ [w [B [G _]]]]] r [R _]. exfalso. cbn [m0 i_binds bound_to find fst] in B. unfold bound_to in B. cbn [find fst] in B.
      destruct ("i" =? n); [|discriminate]. injection B as <-. cbn in G. injection G as <-. discriminate.
Qed.
(** mirror m0 < i : uint4 > (i <: x). *)
Example C39_mirror_specialized : exists c, make_ctx main {| i_bp := mirror; i_spec := specialize none "i" UInt 4; i_binds := [("i", "x")] |} none = Ok c /\
  var_bit_width mirror (samep "o" "i") c = Ok "4" /\ var_type mirror (samep "o" "i") c = Ok UInt.
Proof. eexists. repeat split; reflexivity. Qed.
(** A chain of three sameas. *)
Definition ds3 : list decl :=
  [ {| d_name := "a"; d_type := TType UInt 7; d_init := Some "1"; d_noinit := false |}; {| d_name := "b"; d_type := TSame "a"; d_init := None; d_noinit := true |};
    {| d_name := "c"; d_type := TSame "b"; d_init := None; d_noinit := true |}; {| d_name := "d"; d_type := TSame "c"; d_init := None; d_noinit := true |} ].
Example C39_chain : exists l v, declare_all [] ds3 = Ok l /\ find_in "d" l = Some v /\ v_same v = "a" /\
  forall c, var_bit_width {| b_vars := l; b_ins := []; b_outs := []; b_inouts := []; b_params := []; b_alg := true |} v c = Ok "7".
Proof. eexists. eexists. split; [reflexivity|]. repeat split; reflexivity. Qed.
Example C39_recorded_mirror : exists c, make_ctx main m0 none = Ok c /\ forall p cx, exists c', make_ctx p (recorded m0 c) cx = Ok c' /\ c' "O_WIDTH" = Some "12" /\ c' "I_INIT" = Some "3".
Proof.
  assert (E : exists c, make_ctx main m0 none = Ok c /\ c "O_WIDTH" = Some "12" /\ c "I_INIT" = Some "3") by (eexists; repeat split; reflexivity).
  destruct E as [c [E [E1 E2]]]. exists c. split; [exact E|]. intros p cx. destruct mirror_ok as [U [C [S A]]].
  destruct (C39_recorded main m0 none c U C) with (p' := p) (cx := cx) as [c' [H1 H2]]; [| |exact E|exists c'; split; [exact H1|]; rewrite !H2, E1, E2; auto; congruence].
  - intros n [[<- |[<- |[]]] [v [G [S' _]]]]; [|cbn in G; injection G as <-; discriminate]. right. exists (typed "x" Int 12 (Some "3")). split; [discriminate|]. split; [exact A|].
    exists "x". auto.
  - intros v r [<- |[<- |[]]] Gv [P [w [B [Q ->]]]]; [destruct Gv as [Gv|Gv]; [discriminate|now cbn in Gv]|]. cbn in B. injection B as <-. exact A.
Qed.

(** * Refuted. The type of the bound variable is read in the context being filled: when a port handled before has the name of the auto variable bound by the next one, the next one
    takes its type. unit child(input auto a, input auto b), in unit parent(input auto a) where a has 8 bits and x 16 bits: child c(a <: x, b <: a) gives 16 bits to b. *)
Definition child2 : bprint := {| b_vars := []; b_ins := [autop "a"; autop "b"]; b_outs := []; b_inouts := []; b_params := ["a"; "b"]; b_alg := true |}.
Definition parent : bprint := {| b_vars := [typed "x" UInt 16 (Some "0")]; b_ins := [autop "a"]; b_outs := []; b_inouts := []; b_params := ["a"]; b_alg := true |}.
Definition cparent : ctx := put (put (put none "A_WIDTH" "8") "A_INIT" "") "A_SIGNED" "".
Theorem C39_capture_refuted : exists h n w t c v, resolved h n (w, t) /\ context h = Ok c /\ get_vio (unit_of h) n = Some v /\ w = "8" /\ var_bit_width (unit_of h) v c = Ok "16" /\
  unit_ok (unit_of h) /\ cased (map v_name (ios (unit_of h))).
Proof.
  exists (Under (Top parent cparent) {| i_bp := child2; i_spec := none; i_binds := [("a", "x"); ("b", "a")] |}), "b", "8", UInt. eexists. exists (autop "b").
  split; [|split; [reflexivity|split; [reflexivity|split; [reflexivity|split; [reflexivity|]]]]].
  - apply (rs_bind _ _ "b" (autop "b") "a"); [split; [now right; left|exists (autop "b"); auto]|reflexivity|reflexivity|discriminate|reflexivity|].
    apply (rs_top parent cparent "a" (autop "a") "8" ""); reflexivity.
  - split.
    + split.
      * repeat constructor; cbn; intuition discriminate.
      * repeat constructor; cbn; intuition discriminate.
      * intros v [<- |[<- |[]]] _; cbn; auto.
      * intros n [<- |[<- |[]]]; [exists (autop "a")|exists (autop "b")]; repeat split; cbn; auto.
    + intros n m [<- |[<- |[]]] [<- |[<- |[]]] E; try reflexivity; discriminate.
Qed.
Print Assumptions C39_capture_refuted.

(** The same with a specialization: child c < a : uint4 > (b <: a) gives 4 bits to b. *)
Theorem C39_capture_specialized_refuted : exists h c v, resolved h "b" ("8", UInt) /\ context h = Ok c /\ get_vio (unit_of h) "b" = Some v /\ var_bit_width (unit_of h) v c = Ok "4".
Proof.
  exists (Under (Top parent cparent) {| i_bp := child2; i_spec := specialize none "a" UInt 4; i_binds := [("b", "a")] |}). eexists. exists (autop "b").
  split; [|repeat split; reflexivity].
  apply (rs_bind _ _ "b" (autop "b") "a"); [split; [now right; left|exists (autop "b"); auto]|reflexivity|reflexivity|discriminate|reflexivity|].
  apply (rs_top parent cparent "a" (autop "a") "8" ""); reflexivity.
Qed.
Print Assumptions C39_capture_specialized_refuted.

(** Names differing by the case share their values: unit child(input auto a, input auto A) with a <: x, A <: y. *)
Theorem C39_case_refuted : exists p i c v, get_vio p "x" = Some (typed "x" UInt 16 (Some "0")) /\ bound_to "a" (i_binds i) = Some "x" /\ make_ctx p i none = Ok c /\
  get_vio (i_bp i) "a" = Some v /\ var_bit_width (i_bp i) v c = Ok "5" /\ unit_ok (i_bp i).
Proof.
  exists {| b_vars := [typed "x" UInt 16 (Some "0"); typed "y" UInt 5 (Some "0")]; b_ins := []; b_outs := []; b_inouts := []; b_params := []; b_alg := true |},
    {| i_bp := {| b_vars := []; b_ins := [autop "a"; autop "A"]; b_outs := []; b_inouts := []; b_params := ["a"; "A"]; b_alg := true |}; i_spec := none; i_binds := [("a", "x"); ("A", "y")] |}.
  eexists. exists (autop "a"). split; [reflexivity|]. split; [reflexivity|]. split; [reflexivity|]. split; [reflexivity|]. split; [reflexivity|]. split.
  - repeat constructor; cbn; intuition discriminate.
  - repeat constructor; cbn; intuition discriminate.
  - intros v [<- |[<- |[]]] _; cbn; auto.
  - intros n [<- |[<- |[]]]; [exists (autop "a")|exists (autop "A")]; repeat split; cbn; auto.
Qed.
Print Assumptions C39_case_refuted.

(** The initial value written in a sameas declaration is ignored: uint8 x(3); sameas(x) y(5); initializes y to 3. *)
Theorem C39_initializer_refuted : exists ds l b v c, declare_all [] ds = Ok l /\ (forall n, get_vio b n = find_in n l) /\ get_vio b "y" = Some v /\
  (exists d, In d ds /\ d_name d = "y" /\ d_init d = Some "5") /\ var_init b v c = Ok "3".
Proof.
  exists [ {| d_name := "x"; d_type := TType UInt 8; d_init := Some "3"; d_noinit := false |}; {| d_name := "y"; d_type := TSame "x"; d_init := Some "5"; d_noinit := false |} ].
  set (l := [typed "x" UInt 8 (Some "3"); {| v_name := "y"; v_base := Parameterized; v_width := 0; v_same := "x"; v_init := Some "5"; v_noinit := false; v_table := false |}]).
  exists l, {| b_vars := l; b_ins := []; b_outs := []; b_inouts := []; b_params := []; b_alg := true |}. eexists. exists none. split; [reflexivity|].
  split; [|split; [reflexivity|split; [|reflexivity]]].
  - intros n. unfold get_vio. cbn [b_vars b_ins b_outs b_inouts]. destruct (find_in n l); reflexivity.
  - eexists. split; [right; left; reflexivity|]. auto.
Qed.
Print Assumptions C39_initializer_refuted.

(** A variable declared 'auto' in the body of a unit (accepted by the grammar) takes the type of a port of the unit instantiating that has the same name: unit child() with 'auto k' in
    unit parent(input auto k); with another parent it is an error. *)
Definition childk : bprint := {| b_vars := [autop "k"]; b_ins := []; b_outs := []; b_inouts := []; b_params := []; b_alg := true |}.
Theorem C39_unrelated_refuted : exists c1 c2 c, make_ctx main {| i_bp := childk; i_spec := none; i_binds := [] |} c1 = Ok c /\ var_bit_range childk (autop "k") c = Ok "8-1" /\
  make_ctx main {| i_bp := childk; i_spec := none; i_binds := [] |} c2 = Ok c2 /\ var_bit_range childk (autop "k") c2 = Err.
Proof. exists (put none "K_WIDTH" "8"), (override none none). eexists. repeat split; reflexivity. Qed.
Print Assumptions C39_unrelated_refuted.

(** * A port without type that nothing resolves: its declaration, its initial value and its sign are errors; its width is the name of the Verilog parameter. *)
Theorem C39_unresolved b v c : v_base v = Parameterized -> v_same v = "" -> v_table v = false -> get_vio b (v_name v) = Some v ->
  (forall x, c (upper (v_name v) ++ x) = None) ->
  var_bit_range b v c = Err /\ var_init b v c = Err /\ var_type b v c = Err /\ var_bit_width b v c = Ok (upper (v_name v) ++ "_WIDTH").
Proof.
  intros P S T G N. unfold var_bit_range, var_init, var_type, var_bit_width, base_of, is_param. rewrite P, S, T. cbn [String.eqb]. rewrite G, P, !N.
  repeat split; reflexivity.
Qed.
Print Assumptions C39_unresolved.
(** A variable with a type is initialized by its initializer; only a variable declared uninitialized may have none. *)
Theorem C39_typed_initial b v c s : v_base v <> Parameterized -> v_table v = false ->
  (var_init b v c = Ok s <-> v_init v = Some s \/ v_init v = None /\ v_noinit v = true /\ s = "").
Proof.
  intros P T. unfold var_init, is_param. rewrite T. destruct (v_base v); [| |congruence].
  all: destruct (v_init v) as [i|]; [|destruct (v_noinit v)]; (split; [intros H; try discriminate H; injection H as <-; auto|intros [H|(H & N & ->)]; congruence]).
Qed.
Print Assumptions C39_typed_initial.
Example C39_unresolved_ex : get_vio childk "k" = Some (autop "k") /\ var_bit_width childk (autop "k") none = Ok "K_WIDTH" /\
  var_init main (typed "x" UInt 16 (Some "7")) none = Ok "7" /\ var_init main (typed "x" UInt 16 None) none = Ok "" /\
  var_init main {| v_name := "x"; v_base := UInt; v_width := 16; v_same := ""; v_init := None; v_noinit := false; v_table := false |} none = Asrt.
Proof. repeat split; reflexivity. Qed.
