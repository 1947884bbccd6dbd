(** Properties C38, C33, C32. *)
From Coq Require Import String Ascii List Bool Arith Lia.
From Verif Require Import NameModel NameProofs.
Import ListNotations.
Local Open Scope string_scope.
Local Open Scope list_scope.

(** * C38 *)

(** Two accepted variable declarations never get the same name. *)
Theorem C38_variables_distinct : forall ds e e', Forall is_var ds -> NoDup (n_vars e) ->
  declare_all e ds = Some e' -> NoDup (n_vars e').
Proof. exact declare_vars_nodup. Qed.
Print Assumptions C38_variables_distinct.

(** Every variable is reached by its name, and by no port, as long as the names generated for
    variables of blocks are not those of ports. Missing: that side condition is not checked
    (refuted below), and parameters of subroutines (also below). *)
Theorem C38_names_designate_partial : forall ds e e', n_vars e = [] -> Forall (top_or_free e) ds ->
  declare_all e ds = Some e' ->
  forall i x, nth_error (n_vars e') i = Some x -> resolve e' x = Some (SVar i).
Proof. exact accepted_resolve. Qed.
Print Assumptions C38_names_designate_partial.

(** The flip-flops trickling variables through pipelines have distinct names. *)
Theorem C38_trickling_distinct : forall v1 l1 i1 s1 v2 l2 i2 s2,
  tricklingVIOName v1 (pipelineName l1 i1) s1 = tricklingVIOName v2 (pipelineName l2 i2) s2 ->
  v1 = v2 /\ l1 = l2 /\ i1 = i2 /\ s1 = s2.
Proof. exact trickling_inj. Qed.
Print Assumptions C38_trickling_distinct.

Definition names_ex : names := {| n_subs := []; n_insts := []; n_ins := ["loop_x"]; n_outs := ["y"];
  n_inouts := []; n_mems := []; n_vars := [] |}.

Example C38_ex : 
  option_map n_vars (declare_all names_ex [DVar [] [] "_top" "a"; DVar [] ["a"] "__block_1" "a"]) = Some ["a"; "__block_1_a"]
  /\ declare_all names_ex [DVar [] [] "_top" "a"; DVar [] ["a"] "_top" "a"] = None
  /\ declare_all names_ex [DVar [] [] "_top" "y"] = None
  /\ Forall (top_or_free names_ex) [DVar [] [] "_top" "a"; DVar [] ["a"] "__block_1" "a"]
  /\ tricklingVIOName "v" (pipelineName 12 0) 3 = "__pip_12_0_3_v".
Proof.
  repeat split. constructor; [left; reflexivity|]. constructor; [|constructor].
  right. cbn. intros [H|[H|[]]]; discriminate.
Qed.

(** A variable [x] declared after a label [loop:] is confused with the input [loop_x]. *)
Theorem C38_label_port_refuted : exists e e' x,
  declare_all e [DVar [] [] "loop" "x"] = Some e' /\ nth_error (n_vars e') 0 = Some x /\
  resolve e' x = Some (SInput "loop_x").
Proof. exists names_ex. eexists. eexists. split; [reflexivity|]. split; reflexivity. Qed.
Print Assumptions C38_label_port_refuted.

(** The input [x] of a subroutine [s] and a variable [i_s_x] share their storage. *)
Theorem C38_subroutine_io_refuted : exists e e' x,
  declare_all e [DVar [] [] "_top" "i_s_x"; DSubIO true "s" "x"] = Some e' /\
  nth_error (n_vars e') 0 = Some x /\ nth_error (n_vars e') 1 = Some x /\ resolve e' x = Some (SVar 0).
Proof. exists names_ex. eexists. eexists. repeat (split; [reflexivity|]). reflexivity. Qed.
Print Assumptions C38_subroutine_io_refuted.

(** So do the parameters of two subroutines: [b_c] of [a] and [c] of [a_b]. *)
Theorem C38_two_subroutines_refuted : exists e e' x,
  declare_all e [DSubIO true "a" "b_c"; DSubIO true "a_b" "c"] = Some e' /\
  nth_error (n_vars e') 0 = Some x /\ nth_error (n_vars e') 1 = Some x.
Proof. exists names_ex. eexists. eexists. repeat (split; [reflexivity|]). reflexivity. Qed.
Print Assumptions C38_two_subroutines_refuted.

(** * C33 *)

(** When the names visible at the declaration do not hide a root, [sameas] finishes (in two steps),
    on an existing variable, and the new variable has the width of the one it is declared after;
    the invariant on chains is kept by the declaration. *)
Theorem C33_sameas_partial : forall e sub blk base, roots_ok e -> roots_fixed e sub blk ->
  translateVIOName sub blk (translateVIOName sub blk base) = translateVIOName sub blk base ->
  lookup (translateVIOName sub blk base) e <> None ->
  forall fuel x, 2 <= fuel -> lookup x e = None ->
  exists r, gatherSameAs fuel e sub blk base = Some (TSameAs r) /\
    width_of (e ++ [(x, TSameAs r)]) x = width_of e (translateVIOName sub blk base) /\
    width_of e (translateVIOName sub blk base) <> None /\
    roots_ok (e ++ [(x, TSameAs r)]).
Proof. exact same_as_ok. Qed.
Print Assumptions C33_sameas_partial.

Definition tenv_ex : tenv := [("a", TWidth 8); ("b", TSameAs "a"); ("__block_1_a", TWidth 4)].

Example C33_ex : roots_ok tenv_ex /\ roots_fixed tenv_ex [] [("b", "b")]
  /\ gatherSameAs 2 tenv_ex [] [("b", "b")] "b" = Some (TSameAs "a").
Proof.
  assert (K : forall v r, lookup v tenv_ex = Some (TSameAs r) -> r = "a").
  { intros v r H. unfold tenv_ex in H. cbn in H.
    destruct (String.eqb v "a"); [discriminate|]. destruct (String.eqb v "b"); [inversion H; reflexivity|].
    destruct (String.eqb v "__block_1_a"); discriminate. }
  split; [|split; [|reflexivity]].
  - intros v r H. apply K in H. subst. exists 8. reflexivity.
  - intros v r H. apply K in H. subst. reflexivity.
Qed.

(** [uint8 a; sameas(a) b; { uint4 a; sameas(b) c; }]: in the inner block [a] is rewritten to the
    inner variable, and [c] gets its type, 4 bits instead of 8. *)
Theorem C33_shadowing_refuted : exists e blk r,
  roots_ok e /\ gatherSameAs 2 e [] blk "b" = Some (TSameAs r) /\
  width_of e (translateVIOName [] blk "b") = Some 8 /\ width_of (e ++ [("__block_1_c", TSameAs r)]) "__block_1_c" = Some 4.
Proof.
  exists tenv_ex, [("a", "__block_1_a"); ("b", "b")], "__block_1_a".
  split; [apply C33_ex|]. repeat split.
Qed.
Print Assumptions C33_shadowing_refuted.

(** * C32 *)

(** A single identifier that is an input is named by an existing signal. *)
Theorem C32_identifier_partial : forall e groups sub blk id n,
  gatherStableinputCheck e groups sub blk (AId id) = Some n -> ~ In n (n_inouts e) ->
  In (assumed_signal n) (module_signals e).
Proof.
  intros e groups sub blk id n H Hn. cbn in H.
  destruct (mem (translateVIOName sub blk id) (n_ins e) || mem (translateVIOName sub blk id) (n_inouts e)) eqn:E; [|discriminate].
  inversion H; subst. apply orb_true_iff in E. rewrite !mem_In in E. destruct E as [E|E]; [|tauto].
  unfold module_signals. apply in_or_app. left. apply in_map_iff. eexists. split; [reflexivity|exact E].
Qed.
Print Assumptions C32_identifier_partial.

Definition names_st : names := {| n_subs := []; n_insts := []; n_ins := ["a"; "g_m"]; n_outs := [];
  n_inouts := ["io"]; n_mems := []; n_vars := [] |}.

Example C32_ex : gatherStableinputCheck names_st [] [] [] (AId "a") = Some "a"
  /\ In (assumed_signal "a") (module_signals names_st).
Proof. split; [reflexivity|cbn; tauto]. Qed.

(** A member of a group: the assumption names the group, which is not a signal. *)
Theorem C32_group_refuted : exists e groups n,
  gatherStableinputCheck e groups [] [] (AMember "g" "m") = Some n /\ ~ In (assumed_signal n) (module_signals e).
Proof. exists names_st, [("g", ["m"])], "g". split; [reflexivity|]. cbn. intros [H|[H|[H|[]]]]; discriminate. Qed.
Print Assumptions C32_group_refuted.

(** An inout: accepted, but named as an input. *)
Theorem C32_inout_refuted : exists e n,
  gatherStableinputCheck e [] [] [] (AId "io") = Some n /\ ~ In (assumed_signal n) (module_signals e).
Proof. exists names_st, "io". split; [reflexivity|]. cbn. intros [H|[H|[H|[]]]]; discriminate. Qed.
Print Assumptions C32_inout_refuted.

(** * C33: parameters of subroutines first. In a subroutine, a name that is a parameter designates the variable of the parameter, also in blocks which
    declare a variable of the same name. *)
Theorem C33_parameters_first : forall sub blk p v, lookup p sub = Some v -> lookup v blk = None -> translateVIOName sub blk p = v.
Proof. intros sub blk p v H1 H2. unfold translateVIOName, rewrite1. now rewrite H1, H2. Qed.
Print Assumptions C33_parameters_first.
Example C33_parameters_ex : translateVIOName [("p", "i_f_p")] [("p", "__block_1_p")] "p" = "i_f_p".
Proof. reflexivity. Qed.
