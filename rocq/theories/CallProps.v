(** Property C28. *)
From Coq Require Import String Ascii List Bool Lia.
From Verif Require Import CallModel CallProofs.
Import ListNotations.
Local Open Scope string_scope.

(** An accepted call gives every formal exactly one value. *)
Theorem C28_every_formal_matched : forall gs es ms,
  matchCallParams gs es = Some ms -> length ms = length es.
Proof. exact match_length. Qed.
Print Assumptions C28_every_formal_matched.

(** Calls without groups: accepted iff as many arguments as formals, and the
    arguments are given in order. *)
Theorem C28_scalars : forall xs es ms,
  matchCallParams (map GExpr xs) es = Some ms <-> length xs = length es /\ ms = map MExpr xs.
Proof. exact scalars_ok. Qed.
Print Assumptions C28_scalars.

Example C28_scalars_ex : matchCallParams (map GExpr [1; 2; 3]) ["a"; "b"; "c"] = Some [MExpr 1; MExpr 2; MExpr 3]
  /\ matchCallParams (map GExpr [1; 2]) ["a"; "b"; "c"] = None.
Proof. split; reflexivity. Qed.

(** A group given between scalars: each formal named [p_m], for members [m] of the
    group, in whatever order, receives [base_m], the scalars around are matched in
    order. Needs: member names without underscore, and that the formal after
    the group is not itself named after one of the members. *)
Theorem C28_group_partial : forall xs1 fs1 b p mem sel xs2 fs2,
  length xs1 = length fs1 -> length xs2 = length fs2 ->
  (forall m, In m sel -> In m mem /\ no_underscore m) ->
  (forall f fs', fs2 = f :: fs' -> ~ In (memberPostfix f) mem) ->
  (fs1 ++ sel <> [])%list \/ fs2 <> [] ->
  matchCallParams (map GExpr xs1 ++ GGroup b mem :: map GExpr xs2)
                  (fs1 ++ map (fun m => p ++ "_" ++ m)%string sel ++ fs2)
  = Some (map MExpr xs1 ++ map (fun m => MVar (b ++ "_" ++ m)%string) sel ++ map MExpr xs2)%list.
Proof. exact group_call_ok. Qed.
Print Assumptions C28_group_partial.

Example C28_group_ex :
  matchCallParams [GExpr 1; GGroup "g" ["x"; "y"]; GExpr 2] ["a"; "v_x"; "v_y"; "b"]
  = Some [MExpr 1; MVar "g_x"; MVar "g_y"; MExpr 2].
Proof. reflexivity. Qed.

(** Exact description of what is accepted and of the matching, for any mix of
    scalars and groups (the segments of [CallProofs.Seg]). *)
Theorem C28_segments : forall gs es ms,
  gs <> [] -> es <> [] -> (matchCallParams gs es = Some ms <-> Seg gs es ms).
Proof. exact matchCallParams_iff. Qed.
Print Assumptions C28_segments.

Example C28_segments_ex : Seg [GGroup "g" ["x"]] ["v_x"; "w_x"] [MVar "g_x"; MVar "g_x"].
Proof.
  apply (Seg_group "g" ["x"] [] ["v_x"; "w_x"] [] []).
  - intros e [<-|[<-|[]]]; left; reflexivity.
  - intros e es' H; discriminate.
  - reflexivity.
  - constructor.
Qed.

(** A member whose name contains an underscore is never matched. *)
Theorem C28_underscore_member_refuted : exists b m,
  matchCallParams [GGroup b [m]] ["v_" ++ m] = None.
Proof. exists "g", "data_in". reflexivity. Qed.
Print Assumptions C28_underscore_member_refuted.

(** A group of a single member is accepted for two unrelated formals, so a list
    that is too short is not always rejected. *)
Theorem C28_wrong_length_refuted : exists gs es ms,
  matchCallParams gs es = Some ms /\ gs = [GGroup "g" ["x"]] /\ es = ["v_x"; "other_x"].
Proof. exists [GGroup "g" ["x"]], ["v_x"; "other_x"]. eexists. repeat split. Qed.
Print Assumptions C28_wrong_length_refuted.

(** And a correct call may be rejected: the scalar formal following the group is
    captured when its name ends like a member. *)
Theorem C28_capture_refuted : 
  matchCallParams [GGroup "g" ["x"]; GExpr 1] ["v_x"; "pos_x"] = None.
Proof. reflexivity. Qed.
Print Assumptions C28_capture_refuted.
