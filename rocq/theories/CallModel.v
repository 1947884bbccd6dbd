(** Matching of call parameters with the expected inputs or outputs. *)
From Coq Require Import String Ascii List Bool.
Import ListNotations.
Local Open Scope string_scope.

(** Text after the last ['_'], if any: [rfind('_')] then [substr]. *)
Fixpoint after_last (s : string) : option string :=
  match s with
  | EmptyString => None
  | String c r => match after_last r with
                  | Some t => Some t
                  | None => if Ascii.eqb c "_"%char then Some r else None
                  end
  end.

(** [memberPostfix], src/Algorithm.cpp 3695-3703. *)
Definition memberPostfix (name : string) : string :=
  match after_last name with Some t => t | None => "" end.

(** A given parameter, src/Algorithm.cpp 3718-3748: a group (base identifier and
    the members of its definition) or anything else (identifier, access or
    expression), here an opaque expression number. *)
Inductive given := GExpr (e : nat) | GGroup (base : string) (members : list string).

(** What a formal receives: an expression, or the variable [base_member]. *)
Inductive matched := MExpr (e : nat) | MVar (v : string).

(** Does a group have a member matching the formal? src/Algorithm.cpp 3778-3789.
    The matched identifier is [base + "_" + member]. *)
Definition group_match (base : string) (members : list string) (formal : string) : option matched :=
  if existsb (fun m => String.eqb (memberPostfix formal) m) members
  then Some (MVar (base ++ "_" ++ memberPostfix formal)) else None.

(** Main loop of [Algorithm::matchCallParams], src/Algorithm.cpp 3764-3809. Each
    iteration consumes a formal or a given parameter; [fuel] bounds both.
    The C++ indices [g], [i] are the heads of the lists. *)
Fixpoint match_loop (fuel : nat) (gs : list given) (es : list string) (acc : list matched) : option (list matched) :=
  match fuel with
  | O => None
  | S f =>
    match es with
    | [] => match gs with                                     (* 3800-3809 *)
            | [] => Some acc
            | [GGroup _ _] => Some acc
            | _ => None
            end
    | e :: es' =>
      match gs with
      | [] => None                                            (* 3767-3769 *)
      | GGroup b ms :: gs' =>
          match group_match b ms e with
          | Some m => match_loop f gs es' (acc ++ [m])
          | None => match_loop f gs' es acc
          end
      | GExpr x :: gs' => match_loop f gs' es' (acc ++ [MExpr x])
      end
    end
  end.

(** [Algorithm::matchCallParams], src/Algorithm.cpp 3752-3810; [None] is a return
    value of [false], reported as an error by [parseCallParams] (3833-3838, 3859-3864). *)
Definition matchCallParams (gs : list given) (es : list string) : option (list matched) :=
  match gs, es with
  | [], [] => Some []
  | [], _ => None
  | _, [] => None
  | _, _ => match_loop (S (length gs + length es)) gs es []
  end.
