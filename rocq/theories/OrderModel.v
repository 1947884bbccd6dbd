(** Order of the stages of a pipeline. *)
From Coq Require Import List Bool Arith.
Import ListNotations.

(** The sets of variables of a stage used here (names numbered), src/Algorithm.h [t_pipeline_stage_nfo]. *)
Record stage := { read : list nat; written_backward : list nat; written_forward : list nat }.
Definition no_stage := {| read := []; written_backward := []; written_forward := [] |}.

Definition count (w : nat) (l : list nat) : bool := existsb (Nat.eqb w) l.

(** The constraints (o, s): s should be before o. src/Algorithm.cpp 9206-9225. *)
Definition constraints (st : list stage) : list (nat * nat) :=
  let n := length st in
  flat_map (fun s =>
    flat_map (fun w => flat_map (fun o => if count w (read (nth o st no_stage)) then [(o, s)] else []) (rev (seq 0 s)))
             (written_backward (nth s st no_stage)) ++
    flat_map (fun w => flat_map (fun o => if count w (read (nth o st no_stage)) then [(o, s)] else []) (seq (S s) (n - S s)))
             (written_forward (nth s st no_stage)))
  (seq 0 n).

(** src/Algorithm.cpp 9246-9252: no constraint of [s] is still to be selected. *)
Definition is_free (cs : list (nat * nat)) (not_selected : list nat) (s : nat) : bool :=
  forallb (fun c => negb ((fst c =? s) && count (snd c) not_selected)) cs.

(** src/Algorithm.cpp 9237-9267. [not_selected] is a std::set<int>: visited by increasing value. *)
Fixpoint select (cs : list (nat * nat)) (fuel : nat) (not_selected : list nat) : option (list nat) :=
  match fuel with
  | O => Some []
  | S n =>
      match not_selected with
      | [] => Some []
      | _ =>
          match find (is_free cs not_selected) not_selected with
          | None => None
          | Some s => option_map (cons s) (select cs n (remove Nat.eq_dec s not_selected))
          end
      end
  end.

(** [Algorithm::orderPipelineStages], src/Algorithm.cpp 9203-9268: the positions of the stages, in the order produced. *)
Definition order_stages (st : list stage) : option (list nat) :=
  select (constraints st) (length st) (seq 0 (length st)).
