(** Formal verification modes of a unit. *)
From Coq Require Import List Bool Arith.
Import ListNotations.

(** The accepted modes, src/SiliceCompiler.cpp 279-281; [Empty] is the value left by
    libstdc++ in a moved-from short string, it is not a mode. *)
Inductive mode := Bmc | Tind | Cover | Empty.

Definition mode_eqb (a b : mode) : bool :=
  match a, b with Bmc, Bmc | Tind, Tind | Cover, Cover | Empty, Empty => true | _, _ => false end.

Fixpoint update {A} (l : list A) (n : nat) (x : A) : list A :=
  match l, n with
  | [], _ => []
  | _ :: l', O => x :: l'
  | y :: l', S n' => y :: update l' n' x
  end.

(** [std::unique] of libstdc++ ([std::__unique]): [first_dup] is [std::adjacent_find];
    then [dest] is the last kept position and [k] runs over the following
    positions; a kept element is moved to [++dest]. *)
Fixpoint first_dup (l : list mode) (i : nat) : option nat :=
  match l with
  | a :: ((b :: _) as l') => if mode_eqb a b then Some i else first_dup l' (S i)
  | _ => None
  end.

Fixpoint unique_loop (n : nat) (dest k : nat) (l : list mode) : list mode :=
  match n with
  | O => l
  | S n' =>
      if mode_eqb (nth dest l Empty) (nth k l Empty) then unique_loop n' dest (S k) l
      else unique_loop n' (S dest) (S k) (update (update l (S dest) (nth k l Empty)) k Empty)
  end.

(** The content of the vector after the call, which keeps its size since the returned
    iterator is not used, src/Algorithm.cpp 6453. *)
Definition std_unique (l : list mode) : list mode :=
  match first_dup l 0 with
  | None => l
  | Some d => unique_loop (length l - (d + 2)) d (d + 2) l
  end.

(** The comparator, src/Algorithm.cpp 6456-6461. *)
Definition comp (a b : mode) : bool :=
  mode_eqb a Bmc || (mode_eqb a Tind && mode_eqb b Cover).

(** [std::sort] of libstdc++ on at most 16 elements is [std::__insertion_sort]:
    the next element is compared with the first one and moved to the front, or inserted
    by comparing with its predecessors ([std::__unguarded_linear_insert]); [r] is the sorted
    prefix, in reverse order. Longer lists (repetitions only) are not modelled. *)
Fixpoint insert_rev (x : mode) (r : list mode) : list mode :=
  match r with
  | [] => [x]
  | y :: r' => if comp x y then y :: insert_rev x r' else x :: r
  end.
Definition insert_step (x : mode) (r : list mode) : list mode :=
  match rev r with
  | [] => [x]
  | first :: _ => if comp x first then r ++ [x] else insert_rev x r
  end.
Fixpoint sort_loop (r : list mode) (l : list mode) : list mode :=
  match l with
  | [] => rev r
  | x :: l' => sort_loop (insert_step x r) l'
  end.
Definition std_sort (l : list mode) : list mode := sort_loop [] l.

(** The modes of the unit: those listed, [bmc] if none is, src/SiliceCompiler.cpp 275-293,
    through [Algorithm::init], src/Algorithm.cpp 6450-6461. *)
Definition unit_modes (listed : list mode) : list mode :=
  std_sort (std_unique (match listed with [] => [Bmc] | _ => listed end)).
