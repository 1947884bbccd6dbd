(** Types of parameterized inputs and outputs: sameas, auto, specializations, instantiation contexts. *)
From Coq Require Import String Ascii List Bool ZArith Decimal DecimalString.
Import ListNotations.
Local Open Scope string_scope.

(** * Types and variables: e_Type, t_type_nfo (src/TypesAndConsts.h 49-60), t_var_nfo (src/Blueprint.h 45-70). *)
Inductive base := Int | UInt | Parameterized.
(** [v_same]: same_as, empty when there is none. [v_init]: first initial value, [None] when init_values is empty. [v_noinit]: do_not_initialize. *)
Record vio := { v_name : string; v_base : base; v_width : Z; v_same : string; v_init : option string; v_noinit : bool; v_table : bool }.
(** Variables (none in modules), inputs, outputs, inouts; the parameterized ones, in the order of their declaration. *)
Record bprint := { b_vars : list vio; b_ins : list vio; b_outs : list vio; b_inouts : list vio; b_params : list string; b_alg : bool }.

(** std::to_string on int. *)
Definition to_string (z : Z) : string := NilZero.string_of_int (Z.to_int z).
(** std::toupper on the characters of a name, "C" locale. *)
Definition up (c : ascii) : ascii := let n := nat_of_ascii c in if Nat.leb 97 n && Nat.leb n 122 then ascii_of_nat (n - 32) else c.
Fixpoint upper (s : string) : string := match s with EmptyString => EmptyString | String c r => String (up c) (upper r) end.

(** findVIO, and getVIODefinition of src/Algorithm.cpp 1167-1176 and src/Blueprint.cpp 53-62. *)
Definition find_in (n : string) (l : list vio) : option vio := find (fun v => v_name v =? n) l.
Definition get_vio (b : bprint) (n : string) : option vio :=
  match find_in n (b_vars b) with
  | Some v => Some v
  | None => match find_in n (b_ins b) with
            | Some v => Some v
            | None => match find_in n (b_outs b) with Some v => Some v | None => find_in n (b_inouts b) end
            end
  end.

(** * Contexts: the map autos of t_instantiation_context, src/Blueprint.h 98-112. *)
Definition ctx := string -> option string.
Definition put (c : ctx) (k v : string) : ctx := fun x => if x =? k then Some v else c x.

(** Results: a value, an error reported by the compiler, an internal assertion. *)
Inductive res (A : Type) := Ok (a : A) | Err | Asrt.
Arguments Ok {A}. Arguments Err {A}. Arguments Asrt {A}.
Definition rbind {A B} (r : res A) (f : A -> res B) : res B := match r with Ok a => f a | Err => Err | Asrt => Asrt end.
Notation "'let!' x := o 'in' r" := (rbind o (fun x => r)) (at level 200, x pattern, right associativity).

(** typeString, src/Blueprint.cpp 107-113. *)
Definition type_string (t : base) : string := match t with Int => "signed" | _ => "" end.

(** The variable a type comes from: src/Blueprint.cpp 120-121, the same in the four functions. *)
Definition base_of (b : bprint) (v : vio) : option vio := get_vio b (if v_same v =? "" then v_name v else v_same v).
Definition is_param (v : vio) : bool := match v_base v with Parameterized => true | _ => false end.

(** varBitRange, src/Blueprint.cpp 117-142: the text between '[' and ':0]'. *)
Definition var_bit_range (b : bprint) (v : vio) (c : ctx) : res string :=
  if is_param v then
    match base_of b v with
    | None => Err
    | Some w => if is_param w then match c (upper (v_name w) ++ "_WIDTH") with None => Err | Some s => Ok (s ++ "-1") end else Ok (to_string (v_width w - 1))
    end
  else Ok (to_string (v_width v - 1)).

(** varBitWidth, src/Blueprint.cpp 146-172: the name of the parameter when it is not in the context. *)
Definition var_bit_width (b : bprint) (v : vio) (c : ctx) : res string :=
  if is_param v then
    match base_of b v with
    | None => Err
    | Some w => if is_param w then let k := upper (v_name w) ++ "_WIDTH" in match c k with None => Ok k | Some s => Ok s end else Ok (to_string (v_width w))
    end
  else Ok (to_string (v_width v)).

(** varInitValue, src/Blueprint.cpp 176-209. *)
Definition var_init (b : bprint) (v : vio) (c : ctx) : res string :=
  if v_table v then Asrt
  else if is_param v then
    match base_of b v with
    | None => Asrt
    | Some w => if is_param w then match c (upper (v_name w) ++ "_INIT") with None => Err | Some s => Ok s end
                else Ok (match v_init w with None => "0" | Some s => s end)
    end
  else match v_init v with Some s => Ok s | None => if v_noinit v then Ok "" else Asrt end.

(** varType, src/Blueprint.cpp 213-238. *)
Definition var_type (b : bprint) (v : vio) (c : ctx) : res base :=
  if is_param v then
    match base_of b v with
    | None => Err
    | Some w => if is_param w then match c (upper (v_name w) ++ "_SIGNED") with None => Err | Some s => Ok (if s =? "signed" then Int else UInt) end else Ok (v_base w)
    end
  else Ok (v_base v).

(** * Declarations: gatherTypeNfo, src/Algorithm.cpp 1225-1260. Groups are not modelled, nor the renaming of the variables of blocks (see NameModel). *)
Inductive tdecl := TType (t : base) (w : Z) | TSame (n : string) | TAuto.
Record decl := { d_name : string; d_type : tdecl; d_init : option string; d_noinit : bool }.

(** findSameAs and findSameAsRoot, 1180-1221, on the variables declared so far. [None]: not enough fuel. *)
Fixpoint same_root (fuel : nat) (l : list vio) (n : string) : option string :=
  match fuel with
  | O => None
  | S f => match find_in n l with
           | Some v => if v_same v =? "" then Some n else same_root f l (v_same v)
           | None => Some n
           end
  end.

(** Declaration of a variable: duplicates are refused (570-580, 3620-3680). *)
Definition declare (l : list vio) (d : decl) : res (list vio) :=
  match find_in (d_name d) l with
  | Some _ => Err
  | None =>
      match d_type d with
      | TType Parameterized _ => Asrt     (* not produced by splitType *)
      | TType t w => Ok (l ++ [ {| v_name := d_name d; v_base := t; v_width := w; v_same := ""; v_init := d_init d; v_noinit := d_noinit d; v_table := false |} ])%list
      | TAuto => Ok (l ++ [ {| v_name := d_name d; v_base := Parameterized; v_width := 0; v_same := ""; v_init := d_init d; v_noinit := d_noinit d; v_table := false |} ])%list
      | TSame n =>
          match find_in n l with
          | None => Err
          | Some _ =>
              match same_root (S (List.length l)) l n with
              | None => Asrt
              | Some r => Ok (l ++ [ {| v_name := d_name d; v_base := Parameterized; v_width := 0; v_same := r; v_init := d_init d; v_noinit := d_noinit d; v_table := false |} ])%list
              end
          end
      end
  end.
Fixpoint declare_all (l : list vio) (ds : list decl) : res (list vio) :=
  match ds with [] => Ok l | d :: r => let! l' := declare l d in declare_all l' r end.

(** * Instances: t_instanced_nfo, src/Algorithm.h: specializations, bindings (left name, right identifier). *)
Record instance := { i_bp : bprint; i_spec : ctx; i_binds : list (string * string) }.

(** A specialization '<name : type>' in the modifiers of an instance, 1351-1362. *)
Definition specialize (c : ctx) (n : string) (t : base) (w : Z) : ctx :=
  put (put (put c (upper n ++ "_WIDTH") (to_string w)) (upper n ++ "_INIT") "") (upper n ++ "_SIGNED") (type_string t).

(** varIsInInstantiationContext, 9721-9734. *)
Definition has (c : ctx) (k : string) : bool := match c k with Some _ => true | None => false end.
Definition var_in_ctx (n : string) (c : ctx) : bool :=
  has c (upper n ++ "_WIDTH") && has c (upper n ++ "_INIT") && has c (upper n ++ "_SIGNED").

(** addToInstantiationContext, 9738-9749. The context the values are read from is also the one that is modified at each call (9801, 9812-9822). *)
Definition add_to_ctx (b : bprint) (n : string) (v : vio) (c : ctx) : res ctx :=
  let! w := var_bit_width b v c in
  let c1 := put c (upper n ++ "_WIDTH") w in
  let! i := var_init b v c1 in
  let c2 := put c1 (upper n ++ "_INIT") i in
  let! t := var_type b v c2 in
  Ok (put c2 (upper n ++ "_SIGNED") (type_string t)).

(** findBindingLeft, 9683-9694. *)
Definition bound_to (n : string) (l : list (string * string)) : option string := option_map snd (find (fun b => fst b =? n) l).

(** makeBlueprintInstantiationContext, 9762-9828. [p]: the algorithm instantiating. *)
Fixpoint add_params (p : bprint) (i : instance) (l : list string) (c : ctx) : res ctx :=
  match l with
  | [] => Ok c
  | n :: r =>
      if var_in_ctx n (i_spec i) then add_params p i r c
      else match get_vio (i_bp i) n with
           | None => Asrt
           | Some io =>
               if v_same io =? "" then
                 match bound_to n (i_binds i) with
                 | None => Err
                 | Some w =>
                     match get_vio p w with
                     | None => add_params p i r c
                     | Some v => if v_table v then add_params p i r c else let! c' := add_to_ctx p n v c in add_params p i r c'
                     end
                 end
               else add_params p i r c
           end
  end.
Fixpoint add_ios (b : bprint) (l : list vio) (c : ctx) : res ctx :=
  match l with
  | [] => Ok c
  | io :: r => if negb (is_param io) || negb (v_same io =? "") then let! c' := add_to_ctx b (v_name io) io c in add_ios b r c' else add_ios b r c
  end.
Definition override (c s : ctx) : ctx := fun k => match s k with Some v => Some v | None => c k end.
Definition make_ctx (p : bprint) (i : instance) (c : ctx) : res ctx :=
  let! c1 := add_params p i (b_params (i_bp i)) (override c (i_spec i)) in
  if b_alg (i_bp i) then add_ios (i_bp i) (b_ins (i_bp i) ++ b_outs (i_bp i) ++ b_inouts (i_bp i))%list c1 else Ok c1.
