(** Property C26. *)
From Coq Require Import List Bool Arith.
From Verif Require Import TableModel TableProofs.
Import ListNotations.

(** A table of declared size [n] initialized by a list is accepted exactly when
    the list has [n] values, or fewer and a padding; entry [i] is then the [i]-th
    value, or the padding value. *)
Theorem C26_sized_list : forall V (zero : V) n l p, 0 < n ->
  (forall t, readInitList zero n (IList l p) = Some t ->
     exists vals, t = Table n vals /\ length vals <= n /\
       forall i, i < n -> emitted_init t i =
         match nth_error l i with
         | Some v => Some v
         | None => match p with PadWith v => Some v | _ => None end
         end) /\
  (readInitList zero n (IList l p) <> None <-> length l = n \/ (length l < n /\ p <> NoPad)).
Proof. exact sized_list. Qed.
Print Assumptions C26_sized_list.

Example C26_sized_list_ex : readInitList 0 5 (IList [7; 8] (PadWith 1)) = Some (Table 5 [7; 8; 1; 1; 1])
  /\ readInitList 0 5 (IList [7; 8] NoPad) = None /\ readInitList 0 1 (IList [7; 8] (PadWith 1)) = None.
Proof. repeat split; reflexivity. Qed.

(** Without a size, the table has the size of its initializer; strings get a
    terminator. *)
Theorem C26_autosize : forall V (zero : V) l p,
  readInitList zero 0 (IList l p) = Some (Table (length l) l) /\
  readInitList zero 0 (IString l) = Some (Table (S (length l)) (l ++ [zero])).
Proof. exact autosize. Qed.
Print Assumptions C26_autosize.

(** The values loaded when the table is reset are the declared ones (paddings
    other than [uninitialized]). *)
Theorem C26_reset_values : forall V (zero : V) n l p t, 0 < n -> p <> PadUninit ->
  readInitList zero n (IList l p) = Some t ->
  exists vals, reset_values t = Some vals /\ length vals = n /\
    forall i, i < n -> nth_error vals i =
         match nth_error l i with
         | Some v => Some v
         | None => match p with PadWith v => Some v | _ => None end
         end.
Proof. exact reset_values_ok. Qed.
Print Assumptions C26_reset_values.

Example C26_reset_ex : exists t, readInitList 0 4 (IList [3] (PadWith 9)) = Some t /\ reset_values t = Some [3; 9; 9; 9].
Proof. eexists. split; reflexivity. Qed.

(** Strings: accepted iff the string and its terminator fit; the characters and
    the terminator are stored. Missing from the full claim: the padding. *)
Theorem C26_sized_string_partial : forall V (zero : V) n l, 0 < n ->
  (readInitList zero n (IString l) <> None <-> S (length l) <= n) /\
  forall t, readInitList zero n (IString l) = Some t ->
  forall i, emitted_init t i = if i <? length l then nth_error l i else if i =? length l then Some zero else None.
Proof. exact (fun V z n l H => conj (sized_string_accept V z n l H) (fun t => sized_string_content V z n l t H)). Qed.
Print Assumptions C26_sized_string_partial.

Example C26_sized_string_ex : readInitList 0 3 (IString [65; 66]) = Some (Table 3 [65; 66; 0]).
Proof. reflexivity. Qed.

(** A string shorter than the table does not pad it with zeros, contrary to the
    documentation (learn-silice/Documentation.md 278-280), and resetting the
    table reads past the recorded values. *)
Theorem C26_string_padding_refuted : exists (n : nat) (l : list nat) t i,
  readInitList 0 n (IString l) = Some t /\ i < n /\ emitted_init t i = None /\ reset_values t = None.
Proof.
  exists 8, [65], (Table 8 [65; 0]), 4. repeat split. apply Nat.ltb_lt. reflexivity.
Qed.
Print Assumptions C26_string_padding_refuted.

(** The same out of bounds read happens with [pad(uninitialized)]. *)
Theorem C26_pad_uninitialized_reset_refuted : exists (n : nat) (l : list nat) t,
  readInitList 0 n (IList l PadUninit) = Some t /\ reset_values t = None.
Proof. exists 8, [1; 2], (Table 8 [1; 2]). split; reflexivity. Qed.
Print Assumptions C26_pad_uninitialized_reset_refuted.
