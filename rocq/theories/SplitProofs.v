(** Reading lines of source, and reading back the Lua text. *)
From Coq Require Import Ascii String List Bool Arith Lia DecimalString.
From Coq Require DecimalNat.
Import ListNotations.
From Verif Require Import CommentModel CommentProofs SplitModel.
Local Open Scope char_scope.
Local Open Scope list_scope.

(** * Source lines. *)

(** Characters of a string of the source: as such, or after a backslash. *)
Inductive schar := Plain (c : ascii) | Esc (c : ascii).
(** Parts of a line, each followed by [n] blanks. *)
Inductive piece :=
| Word (w : text) (n : nat)
| Str (l : list schar) (n : nat)
| Ins (c : text) (n : nat)
| Slash (n : nat)
| Block (b : text) (n : nat).
(** Lines: [k] blanks, the parts, a comment up to the end of the line; or Lua. *)
Inductive line := Silice (k : nat) (l : list piece) (c : option text) | Lua (k : nat) (c : text).

Definition blanks (n : nat) : text := repeat " " n.
Definition schar_text (c : schar) : text := match c with Plain c => [c] | Esc c => [bslash; c] end.
Definition str_text (l : list schar) : text := concat (map schar_text l).
Definition piece_text (p : piece) : text :=
  match p with
  | Word w n => w ++ blanks n
  | Str l n => dquote :: str_text l ++ dquote :: blanks n
  | Ins c n => "$" :: c ++ "$" :: blanks n
  | Slash n => "/" :: blanks n
  | Block b n => "/" :: "*" :: b ++ "*" :: "/" :: blanks n
  end.
Definition pieces_text (l : list piece) : text := concat (map piece_text l).
Definition comment_text (c : option text) : text := match c with Some b => "/" :: "/" :: b | None => [] end.
Definition line_text (x : line) : text :=
  match x with
  | Silice k l c => blanks k ++ pieces_text l ++ comment_text c ++ [nl]
  | Lua k c => blanks k ++ "$" :: "$" :: c ++ [nl]
  end.
Definition source (ls : list line) : text := concat (map line_text ls).

(** What is read as such. *)
Definition word_ok (w : text) : bool :=
  match w with [] => false | c :: _ => negb (Ascii.eqb c "/") && forallb (fun c => negb (oneof [bslash; cr; nl; "$"; " "; "009"; dquote] c)) w end.
(** [start]: at the beginning of the string or after an escape. *)
Fixpoint str_ok (start : bool) (l : list schar) : bool :=
  match l with
  | [] => true
  | Plain c :: r => negb (oneof [dquote; bslash; nl; quote] c) && negb (start && is_blank c) && str_ok false r
  | Esc c :: r => negb (oneof [bslash; quote; nl] c) && negb (is_blank c) && str_ok true r
  end.
(** Expressions with closed parentheses and strings. *)
Definition closed (c : text) : bool :=
  match lua_paren (S (S (length c))) 0 (c ++ [")"]) with Some (a, []) => Nat.eqb (length a) (length c) | _ => false end.
Definition ins_ok (c : text) : bool :=
  match c with [] => false | d :: _ => negb (is_blank d) && forallb (fun d => negb (oneof ["$"; nl] d)) c && closed c end.
Definition piece_ok (p : piece) : Prop :=
  match p with
  | Word w _ => word_ok w = true
  | Str l _ => str_ok true l = true
  | Ins c _ => ins_ok c = true
  | Slash _ => True
  | Block b _ => stars_ok b
  end.
Definition first (p : piece) : ascii :=
  match p with Word w _ => match w with c :: _ => c | [] => nl end | Str _ _ => dquote | Ins _ _ => "$" | Slash _ | Block _ _ => "/" end.
(** Words are not glued to what follows, except strings and insertions; a / is not followed by a comment. *)
Definition sep (p : piece) (next : ascii) : bool :=
  match p with
  | Word _ O => oneof [nl; "$"; dquote] next
  | Slash _ => negb (oneof ["/"; "*"] next)
  | _ => true
  end.
Fixpoint wf (l : list piece) (e : ascii) : Prop :=
  match l with [] => True | p :: r => piece_ok p /\ sep p (match r with q :: _ => first q | [] => e end) = true /\ wf r e end.
Definition line_ok (x : line) : Prop :=
  match x with
  | Silice _ l None => wf l nl
  | Silice _ l (Some b) => wf l "/" /\ ~ In nl b
  | Lua _ c => ~ In nl c
  end.

(** * Meaning. *)

(** One blank is kept after words and insertions, none after strings and slashes; comments are left out. *)
Definition one (n : nat) : text := match n with O => [] | S _ => [" "] end.
Definition prepend (t : text) (l : list atom) : list atom := match l with Lit u :: r => Lit (t ++ u) :: r | _ => Lit t :: l end.
Fixpoint atoms_of (l : list piece) (e : text) : list atom :=
  match l with
  | [] => [Lit e]
  | Word w n :: r => prepend (w ++ one n) (atoms_of r e)
  | Str s _ :: r => prepend (dquote :: str_text s ++ [dquote]) (atoms_of r e)
  | Ins c n :: r => Lit [] :: Code c :: prepend (one n) (atoms_of r e)
  | Slash _ :: r => prepend ["/"] (atoms_of r e)
  | Block _ _ :: r => atoms_of r e
  end.
Definition piece_value (ev : text -> text) (p : piece) : text :=
  match p with
  | Word w n => w ++ one n
  | Str s _ => dquote :: str_text s ++ [dquote]
  | Ins c n => ev c ++ one n
  | Slash _ => ["/"]
  | Block _ _ => []
  end.
Definition pieces_value (ev : text -> text) (l : list piece) : text := concat (map (piece_value ev) l).
Definition piece_codes (p : piece) : list text := match p with Ins c _ => [c] | _ => [] end.
Definition atom_codes (a : atom) : list text := match a with Code c => [c] | _ => [] end.
Definition piece_lines (p : piece) : nat := match p with Block b _ => count_nl b | _ => 0 end.
Definition pieces_lines (l : list piece) : nat := list_sum (map piece_lines l).
Definition visible (l : list piece) : bool := existsb (fun p => match p with Block _ _ => false | _ => true end) l.

(** The Lua statements of a source: calls, and lines of Lua. *)
Inductive stmt := Out (l : list piece) (n : nat) | Raw (c : text).
Fixpoint stmts (ls : list line) (n : nat) : list stmt :=
  match ls with
  | [] => []
  | Silice _ l _ :: r => (if visible l then [Out l (n + pieces_lines l)] else []) ++ stmts r (S (n + pieces_lines l))
  | Lua _ c :: r => Raw c :: stmts r (S n)
  end.
Fixpoint line_after (ls : list line) (n : nat) : nat :=
  match ls with [] => n | Silice _ l _ :: r => line_after r (S (n + pieces_lines l)) | Lua _ _ :: r => line_after r (S n) end.

(** * What is written for a part. *)
Definition cur_str (c : schar) : text := match c with Plain c => [c] | Esc c => [bslash; bslash; c] end.
Definition cur_of (p : piece) : text :=
  match p with
  | Word w n => protect w ++ one n
  | Str s _ => dquote :: concat (map cur_str s) ++ [dquote]
  | Ins c n => txt "' .. (" ++ c ++ txt ") .. '" ++ one n
  | Slash _ => ["/"]
  | Block _ _ => []
  end.
Definition cur (l : list piece) : text := concat (map cur_of l).

Lemma oneof_In l c : oneof l c = true <-> In c l.
Proof. unfold oneof. rewrite existsb_exists. split; [intros (x & I & E); apply Ascii.eqb_eq in E; now subst|intros I; exists c; split; [exact I|apply Ascii.eqb_refl]]. Qed.
Lemma oneof_not l c : oneof l c = false <-> ~ In c l.
Proof. rewrite <- oneof_In. destruct (oneof l c); split; intros H; congruence. Qed.

Lemma span_all p w (s : text) : forallb p w = true -> match s with c :: _ => p c = false | [] => True end -> span p (w ++ s) = (w, s).
Proof.
  induction w as [|c w IH]; intros H S.
  - destruct s as [|c s]; [reflexivity|]. cbn [app span]. rewrite S. reflexivity.
  - cbn [forallb] in H. apply andb_true_iff in H. destruct H as [H1 H2]. cbn [app span]. rewrite H1, (IH H2 S). reflexivity.
Qed.

Definition nonblank (s : text) : Prop := match s with c :: _ => is_blank c = false | [] => True end.
Lemma drop_nonblank s : nonblank s -> drop_blanks s = s.
Proof. destruct s as [|c s]; [reflexivity|]. cbn. now intros ->. Qed.
Lemma skip_nonblank b s : nonblank s -> skip b s = s.
Proof. destruct b; [apply drop_nonblank|reflexivity]. Qed.
Lemma drop_blanks_n n s : drop_blanks (blanks n ++ s) = drop_blanks s.
Proof. induction n as [|n IH]; [reflexivity|exact IH]. Qed.

Section Loop.
  Variable R : reader.
  Notation loop := (split_loop R).

  Lemma loop_blanks n f code c0 ln c s : is_blank c = false -> loop (S f) code c0 ln (blanks n ++ c :: s) = loop (S f) code c0 ln (c :: s).
  Proof.
    intros H. destruct n as [|n]; [reflexivity|]. cbn [blanks repeat app split_loop].
    assert (P : peekChar true (" " :: repeat " " n ++ c :: s) = (Some c, c :: s)).
    { unfold peekChar. cbn [skip]. change (" " :: repeat " " n ++ c :: s) with (blanks (S n) ++ c :: s). rewrite drop_blanks_n. cbn [drop_blanks]. now rewrite H. }
    assert (P' : peekChar true (c :: s) = (Some c, c :: s)) by (unfold peekChar; cbn [skip drop_blanks]; now rewrite H).
    rewrite P, P'. reflexivity.
  Qed.

  Lemma peek c s : is_blank c = false -> peekChar true (c :: s) = (Some c, c :: s).
  Proof. intros H. unfold peekChar. cbn [skip drop_blanks]. now rewrite H. Qed.
  Lemma readc c s : is_blank c = false -> readChar true (c :: s) = (Some c, s).
  Proof. intros H. unfold readChar. cbn [skip drop_blanks]. now rewrite H. Qed.

  Lemma blank_after_one n s : nonblank s -> blank_after (blanks n ++ s) = one n.
  Proof. intros H. destruct n as [|n]; [|reflexivity]. destruct s as [|c s]; [reflexivity|]. cbn in *. destruct (Ascii.eqb_spec c " "); [subst; discriminate|]. destruct c as [[] [] [] [] [] [] [] []]; try reflexivity; try congruence. Qed.

  Lemma word_spec w : word_ok w = true -> exists c r, w = c :: r /\ c <> "/" /\ forall d, In d w -> ~ In d [bslash; cr; nl; "$"; " "; "009"; dquote].
  Proof.
    destruct w as [|c r]; [discriminate|]. unfold word_ok. intros H. apply andb_true_iff in H. destruct H as [H1 H2]. exists c, r. split; [reflexivity|].
    split; [intros ->; discriminate|]. intros d I. rewrite forallb_forall in H2. specialize (H2 d I). apply negb_true_iff in H2. now apply oneof_not.
  Qed.
  Lemma notblank c : ~ In c [" "; "009"] -> is_blank c = false.
  Proof. intros H. unfold is_blank. apply orb_false_iff. split; apply Ascii.eqb_neq; intros ->; apply H; cbn; auto. Qed.

  Lemma step_word w n f code c0 ln s : word_ok w = true -> nonblank s -> (n = 0 -> match s with c :: _ => oneof [nl; "$"; dquote] c = true | [] => True end) ->
    loop (S f) code c0 ln (w ++ blanks n ++ s) = loop f code (c0 ++ cur_of (Word w n)) ln (blanks n ++ s).
  Proof.
    intros W NB Z. destruct (word_spec w W) as (c & r & -> & N1 & N2).
    assert (Nc : ~ In c [bslash; cr; nl; "$"; " "; "009"; dquote]) by (apply N2; now left).
    assert (Bc : is_blank c = false) by (apply notblank; intros I; apply Nc; cbn in *; intuition).
    cbn [app split_loop]. rewrite peek by exact Bc.
    destruct (Ascii.eqb_spec c nl) as [->|_]; [exfalso; apply Nc; cbn; auto|].
    destruct (Ascii.eqb_spec c bslash) as [->|_]; [exfalso; apply Nc; cbn; auto|].
    destruct (Ascii.eqb_spec c "/") as [->|_]; [now exfalso|].
    destruct (Ascii.eqb_spec c dquote) as [->|_]; [exfalso; apply Nc; cbn; auto 10|].
    destruct (Ascii.eqb_spec c "$") as [->|_]; [exfalso; apply Nc; cbn; auto|].
    unfold readString. rewrite skip_nonblank by exact Bc. change (c :: r ++ blanks n ++ s) with ((c :: r) ++ blanks n ++ s).
    rewrite span_all.
    - cbn [cur_of]. now rewrite blank_after_one.
    - apply forallb_forall. intros d I. specialize (N2 d I). apply negb_true_iff. apply orb_false_iff. split.
      + apply oneof_not. intros J. apply N2. cbn in *. intuition.
      + apply andb_false_iff. right. apply Ascii.eqb_neq. intros ->. apply N2. cbn. auto.
    - destruct n as [|n]; [|reflexivity]. cbn [blanks repeat app]. specialize (Z eq_refl). destruct s as [|d s]; [exact I|]. apply negb_false_iff. apply orb_true_iff. left.
      apply oneof_In in Z. apply oneof_In. cbn in *. intuition.
  Qed.

  Lemma step_nl f code c0 ln s : loop (S f) code c0 ln (nl :: s) = loop f (code ++ flush c0 ln) [] (S ln) s.
  Proof. reflexivity. Qed.

  Lemma string_chunk str a s fuel : forallb (fun c => negb (oneof [dquote; bslash; nl] c)) a = true -> nonblank (a ++ dquote :: s) ->
    string_loop R (S fuel) str (a ++ dquote :: s) = Some (str ++ a, s).
  Proof.
    intros F NB. cbn [string_loop]. destruct (a ++ dquote :: s) as [|z z'] eqn:E; [destruct a; discriminate|]. rewrite <- E in NB |- *. unfold readString. rewrite skip_nonblank by exact NB.
    rewrite span_all.
    - rewrite readc by reflexivity. reflexivity.
    - apply forallb_forall. intros d I. rewrite forallb_forall in F. specialize (F d I). apply negb_true_iff in F. apply negb_true_iff. apply oneof_not in F.
      apply orb_false_iff. split; [apply oneof_not; intros J; apply F; cbn in *; intuition|]. apply andb_false_iff. right. apply Ascii.eqb_neq. intros ->. apply F. cbn. auto.
    - reflexivity.
  Qed.
  Lemma string_esc str a e s fuel : forallb (fun c => negb (oneof [dquote; bslash; nl] c)) a = true -> nonblank (a ++ bslash :: e :: s) -> is_blank e = false ->
    string_loop R (S fuel) str (a ++ bslash :: e :: s) = string_loop R fuel (str ++ a ++ [bslash; bslash; e]) s.
  Proof.
    intros F NB Be. cbn [string_loop]. destruct (a ++ bslash :: e :: s) as [|z z'] eqn:E; [destruct a; discriminate|]. rewrite <- E in NB |- *. unfold readString. rewrite skip_nonblank by exact NB.
    rewrite span_all.
    - rewrite readc by reflexivity. rewrite (readc e s Be). reflexivity.
    - apply forallb_forall. intros d I. rewrite forallb_forall in F. specialize (F d I). apply negb_true_iff in F. apply negb_true_iff. apply oneof_not in F.
      apply orb_false_iff. split; [apply oneof_not; intros J; apply F; cbn in *; intuition|]. apply andb_false_iff. right. apply Ascii.eqb_neq. intros ->. apply F. cbn. auto.
    - reflexivity.
  Qed.

  (** A string: chunks of plain characters [a] before the next escape. *)
  Lemma string_run : forall l fuel str a s, str_ok (match a with [] => true | _ => false end) l = true -> forallb (fun c => negb (oneof [dquote; bslash; nl] c)) a = true -> nonblank a ->
    length (str_text l) < fuel -> string_loop R fuel str (a ++ str_text l ++ dquote :: s) = Some (str ++ a ++ concat (map cur_str l), s).
  Proof.
    induction l as [|[c|c] l IH]; intros fuel str a s SO F NB L; (destruct fuel as [|fuel]; [cbn in L; lia|]).
    - cbn [str_text map concat app]. rewrite app_nil_r. apply string_chunk; [exact F|]. destruct a; [reflexivity|exact NB].
    - cbn [str_ok] in SO. rewrite !andb_true_iff in SO. destruct SO as [[S1 S2] S3]. apply negb_true_iff in S1, S2.
      change (a ++ str_text (Plain c :: l) ++ dquote :: s) with (a ++ [c] ++ str_text l ++ dquote :: s). rewrite app_assoc.
      rewrite IH; [now rewrite <- app_assoc| | | |].
      + destruct a; exact S3.
      + rewrite forallb_app, F. cbn [forallb]. rewrite andb_true_r. apply negb_true_iff. apply oneof_not. apply oneof_not in S1. intros J. apply S1. cbn in *. intuition.
      + destruct a; [cbn; exact S2|exact NB].
      + cbn [str_text map concat schar_text app length] in L. change (length (str_text l) < S fuel). unfold str_text. lia.
    - cbn [str_ok] in SO. rewrite !andb_true_iff in SO. destruct SO as [[S1 S2] S3]. apply negb_true_iff in S1, S2.
      change (a ++ str_text (Esc c :: l) ++ dquote :: s) with (a ++ bslash :: c :: [] ++ str_text l ++ dquote :: s). rewrite string_esc; [|exact F|destruct a; [reflexivity|exact NB]|exact S2].
      rewrite IH; [|exact S3|reflexivity|exact I|].
      + f_equal. f_equal. cbn [map concat cur_str app]. rewrite <- !app_assoc. reflexivity.
      + cbn [str_text map concat schar_text app length] in L. unfold str_text. lia.
  Qed.
  Lemma str_len l : length (str_text l) <= length (concat (map cur_str l)).
  Proof. unfold str_text. induction l as [|[c|c] l IH]; cbn [map concat schar_text cur_str]; rewrite ?app_length; cbn [length]; lia. Qed.

  Lemma step_str l n f code c0 ln s : str_ok true l = true ->
    loop (S f) code c0 ln (piece_text (Str l n) ++ s) = loop f code (c0 ++ cur_of (Str l n)) ln (blanks n ++ s).
  Proof.
    intros SO. cbn [piece_text app split_loop]. rewrite <- app_assoc. cbn [app]. rewrite peek by reflexivity.
    change (Ascii.eqb dquote nl) with false. change (Ascii.eqb dquote bslash) with false. change (Ascii.eqb dquote "/") with false. change (Ascii.eqb dquote dquote) with true. cbn iota.
    unfold jumpOverString. rewrite readc by reflexivity.
    rewrite (string_run l _ [] [] (blanks n ++ s)); [|exact SO|reflexivity|exact I|rewrite app_length; lia]. reflexivity.
  Qed.

  Lemma ins_spec c : ins_ok c = true -> exists d r, c = d :: r /\ is_blank d = false /\ (forall x, In x c -> ~ In x ["$"; nl]) /\ closed c = true.
  Proof.
    destruct c as [|d r]; [discriminate|]. unfold ins_ok. rewrite !andb_true_iff. intros [[H1 H2] H3]. exists d, r. split; [reflexivity|]. split; [now apply negb_true_iff|]. split; [|exact H3].
    intros x I. rewrite forallb_forall in H2. specialize (H2 x I). apply negb_true_iff in H2. now apply oneof_not.
  Qed.
  Lemma step_ins c n f code c0 ln s : ins_ok c = true -> nonblank s ->
    loop (S f) code c0 ln (piece_text (Ins c n) ++ s) = loop f code (c0 ++ cur_of (Ins c n)) ln (blanks n ++ s).
  Proof.
    intros IO NB. destruct (ins_spec c IO) as (d & r & -> & Bd & N & _).
    assert (Nd : d <> "$") by (intros ->; apply (N "$"); cbn; auto).
    cbn [piece_text app split_loop]. rewrite peek by reflexivity.
    change (Ascii.eqb "$" nl) with false. change (Ascii.eqb "$" bslash) with false. change (Ascii.eqb "$" "/") with false. change (Ascii.eqb "$" dquote) with false. change (Ascii.eqb "$" "$") with true. cbn iota.
    rewrite readc by reflexivity. rewrite (peek d _ Bd). destruct (Ascii.eqb_spec d "$") as [?|_]; [contradiction|].
    unfold readString. rewrite skip_nonblank by exact Bd. rewrite <- app_assoc. cbn [app].
    change (d :: r ++ "$" :: blanks n ++ s) with ((d :: r) ++ "$" :: blanks n ++ s). rewrite span_all.
    - rewrite readc by reflexivity. rewrite blank_after_one by exact NB. cbn [cur_of]. reflexivity.
    - apply forallb_forall. intros x I. specialize (N x I). apply negb_true_iff. apply orb_false_iff. split; [apply oneof_not; intros J; apply N; cbn in *; intuition|].
      apply andb_false_iff. right. apply Ascii.eqb_neq. intros ->. apply N. cbn. auto.
    - reflexivity.
  Qed.

  Lemma step_slash n f code c0 ln c s : is_blank c = false -> negb (oneof ["/"; "*"] c) = true ->
    loop (S f) code c0 ln (piece_text (Slash n) ++ c :: s) = loop f code (c0 ++ cur_of (Slash n)) ln (c :: s).
  Proof.
    intros B N. apply negb_true_iff, oneof_not in N. cbn [piece_text app split_loop]. rewrite peek by reflexivity.
    change (Ascii.eqb "/" nl) with false. change (Ascii.eqb "/" bslash) with false. change (Ascii.eqb "/" "/") with true. cbn iota.
    unfold jumpOverComment. rewrite readc by reflexivity.
    assert (P : peekChar true (blanks n ++ c :: s) = (Some c, c :: s)) by (unfold peekChar; cbn [skip]; rewrite drop_blanks_n; cbn [drop_blanks]; now rewrite B).
    rewrite P. destruct (Ascii.eqb_spec c "/") as [->|_]; [exfalso; apply N; cbn; auto|]. destruct (Ascii.eqb_spec c "*") as [->|_]; [exfalso; apply N; cbn; auto|]. reflexivity.
  Qed.

  Lemma step_block b n f code c0 ln s : stars_ok b ->
    loop (S f) code c0 ln (piece_text (Block b n) ++ s) = loop f code c0 (ln + count_nl b) (blanks n ++ s).
  Proof.
    intros SO. cbn [piece_text]. change (("/" :: "*" :: b ++ "*" :: "/" :: blanks n) ++ s) with ("/" :: "*" :: (b ++ "*" :: "/" :: blanks n) ++ s).
    rewrite <- app_assoc. cbn [app split_loop]. rewrite peek by reflexivity.
    change (Ascii.eqb "/" nl) with false. change (Ascii.eqb "/" bslash) with false. change (Ascii.eqb "/" "/") with true. cbn iota.
    rewrite (block_comment true b (blanks n ++ s) SO). reflexivity.
  Qed.
  Lemma step_comment b f code c0 ln s : ~ In nl b -> loop (S f) code c0 ln ("/" :: "/" :: b ++ nl :: s) = loop f code c0 ln (nl :: s).
  Proof.
    intros N. cbn [split_loop]. rewrite peek by reflexivity.
    change (Ascii.eqb "/" nl) with false. change (Ascii.eqb "/" bslash) with false. change (Ascii.eqb "/" "/") with true. cbn iota.
    rewrite (line_comment true b s N). now rewrite Nat.add_0_r.
  Qed.
  Lemma step_lua c f code c0 ln s : ~ In nl c -> loop (S f) code c0 ln ("$" :: "$" :: c ++ nl :: s) = loop f (code ++ skip (r_str R) c ++ [nl]) c0 ln (nl :: s).
  Proof.
    intros N. cbn [split_loop]. rewrite peek by reflexivity.
    change (Ascii.eqb "$" nl) with false. change (Ascii.eqb "$" bslash) with false. change (Ascii.eqb "$" "/") with false. change (Ascii.eqb "$" dquote) with false. change (Ascii.eqb "$" "$") with true. cbn iota.
    rewrite readc by reflexivity. rewrite peek by reflexivity. change (Ascii.eqb "$" "$") with true. cbn iota. rewrite readc by reflexivity. unfold readString.
    assert (SK : skip (r_str R) (c ++ nl :: s) = skip (r_str R) c ++ nl :: s).
    { destruct (r_str R); [|reflexivity]. cbn [skip]. clear. induction c as [|d c IH]; [reflexivity|]. cbn [app drop_blanks]. destruct (is_blank d); [exact IH|reflexivity]. }
    rewrite SK, span_all; [reflexivity| |].
    - assert (I2 : forall d, In d (skip (r_str R) c) -> In d c).
      { destruct (r_str R); [|auto]. cbn [skip]. clear. induction c as [|e c IH]; [auto|]. intros d. cbn [drop_blanks]. destruct (is_blank e); [right; auto|auto]. }
      apply forallb_forall. intros d I. apply negb_true_iff. assert (d <> nl) by (intros ->; apply N, I2, I).
      apply orb_false_iff. split; [apply oneof_not; intros [J|[]]; congruence|]. apply andb_false_iff. right. now apply Ascii.eqb_neq.
    - reflexivity.
  Qed.

  Lemma first_text p : piece_ok p -> exists r, piece_text p = first p :: r /\ is_blank (first p) = false.
  Proof.
    destruct p as [w n|l n|c n|n|b n]; cbn [piece_ok first piece_text]; intros H; try (eexists; split; [reflexivity|reflexivity]).
    destruct (word_spec w H) as (c & r & -> & _ & N). exists (r ++ blanks n). split; [reflexivity|]. apply notblank. intros I. apply (N c); [now left|]. cbn in *. intuition.
  Qed.

  Lemma loop_end n f code c0 ln : n < f -> exists f', 0 < f' /\ loop f code c0 ln (blanks n) = loop f' code c0 ln [].
  Proof.
    intros H. destruct f as [|f]; [lia|]. destruct n as [|n]; [exists (S f); split; [lia|reflexivity]|]. exists f. split; [lia|].
    cbn [blanks repeat split_loop]. assert (P : peekChar true (" " :: repeat " " n) = (None, [])).
    { unfold peekChar. cbn [skip]. change (" " :: repeat " " n) with (blanks (S n)). rewrite <- (app_nil_r (blanks (S n))), drop_blanks_n. reflexivity. }
    rewrite P. unfold readString. rewrite (skip_nonblank _ []) by exact I. cbn [span protect blank_after app]. now rewrite app_nil_r.
  Qed.
  Lemma step_slash_end n f code c0 ln : loop (S f) code c0 ln (piece_text (Slash n)) = loop f code (c0 ++ cur_of (Slash n)) ln [].
  Proof.
    cbn [piece_text split_loop]. rewrite peek by reflexivity.
    change (Ascii.eqb "/" nl) with false. change (Ascii.eqb "/" bslash) with false. change (Ascii.eqb "/" "/") with true. cbn iota.
    unfold jumpOverComment. rewrite readc by reflexivity.
    assert (P : peekChar true (blanks n) = (None, [])) by (unfold peekChar; cbn [skip]; rewrite <- (app_nil_r (blanks n)), drop_blanks_n; reflexivity).
    rewrite P. reflexivity.
  Qed.

  (** Parts of a line, up to the end of the text or a character which is not a blank. *)
  Lemma pieces_run : forall l k f code c0 ln z, wf l (hd nl z) -> nonblank z -> length (blanks k ++ pieces_text l ++ z) < f ->
    exists f', length z < f' /\ loop f code c0 ln (blanks k ++ pieces_text l ++ z) = loop f' code (c0 ++ cur l) (ln + pieces_lines l) z.
  Proof.
    induction l as [|p l IH]; intros k f code c0 ln z W B L.
    - cbn [pieces_text cur map concat app] in *. change (pieces_lines []) with 0. rewrite app_nil_r, Nat.add_0_r.
      destruct z as [|e s].
      + rewrite app_nil_r in *. apply loop_end. unfold blanks in L. now rewrite repeat_length in L.
      + destruct f as [|f]; [lia|]. exists (S f). rewrite app_length in L. split; [lia|]. now apply loop_blanks.
    - destruct W as (W1 & W2 & W3). destruct f as [|f]; [lia|].
      destruct (first_text p W1) as (r & E & Bp).
      assert (T : pieces_text (p :: l) ++ z = piece_text p ++ pieces_text l ++ z) by (unfold pieces_text; cbn [map concat]; now rewrite <- app_assoc).
      rewrite T in *. rewrite E. cbn [app]. rewrite loop_blanks by exact Bp. change (first p :: r ++ pieces_text l ++ z) with ((first p :: r) ++ pieces_text l ++ z). rewrite <- E.
      assert (NX : (pieces_text l ++ z = [] /\ l = [] /\ z = []) \/
                   exists c t, pieces_text l ++ z = c :: t /\ is_blank c = false /\ c = match l with q :: _ => first q | [] => hd nl z end).
      { destruct l as [|q l].
        - destruct z as [|e s]; [now left|]. right. exists e, s. now repeat split.
        - right. destruct (first_text q (proj1 W3)) as (t & Eq & Bq).
          exists (first q), (t ++ pieces_text l ++ z). split; [|split; [exact Bq|reflexivity]]. unfold pieces_text. cbn [map concat]. rewrite Eq. cbn [app]. rewrite <- app_assoc. reflexivity. }
      assert (NB : nonblank (pieces_text l ++ z)) by (destruct NX as [(-> & _)|(c & t & -> & Bc & _)]; [exact I|exact Bc]).
      rewrite app_length in L. rewrite app_length in L.
      assert (GO : forall n, length (piece_text p) = n + (length (piece_text p) - n) -> 0 < length (piece_text p) - n ->
        loop (S f) code c0 ln (piece_text p ++ pieces_text l ++ z) = loop f code (c0 ++ cur_of p) (ln + piece_lines p) (blanks n ++ pieces_text l ++ z) ->
        exists f', length z < f' /\ loop (S f) code c0 ln (piece_text p ++ pieces_text l ++ z) = loop f' code (c0 ++ cur (p :: l)) (ln + pieces_lines (p :: l)) z).
      { intros n Hn Hn2 EQ. destruct (IH n f code (c0 ++ cur_of p) (ln + piece_lines p) z W3 B) as (f' & L' & Q).
        { rewrite app_length. unfold blanks. rewrite repeat_length. lia. }
        exists f'. split; [exact L'|]. rewrite EQ, Q. f_equal; [unfold cur; cbn [map concat]; now rewrite app_assoc|change (pieces_lines (p :: l)) with (piece_lines p + pieces_lines l); lia]. }
      destruct p as [w n|q n|x n|n|b n]; cbn [piece_ok] in W1.
      + apply (GO n).
        * cbn [piece_text]. rewrite app_length. unfold blanks. rewrite repeat_length. lia.
        * cbn [piece_text]. rewrite app_length. unfold blanks. rewrite repeat_length. destruct w; [discriminate|]. cbn [length]. lia.
        * cbn [piece_text piece_lines]. rewrite <- app_assoc, Nat.add_0_r. apply step_word; [exact W1|exact NB|]. intros ->. cbn [sep] in W2.
          destruct NX as [(-> & _)|(c & t & -> & _ & ->)]; [exact I|exact W2].
      + apply (GO n).
        * cbn [piece_text length]. rewrite app_length. cbn [length]. unfold blanks. rewrite repeat_length. lia.
        * cbn [piece_text length]. rewrite app_length. cbn [length]. unfold blanks. rewrite repeat_length. lia.
        * cbn [piece_lines]. rewrite Nat.add_0_r. now apply step_str.
      + apply (GO n).
        * cbn [piece_text length]. rewrite app_length. cbn [length]. unfold blanks. rewrite repeat_length. lia.
        * cbn [piece_text length]. rewrite app_length. cbn [length]. unfold blanks. rewrite repeat_length. lia.
        * cbn [piece_lines]. rewrite Nat.add_0_r. now apply step_ins.
      + apply (GO 0).
        * lia.
        * cbn [piece_text length]. lia.
        * cbn [piece_lines]. rewrite Nat.add_0_r. cbn [sep] in W2. destruct NX as [(EN & _)|(c & t & EN & Bc & Ec)]; rewrite EN.
          -- rewrite app_nil_r. apply step_slash_end.
          -- apply step_slash; [exact Bc|]. rewrite Ec. exact W2.
      + apply (GO n).
        * cbn [piece_text length]. rewrite app_length. cbn [length]. unfold blanks. rewrite repeat_length. lia.
        * cbn [piece_text length]. rewrite app_length. cbn [length]. unfold blanks. rewrite repeat_length. lia.
        * cbn [cur_of piece_lines]. rewrite app_nil_r. now apply step_block.
  Qed.

  (** The text of each statement. *)
  Definition stmt_text (s : stmt) : text := match s with Out l n => output_call (cur l) n | Raw c => skip (r_str R) c ++ [nl] end.

  Lemma cur_visible l e : wf l e -> match cur l with [] => visible l = false | _ => visible l = true end.
  Proof.
    induction l as [|p l IH]; intros W; [reflexivity|]. destruct W as (W1 & _ & W3). specialize (IH W3). unfold cur in *. cbn [map concat visible existsb].
    destruct p as [w n|q n|x n|n|b n]; cbn [cur_of app]; try reflexivity.
    - cbn [piece_ok] in W1. destruct w as [|c w]; [discriminate|]. cbn [protect]. destruct (Ascii.eqb c quote); reflexivity.
    - exact IH.
  Qed.
  Lemma flush_out l e n : wf l e -> flush (cur l) n = concat (map stmt_text (if visible l then [Out l n] else [])).
  Proof.
    intros W. pose proof (cur_visible l e W) as V. unfold flush. destruct (cur l) eqn:E; rewrite V; [reflexivity|]. cbn [map concat stmt_text]. rewrite E. now rewrite app_nil_r.
  Qed.

  Lemma lines_run : forall ls k l f code ln, Forall line_ok ls -> wf l nl -> length (source ls ++ blanks k ++ pieces_text l) < f ->
    loop f code [] ln (source ls ++ blanks k ++ pieces_text l) =
      Some (code ++ concat (map stmt_text (stmts ls ln ++ (if visible l then [Out l (line_after ls ln + pieces_lines l)] else []))), line_after ls ln + pieces_lines l).
  Proof.
    induction ls as [|x ls IH]; intros k l f code ln F W L.
    - cbn [source map concat app stmts line_after] in *.
      destruct (pieces_run l k f code [] ln [] W I) as (f' & L' & E); [now rewrite app_nil_r|]. rewrite app_nil_r in E. rewrite E. destruct f' as [|f']; [lia|]. cbn [split_loop app].
      now rewrite (flush_out l nl _ W).
    - inversion F as [|x' ls' O F']; subst. unfold source in *. cbn [map concat] in *. fold (source ls) in *. rewrite <- app_assoc in *.
      destruct x as [k0 l0 c|k0 c]; cbn [line_text line_ok] in *.
      + rewrite <- !app_assoc in *. cbn [app] in *.
        assert (W0 : wf l0 (hd nl (comment_text c ++ nl :: source ls ++ blanks k ++ pieces_text l))) by (destruct c; [exact (proj1 O)|exact O]).
        assert (NB : nonblank (comment_text c ++ nl :: source ls ++ blanks k ++ pieces_text l)) by (destruct c; reflexivity).
        destruct (pieces_run l0 k0 f code [] ln _ W0 NB L) as (f' & L' & E). rewrite E. cbn [app].
        assert (C1 : exists f2, length (nl :: source ls ++ blanks k ++ pieces_text l) < f2 /\
          loop f' code (cur l0) (ln + pieces_lines l0) (comment_text c ++ nl :: source ls ++ blanks k ++ pieces_text l) =
          loop f2 code (cur l0) (ln + pieces_lines l0) (nl :: source ls ++ blanks k ++ pieces_text l)).
        { destruct c as [b|]; [|exists f'; split; [exact L'|reflexivity]]. destruct f' as [|f']; [lia|]. cbn [comment_text app] in *. exists f'. split.
          - cbn [length] in *. rewrite app_length in L'. cbn [length] in L'. lia.
          - apply step_comment. exact (proj2 O). }
        destruct C1 as (f2 & L2 & E2). rewrite E2. destruct f2 as [|f2]; [lia|]. rewrite step_nl, IH; [|exact F'|exact W|cbn [length] in L2; lia].
        cbn [stmts line_after]. f_equal. f_equal. rewrite <- app_assoc. f_equal. rewrite <- app_assoc, (map_app stmt_text (if visible l0 then _ else _)), concat_app. f_equal.
        now apply flush_out with (e := hd nl (comment_text c ++ nl :: source ls ++ blanks k ++ pieces_text l)).
      + rewrite <- !app_assoc in *. cbn [app] in *. rewrite <- !app_assoc in *. cbn [app] in *.
        destruct f as [|f]; [lia|]. rewrite loop_blanks by reflexivity.
        rewrite app_length in L. cbn [length] in L. rewrite app_length in L. cbn [length] in L.
        rewrite step_lua by exact O. destruct f as [|f]; [lia|]. rewrite step_nl, IH; [|exact F'|exact W|lia]. cbn [flush stmts line_after app map concat stmt_text]. rewrite app_nil_r, <- !app_assoc. reflexivity.
  Qed.
End Loop.

(** * Reading back. *)
Lemma lua_string_char c s : c <> quote -> c <> nl -> c <> bslash -> lua_string quote (c :: s) = match lua_string quote s with Some (t, r) => Some (c :: t, r) | None => None end.
Proof.
  intros A B C. cbn [lua_string]. destruct (Ascii.eqb_spec c quote); [contradiction|]. destruct (Ascii.eqb_spec c nl); [contradiction|]. destruct (Ascii.eqb_spec c bslash); [contradiction|]. reflexivity.
Qed.
Definition before (t : text) (o : option (text * text)) : option (text * text) := match o with Some (u, r) => Some (t ++ u, r) | None => None end.
Lemma before_app a b o : before (a ++ b) o = before a (before b o).
Proof. destruct o as [[u r]|]; [|reflexivity]. cbn [before]. now rewrite <- app_assoc. Qed.

Lemma lua_protect w s : (forall c, In c w -> c <> nl /\ c <> bslash) -> lua_string quote (protect w ++ s) = before w (lua_string quote s).
Proof.
  induction w as [|c w IH]; intros H; [cbn [protect app before]; destruct (lua_string quote s) as [[u r]|]; reflexivity|].
  assert (Hw : forall d, In d w -> d <> nl /\ d <> bslash) by (intros d I; apply H; now right). destruct (H c (or_introl eq_refl)) as [H1 H2].
  cbn [protect]. destruct (Ascii.eqb_spec c quote) as [->|N]; cbn [app].
  - cbn [lua_string]. change (Ascii.eqb bslash quote) with false. change (Ascii.eqb bslash nl) with false. change (Ascii.eqb bslash bslash) with true. cbn iota.
    change (Ascii.eqb quote "n") with false. change (Ascii.eqb quote "t") with false. change (Ascii.eqb quote "r") with false. change (oneof [bslash; quote; dquote] quote) with true. cbn iota.
    rewrite (IH Hw). destruct (lua_string quote s) as [[u r]|]; reflexivity.
  - rewrite lua_string_char by assumption. rewrite (IH Hw). destruct (lua_string quote s) as [[u r]|]; reflexivity.
Qed.
Lemma lua_str l : forall b s, str_ok b l = true -> lua_string quote (concat (map cur_str l) ++ s) = before (str_text l) (lua_string quote s).
Proof.
  unfold str_text. induction l as [|[c|c] l IH]; intros b s H; cbn [map concat cur_str schar_text app].
  - destruct (lua_string quote s) as [[u r]|]; reflexivity.
  - cbn [str_ok] in H. rewrite !andb_true_iff in H. destruct H as [[H1 _] H3]. apply negb_true_iff, oneof_not in H1.
    rewrite lua_string_char by (intros ->; apply H1; cbn; auto). rewrite (IH _ _ H3). destruct (lua_string quote s) as [[u r]|]; reflexivity.
  - cbn [str_ok] in H. rewrite !andb_true_iff in H. destruct H as [[H1 _] H3]. apply negb_true_iff, oneof_not in H1.
    cbn [lua_string]. change (Ascii.eqb bslash quote) with false. change (Ascii.eqb bslash nl) with false. change (Ascii.eqb bslash bslash) with true. cbn iota.
    change (Ascii.eqb bslash "n") with false. change (Ascii.eqb bslash "t") with false. change (Ascii.eqb bslash "r") with false. change (oneof [bslash; quote; dquote] bslash) with true. cbn iota.
    assert (E : lua_string quote (c :: concat (map cur_str l) ++ s) = before (c :: concat (map schar_text l)) (lua_string quote s)).
    { rewrite lua_string_char by (intros ->; apply H1; cbn; auto). rewrite (IH _ _ H3). destruct (lua_string quote s) as [[u r]|]; reflexivity. }
    cbn [lua_string] in E. rewrite E. destruct (lua_string quote s) as [[u r]|]; reflexivity.
Qed.

Lemma quoted_more q s : forall a b r, lua_quoted q s = Some (a, b) -> lua_quoted q (s ++ r) = Some (a, b ++ r).
Proof.
  assert (G : forall n s, length s <= n -> forall a b r, lua_quoted q s = Some (a, b) -> lua_quoted q (s ++ r) = Some (a, b ++ r)); [|apply (G (length s) s (Nat.le_refl _))].
  induction n as [|n IH]; intros [|c t] L a b r H; cbn [length] in L; try discriminate; try lia.
  cbn [app lua_quoted] in *. destruct (Ascii.eqb c q); [injection H as <- <-; reflexivity|].
  destruct (Ascii.eqb c bslash).
  - destruct t as [|e t]; [discriminate|]. cbn [app length] in *. destruct (lua_quoted q t) as [[x y]|] eqn:E; [|discriminate]. injection H as <- <-. rewrite (IH t ltac:(lia) x y r E). reflexivity.
  - destruct (lua_quoted q t) as [[x y]|] eqn:E; [|discriminate]. injection H as <- <-. rewrite (IH t ltac:(lia) x y r E). reflexivity.
Qed.
Lemma paren_more f : forall f' d s a b r, lua_paren f d s = Some (a, b) -> f <= f' -> lua_paren f' d (s ++ r) = Some (a, b ++ r).
Proof.
  induction f as [|f IH]; intros f' d s a b r H L; [discriminate|]. destruct f' as [|f']; [lia|]. cbn [lua_paren] in H. destruct s as [|c s]; [discriminate|]. cbn [app lua_paren].
  destruct (Ascii.eqb c ")").
  - destruct d as [|d]; [injection H as <- <-; reflexivity|]. destruct (lua_paren f d s) as [[x y]|] eqn:E; [|discriminate]. injection H as <- <-. rewrite (IH f' d s x y r E ltac:(lia)). reflexivity.
  - destruct (Ascii.eqb c "(").
    + destruct (lua_paren f (S d) s) as [[x y]|] eqn:E; [|discriminate]. injection H as <- <-. rewrite (IH f' (S d) s x y r E ltac:(lia)). reflexivity.
    + destruct (oneof [quote; dquote] c).
      * destruct (lua_quoted c s) as [[q s1]|] eqn:Q; [|discriminate]. rewrite (quoted_more c s q s1 r Q).
        destruct (lua_paren f d s1) as [[x y]|] eqn:E; [|discriminate]. injection H as <- <-. rewrite (IH f' d s1 x y r E ltac:(lia)). reflexivity.
      * destruct (lua_paren f d s) as [[x y]|] eqn:E; [|discriminate]. injection H as <- <-. rewrite (IH f' d s x y r E ltac:(lia)). reflexivity.
Qed.
(** What is read is the text up to the parenthesis. *)
Lemma quoted_text q s : forall a b, lua_quoted q s = Some (a, b) -> s = a ++ b.
Proof.
  assert (G : forall n s, length s <= n -> forall a b, lua_quoted q s = Some (a, b) -> s = a ++ b); [|apply (G (length s) s (Nat.le_refl _))].
  induction n as [|n IH]; intros [|c t] L a b H; cbn [length] in L; try discriminate; try lia.
  cbn [lua_quoted] in *. destruct (Ascii.eqb c q); [injection H as <- <-; reflexivity|].
  destruct (Ascii.eqb c bslash).
  - destruct t as [|e t]; [discriminate|]. cbn [length] in *. destruct (lua_quoted q t) as [[x y]|] eqn:E; [|discriminate]. injection H as <- <-. cbn [app]. now rewrite <- (IH t ltac:(lia) x y E).
  - destruct (lua_quoted q t) as [[x y]|] eqn:E; [|discriminate]. injection H as <- <-. cbn [app]. now rewrite <- (IH t ltac:(lia) x y E).
Qed.
Lemma paren_text f : forall d s a b, lua_paren f d s = Some (a, b) -> s = a ++ ")" :: b.
Proof.
  induction f as [|f IH]; intros d s a b H; [discriminate|]. cbn [lua_paren] in H. destruct s as [|c s]; [discriminate|].
  destruct (Ascii.eqb_spec c ")") as [->|_].
  - destruct d as [|d]; [injection H as <- <-; reflexivity|]. destruct (lua_paren f d s) as [[x y]|] eqn:E; [|discriminate]. injection H as <- <-. cbn [app]. now rewrite <- (IH d s x y E).
  - destruct (Ascii.eqb c "(").
    + destruct (lua_paren f (S d) s) as [[x y]|] eqn:E; [|discriminate]. injection H as <- <-. cbn [app]. now rewrite <- (IH (S d) s x y E).
    + destruct (oneof [quote; dquote] c).
      * destruct (lua_quoted c s) as [[q s1]|] eqn:Q; [|discriminate].
        destruct (lua_paren f d s1) as [[x y]|] eqn:E; [|discriminate]. injection H as <- <-. cbn [app]. rewrite <- app_assoc, <- (IH d s1 x y E). now rewrite <- (quoted_text c s q s1 Q).
      * destruct (lua_paren f d s) as [[x y]|] eqn:E; [|discriminate]. injection H as <- <-. cbn [app]. now rewrite <- (IH d s x y E).
Qed.
Lemma closed_paren c s f : closed c = true -> S (S (length c)) <= f -> lua_paren f 0 (c ++ ")" :: s) = Some (c, s).
Proof.
  unfold closed. intros H L. destruct (lua_paren (S (S (length c))) 0 (c ++ [")"])) as [[a [|x b]]|] eqn:E; try discriminate.
  assert (a = c). { apply paren_text in E. apply app_inj_tail in E. now destruct E. } subst a.
  pose proof (paren_more _ f 0 _ _ _ s E L) as P. rewrite <- app_assoc in P. exact P.
Qed.

(** Inside of a string of a call. *)
Definition inlit (f : nat) (s : text) : option (list atom * text) :=
  match lua_string quote s with
  | None => None
  | Some (t, r) =>
      match expect (txt " .. ") r with
      | Some r1 => match lua_atoms f r1 with Some (l, r2) => Some (Lit t :: l, r2) | None => None end
      | None => Some ([Lit t], r)
      end
  end.
Lemma atoms_inlit f s : lua_atoms (S f) (quote :: s) = inlit f s.
Proof.
  cbn [lua_atoms lua_atom]. change (Ascii.eqb quote quote) with true. cbn iota. unfold inlit. destruct (lua_string quote s) as [[t r]|]; reflexivity.
Qed.
Definition prep (t : text) (o : option (list atom * text)) : option (list atom * text) := match o with Some (l, r) => Some (prepend t l, r) | None => None end.
Lemma inlit_before f a t s : lua_string quote (a ++ s) = before t (lua_string quote s) -> inlit f (a ++ s) = prep t (inlit f s).
Proof.
  unfold inlit. intros ->. destruct (lua_string quote s) as [[u r]|]; [|reflexivity]. cbn [before]. destruct (expect (txt " .. ") r) as [r1|]; [|reflexivity].
  destruct (lua_atoms f r1) as [[l r2]|]; reflexivity.
Qed.
Lemma lua_plain w s : (forall c, In c w -> c <> nl /\ c <> bslash /\ c <> quote) -> lua_string quote (w ++ s) = before w (lua_string quote s).
Proof.
  induction w as [|c w IH]; intros H; [cbn [app]; destruct (lua_string quote s) as [[u r]|]; reflexivity|]. destruct (H c (or_introl eq_refl)) as (H1 & H2 & H3).
  cbn [app]. rewrite lua_string_char by assumption. rewrite IH by (intros d I; apply H; now right). destruct (lua_string quote s) as [[u r]|]; reflexivity.
Qed.
Lemma lua_one n s : lua_string quote (one n ++ s) = before (one n) (lua_string quote s).
Proof. apply lua_plain. destruct n; [intros c []|intros c [<-|[]]; repeat split; discriminate]. Qed.
Lemma prep_app a b o : prep a (prep b o) = match o with Some (l, r) => Some (prepend (a ++ b) l, r) | None => None end.
Proof. destruct o as [[[|[u|c] l] r]|]; cbn; try reflexivity. now rewrite app_assoc. Qed.
Lemma lua_atoms_S f s : lua_atoms (S f) s =
  match lua_atom s with
  | None => None
  | Some (a, r) => match expect (txt " .. ") r with
                   | Some r1 => match lua_atoms f r1 with Some (l, r2) => Some (a :: l, r2) | None => None end
                   | None => Some ([a], r)
                   end
  end.
Proof. reflexivity. Qed.
Lemma inlit_ins f c n s : closed c = true -> inlit (S (S f)) (txt "' .. (" ++ c ++ txt ") .. '" ++ one n ++ s) =
  match inlit f (one n ++ s) with Some (l, r) => Some (Lit [] :: Code c :: l, r) | None => None end.
Proof.
  intros H. unfold inlit at 1. change (txt "' .. (" ++ c ++ txt ") .. '" ++ one n ++ s) with (quote :: txt " .. " ++ "(" :: c ++ ")" :: txt " .. " ++ quote :: one n ++ s).
  cbn [lua_string]. change (Ascii.eqb quote quote) with true. cbn iota.
  assert (X : forall p t, expect p (p ++ t) = Some t) by (induction p as [|z p IH]; intros t; [reflexivity|cbn [app expect]; now rewrite Ascii.eqb_refl]).
  rewrite X. rewrite lua_atoms_S. cbn [lua_atom]. change (Ascii.eqb "(" quote) with false. change (Ascii.eqb "(" "(") with true. cbn iota.
  rewrite (closed_paren c _ _ H) by (rewrite app_length; cbn [length]; lia). rewrite X.
  rewrite atoms_inlit. destruct (inlit f (one n ++ s)) as [[l r]|]; reflexivity.
Qed.

Definition inserts (l : list piece) : nat := length (flat_map piece_codes l).
(** The text of a call reads as its parts. *)
Lemma read_cur l e : forall f s r v, wf l e -> 2 * inserts l <= f -> (forall f, inlit f s = Some ([Lit v], r)) -> inlit f (cur l ++ s) = Some (atoms_of l v, r).
Proof.
  induction l as [|p l IH]; intros f s r v W L H; [apply H|]. destruct W as (W1 & _ & W3). unfold cur. cbn [map concat]. fold (cur l). rewrite <- app_assoc.
  destruct p as [w n|q n|c n|n|b n]; cbn [piece_ok cur_of atoms_of] in *; unfold inserts in *; cbn [flat_map piece_codes app length] in L.
  - rewrite <- app_assoc. rewrite (inlit_before f (protect w) w).
    + rewrite (inlit_before f (one n) (one n)) by apply lua_one. rewrite prep_app. rewrite (IH f s r v W3 L H). reflexivity.
    + apply lua_protect. destruct (word_spec w W1) as (_ & _ & _ & _ & N). intros d I. specialize (N d I). split; intros ->; apply N; cbn; auto.
  - change ((dquote :: concat (map cur_str q) ++ [dquote]) ++ cur l ++ s) with ([dquote] ++ (concat (map cur_str q) ++ [dquote]) ++ cur l ++ s). rewrite <- app_assoc.
    rewrite (inlit_before f [dquote] [dquote]); [|apply lua_plain; intros d [<-|[]]; repeat split; discriminate].
    rewrite (inlit_before f (concat (map cur_str q)) (str_text q)); [|now apply lua_str with (b := true)].
    rewrite (inlit_before f [dquote] [dquote]); [|apply lua_plain; intros d [<-|[]]; repeat split; discriminate].
    rewrite prep_app, (IH f s r v W3 L H). cbn [prep]. destruct (atoms_of l v) as [|[u|u] z]; cbn [prepend app]; rewrite <- ?app_assoc; reflexivity.
  - destruct f as [|[|f]]; [lia|lia|]. destruct (ins_spec c W1) as (_ & _ & _ & _ & _ & CL).
    rewrite <- !app_assoc. rewrite inlit_ins by exact CL. rewrite (inlit_before f (one n) (one n)) by apply lua_one. rewrite (IH f s r v W3 ltac:(lia) H). reflexivity.
  - rewrite (inlit_before f ["/"] ["/"]); [|apply lua_plain; intros d [<-|[]]; repeat split; discriminate]. rewrite (IH f s r v W3 L H). reflexivity.
  - apply IH; assumption.
Qed.

Lemma digits_read n s : match s with c :: _ => isdigit c = false | [] => True end -> lua_number (digits n ++ s) = Some (n, s).
Proof.
  intros H. unfold lua_number, digits.
  assert (D : forall u, forallb isdigit (txt (NilEmpty.string_of_uint u)) = true) by (induction u; cbn; auto).
  rewrite span_all by (auto). unfold txt. rewrite string_of_list_ascii_of_string. rewrite NilEmpty.usu. now rewrite DecimalNat.Unsigned.of_to.
Qed.

Lemma call_read l e n s : wf l e -> lua_call (output_call (cur l) n ++ s) = Some (atoms_of l [nl], n, s).
Proof.
  intros W. unfold lua_call, output_call.
  assert (X : forall p t, expect p (p ++ t) = Some t) by (induction p as [|z p IH]; intros t; [reflexivity|cbn [app expect]; now rewrite Ascii.eqb_refl]).
  change (txt "output('") with (txt "output(" ++ [quote]). rewrite <- !app_assoc. rewrite X. cbn [app]. rewrite atoms_inlit.
  rewrite (read_cur l e _ _ (txt "," ++ digits n ++ txt ",0)" ++ [nl] ++ s) [nl] W).
  - rewrite X. rewrite digits_read by reflexivity. rewrite app_assoc. now rewrite X.
  - unfold inserts. cbn [length]. rewrite !app_length. cbn [length]. assert (B : 2 * length (flat_map piece_codes l) <= length (cur l)); [|lia].
    clear. induction l as [|p l IH]; [apply Nat.le_refl|]. unfold cur. cbn [flat_map map concat]. fold (cur l). rewrite !app_length.
    destruct p; cbn [piece_codes cur_of length]; rewrite ?app_length; cbn [length txt list_ascii_of_string]; lia.
  - intros f. unfold inlit. cbn [txt list_ascii_of_string app lua_string].
    change (Ascii.eqb bslash quote) with false. reflexivity.
Qed.

Lemma atoms_val ev l e : atoms_value ev (atoms_of l e) = pieces_value ev l ++ e.
Proof.
  unfold atoms_value, pieces_value.
  assert (P : forall t a, concat (map (atom_value ev) (prepend t a)) = t ++ concat (map (atom_value ev) a)).
  { intros t [|[u|u] a]; cbn [prepend map concat atom_value]; rewrite <- ?app_assoc; reflexivity. }
  induction l as [|p l IH]; [cbn; now rewrite app_nil_r|].
  destruct p as [w n|q n|c n|n|b n]; cbn [atoms_of map concat piece_value atom_value]; rewrite ?P, ?IH; cbn [app]; rewrite <- ?app_assoc; reflexivity.
Qed.
Lemma atoms_codes l e : flat_map atom_codes (atoms_of l e) = flat_map piece_codes l.
Proof.
  assert (P : forall t a, flat_map atom_codes (prepend t a) = flat_map atom_codes a) by (intros t [|[u|u] a]; reflexivity).
  induction l as [|p l IH]; [reflexivity|]. destruct p as [w n|q n|c n|n|b n]; cbn [atoms_of flat_map piece_codes atom_codes app]; rewrite ?P, ?IH; reflexivity.
Qed.
