(** Sources with units: their text, and how it is read. *)
From Coq Require Import Ascii String List Bool Arith ZArith Lia.
Import ListNotations.
From Verif Require Import CommentModel CommentProofs SplitModel SplitProofs UnitModel.
Local Open Scope char_scope.
Local Open Scope list_scope.

(** * Sources. *)

(** Words and strings of a line of Lua, followed by [n] blanks. *)
Inductive ltok := LW (w : text) (n : nat) | LS (q : ascii) (t : text) (n : nat).
(** Parts of the text of a unit: a character, a blank, an end of line, an escaped character, an insertion, comments, a slash (before a character), a string, the opening and closing characters. *)
Inductive tok := Chr (c : ascii) | Sp (c : ascii) | Nl | Escd (c : ascii) | Inse (c : text) | Cline (b : text) | Cblock (b : text) | Sla (n : nat) (c : ascii) | Strg (l : list schar) | Open | Close.
(** A line of Lua starts with $$ and [k] blanks. *)
Inductive item := Tok (t : tok) | Line (k : nat) (ws : list ltok).
(** Text with lines of Lua, conditionals and loops: the line that opens, what follows it, the parts after else and elseif, the line with end. *)
Inductive tree :=
| Leaf (t : tok)
| Plain (k : nat) (ws : list ltok)
| Cond (k : nat) (o : list ltok) (b : forest) (e : alts) (kz : nat) (z : list ltok)
with forest := FNil | FCons (t : tree) (r : forest)
with alts := ANil | ACons (k : nat) (o : list ltok) (b : forest) (r : alts).

Definition ltok_text (t : ltok) : text := match t with LW w n => w ++ blanks n | LS q t n => q :: t ++ q :: blanks n end.
Definition words_text (ws : list ltok) : text := concat (map ltok_text ws).
Definition tok_text (o c : ascii) (t : tok) : text :=
  match t with
  | Chr c => [c] | Sp c => [c] | Nl => [nl] | Escd c => [bslash; c]
  | Inse c => "$" :: c ++ ["$"]
  | Cline b => "/" :: "/" :: b ++ [nl]
  | Cblock b => "/" :: "*" :: b ++ ["*"; "/"]
  | Sla n c => "/" :: blanks n ++ [c]
  | Strg l => dquote :: str_text l ++ [dquote]
  | Open => [o] | Close => [c]
  end.
Definition lua_line (k : nat) (ws : list ltok) : text := "$" :: "$" :: blanks k ++ words_text ws ++ [nl].
Definition item_text (o c : ascii) (i : item) : text := match i with Tok t => tok_text o c t | Line k ws => lua_line k ws end.
Definition items_text (o c : ascii) (l : list item) : text := concat (map (item_text o c) l).
Fixpoint items_of (t : tree) : list item :=
  match t with
  | Leaf t => [Tok t]
  | Plain k ws => [Line k ws]
  | Cond k a b e kz z => Line k a :: items_forest b ++ items_alts e ++ [Line kz z]
  end
with items_forest (f : forest) : list item := match f with FNil => [] | FCons t r => items_of t ++ items_forest r end
with items_alts (a : alts) : list item := match a with ANil => [] | ACons k o b r => Line k o :: items_forest b ++ items_alts r end.

(** Words of Lua that open and close blocks. *)
Definition openers : list text := map txt ["if"; "for"; "while"; "function"]%string.
Definition elses : list text := map txt ["else"; "elseif"]%string.
Definition closer : text := txt "end".
(** Blocks opened in the line are closed in the line. *)
Fixpoint closed_words (n : nat) (ws : list ltok) : Prop :=
  match ws with
  | [] => n = 0
  | LS _ _ _ :: r => closed_words n r
  | LW w _ :: r =>
      (In w openers /\ closed_words (S n) r) \/ (w = closer /\ exists m, n = S m /\ closed_words m r) \/
      (In w elses /\ 0 < n /\ closed_words n r) \/ (~ In w openers /\ w <> closer /\ ~ In w elses /\ closed_words n r)
  end.
Definition around (P : text -> Prop) (ws : list ltok) : Prop := exists a w n b, ws = a ++ LW w n :: b /\ P w /\ closed_words 0 a /\ closed_words 0 b.

(** What is read as such. *)
Definition ltok_ok (t : ltok) : Prop :=
  match t with
  | LW w _ => w <> [] /\ w <> txt "--" /\ forall c, In c w -> ~ In c [" "; "009"; cr; nl; quote; dquote]
  | LS q t _ => In q [quote; dquote] /\ ~ In q t
  end.
Fixpoint words_ok (ws : list ltok) : Prop :=
  match ws with
  | [] => True
  | t :: r => ltok_ok t /\ (match t, r with LW _ O, LW _ _ :: _ => False | _, _ => True end) /\ words_ok r
  end.
Definition schar_ok (c : schar) : Prop := match c with SplitProofs.Plain c => c <> dquote /\ c <> bslash | Esc c => is_blank c = false end.
Definition inert (o c d : ascii) : Prop := is_blank d = false /\ ~ In d [nl; bslash; "$"; "/"; dquote; o; c].
Definition tok_ok (o c : ascii) (t : tok) : Prop :=
  match t with
  | Chr d => inert o c d
  | Sp d => is_blank d = true
  | Escd d => is_blank d = false
  | Inse t => (exists d r, t = d :: r /\ is_blank d = false) /\ ~ In "$" t
  | Cline b => ~ In nl b
  | Cblock b => stars_ok b
  | Sla _ d => inert o c d /\ d <> "*"
  | Strg l => Forall schar_ok l
  | _ => True
  end.
Definition item_ok (o c : ascii) (i : item) : Prop := match i with Tok t => tok_ok o c t | Line _ ws => words_ok ws end.
Fixpoint tree_ok (o c : ascii) (t : tree) : Prop :=
  match t with
  | Leaf t => tok_ok o c t
  | Plain _ ws => words_ok ws /\ closed_words 0 ws
  | Cond _ a b e _ z => words_ok a /\ around (fun w => In w openers) a /\ forest_ok o c b /\ alts_ok o c e /\ words_ok z /\ around (fun w => w = closer) z
  end
with forest_ok (o c : ascii) (f : forest) : Prop := match f with FNil => True | FCons t r => tree_ok o c t /\ forest_ok o c r end
with alts_ok (o c : ascii) (a : alts) : Prop :=
  match a with ANil => True | ACons _ w b r => words_ok w /\ around (fun w => In w elses) w /\ forest_ok o c b /\ alts_ok o c r end.

(** * Meaning. *)

(** Opening ([true]) and closing characters output when the first part of each conditional is chosen, and loops run once. *)
Fixpoint firsts (t : tree) : list bool := match t with Leaf Open => [true] | Leaf Close => [false] | Leaf _ | Plain _ _ => [] | Cond _ _ b _ _ _ => firsts_forest b end
with firsts_forest (f : forest) : list bool := match f with FNil => [] | FCons t r => firsts t ++ firsts_forest r end.
(** Whatever is chosen, for any number of times. *)
Inductive outs : tree -> list bool -> Prop :=
| o_open : outs (Leaf Open) [true]
| o_close : outs (Leaf Close) [false]
| o_leaf t : t <> Open -> t <> Close -> outs (Leaf t) []
| o_plain k ws : outs (Plain k ws) []
| o_none k o b e kz z : outs (Cond k o b e kz z) []
| o_more k o b e kz z x y : outs_forest b x \/ outs_alts e x -> outs (Cond k o b e kz z) y -> outs (Cond k o b e kz z) (x ++ y)
with outs_forest : forest -> list bool -> Prop :=
| o_nil : outs_forest FNil []
| o_cons t r x y : outs t x -> outs_forest r y -> outs_forest (FCons t r) (x ++ y)
with outs_alts : alts -> list bool -> Prop :=
| o_this k w b r x : outs_forest b x -> outs_alts (ACons k w b r) x
| o_other k w b r x : outs_alts r x -> outs_alts (ACons k w b r) x.
(** Sequences that open and close. *)
Inductive nested : list bool -> Prop := n_nil : nested [] | n_block a b : nested a -> nested b -> nested (true :: a ++ false :: b).

(** * Units and what is around them. *)
Record uspec := { s_kw : text; s_n : nat; s_name : text; s_k : nat; s_io : forest; s_mid : list item; s_body : forest }.
Definition ports_text (u : uspec) : text := items_text "(" ")" (items_forest (s_io u)).
Definition mid_text (u : uspec) : text := items_text "{" "}" (s_mid u).
Definition body_text (u : uspec) : text := items_text "{" "}" (items_forest (s_body u)).
Definition unit_text (u : uspec) : text :=
  s_kw u ++ blanks (s_n u) ++ s_name u ++ blanks (s_k u) ++ "(" :: ports_text u ++ ")" :: mid_text u ++ "{" :: body_text u ++ ["}"].
Definition keywords : list text := map txt ["unit"; "algorithm"; "algorithm#"; "circuitry"]%string.
Definition quiet (i : item) : Prop := match i with Tok Open | Tok Close => False | Tok _ => True | Line _ ws => closed_words 0 ws end.
Definition uspec_ok (u : uspec) : Prop :=
  In (s_kw u) keywords /\ 0 < s_n u /\ s_name u <> [] /\ (forall c, In c (s_name u) -> ~ In c ["("; " "; "009"; cr; nl]) /\
  forest_ok "(" ")" (s_io u) /\ Forall (fun i => item_ok "{" "}" i /\ quiet i) (s_mid u) /\ forest_ok "{" "}" (s_body u) /\
  nested (firsts_forest (s_io u)) /\ nested (firsts_forest (s_body u)).

(** Outside of units: words followed by [n] blanks, ends of lines (possibly after a word) followed by [n] blanks, comments, insertions, lines of Lua. *)
Inductive gap := GW (w : text) (n : nat) | GN (w : text) (n : nat) | GBl (c : ascii) | GLine (b : text) | GBlock (b : text) | GIns (c : text) | GLua (k : nat) (ws : list ltok).
Definition gap_text (g : gap) : text :=
  match g with
  | GW w n => w ++ blanks n
  | GN w n => w ++ nl :: blanks n
  | GBl c => [c]
  | GLine b => "/" :: "/" :: b ++ [nl]
  | GBlock b => "/" :: "*" :: b ++ ["*"; "/"]
  | GIns c => "$" :: c ++ ["$"]
  | GLua k ws => lua_line k ws
  end.
Definition gaps_text (l : list gap) : text := concat (map gap_text l).
Definition gword (w : text) : Prop := (forall c, In c w -> ~ In c [" "; "009"; cr; nl; "/"; "*"]) /\ ~ In w keywords /\ match w with c :: _ => c <> "$" | [] => True end.
Definition gap_ok (g : gap) : Prop :=
  match g with
  | GW w n => w <> [] /\ gword w /\ 0 < n
  | GN w n => gword w /\ (w <> [] -> 0 < n)
  | GBl c => is_blank c = true
  | GLine b => ~ In nl b
  | GBlock b => stars_ok b
  | GIns t => (exists d r, t = d :: r /\ is_blank d = false) /\ ~ In "$" t
  | GLua _ ws => words_ok ws
  end.
(** Lines of Lua outside of units: blocks are closed after they are opened (blocks left open are not an error here). *)
Fixpoint words_level (n : nat) (ws : list ltok) : option nat :=
  match ws with
  | [] => Some n
  | LS _ _ _ :: r => words_level n r
  | LW w _ :: r =>
      if existsb (text_eqb w) openers then words_level (S n) r
      else if text_eqb w closer then match n with O => None | S m => words_level m r end
      else if existsb (text_eqb w) elses then match n with O => None | S _ => words_level n r end
      else words_level n r
  end.
Fixpoint gaps_level (n : nat) (l : list gap) : option nat :=
  match l with
  | [] => Some n
  | GLua _ ws :: r => match words_level n ws with Some m => gaps_level m r | None => None end
  | _ :: r => gaps_level n r
  end.
(** A source: text and units, then text. *)
Fixpoint sources (l : list (list gap * uspec)) (last : list gap) : text :=
  match l with [] => gaps_text last | (g, u) :: r => gaps_text g ++ unit_text u ++ sources r last end.
Fixpoint level_after (n : nat) (l : list (list gap * uspec)) (last : list gap) : option nat :=
  match l with [] => gaps_level n last | (g, u) :: r => match gaps_level n g with Some m => level_after m r last | None => None end end.
Definition sources_ok (l : list (list gap * uspec)) (last : list gap) : Prop :=
  Forall (fun x => Forall gap_ok (fst x) /\ uspec_ok (snd x)) l /\ Forall gap_ok last /\ level_after 0 l last <> None.

(** * Lines of Lua. *)
Lemma text_eqb_eq a b : text_eqb a b = true <-> a = b.
Proof.
  revert b. induction a as [|x a IH]; intros [|y b]; cbn; try (split; (congruence || discriminate)). rewrite andb_true_iff, IH, Ascii.eqb_eq. split; [intros [-> ->]; reflexivity|intros [= -> ->]; auto].
Qed.
Lemma text_eqb_ne a b : a <> b -> text_eqb a b = false.
Proof. intros N. destruct (text_eqb a b) eqn:E; [apply text_eqb_eq in E; contradiction|reflexivity]. Qed.
Lemma among_in l w : among l w = true <-> In w (map txt l).
Proof.
  unfold among. rewrite existsb_exists. rewrite in_map_iff. split; intros (k & A & B); exists k; [apply text_eqb_eq in B|split; [exact B|apply text_eqb_eq; exact A]]. now split.
Qed.
Lemma among_not l w : among l w = false <-> ~ In w (map txt l).
Proof. rewrite <- among_in. destruct (among l w); intuition congruence. Qed.

Fixpoint words_run (ws : list ltok) (p : path) : option path :=
  match ws with
  | [] => Some p
  | LS _ _ _ :: r => words_run r p
  | LW w _ :: r => match lua_word w p with Some q => words_run r q | None => None end
  end.
Lemma words_run_app a b p : words_run (a ++ b) p = match words_run a p with Some q => words_run b q | None => None end.
Proof. revert p. induction a as [|[w n|q t n] a IH]; intros p; cbn [app words_run]; [reflexivity| |apply IH]. destruct (lua_word w p); [apply IH|reflexivity]. Qed.

Lemma opener_word w p : In w openers -> lua_word w p = Some (consider p :: p).
Proof. intros H. unfold lua_word. apply (among_in ["if"; "for"; "while"; "function"]%string) in H. now rewrite H. Qed.
Lemma not_both w : In w openers -> In w [closer] \/ In w elses -> False.
Proof. cbn. intros H K. intuition (subst; discriminate). Qed.
Lemma closer_word b p : lua_word closer (b :: p) = Some p.
Proof. reflexivity. Qed.
Lemma else_word w b p : In w elses -> lua_word w (b :: p) = Some (false :: p).
Proof. intros [<-|[<-|[]]]; reflexivity. Qed.
Lemma other_word w p : ~ In w openers -> w <> closer -> ~ In w elses -> lua_word w p = Some p.
Proof.
  intros A B C. unfold lua_word. apply (among_not ["if"; "for"; "while"; "function"]%string) in A. rewrite A.
  assert (B' : among ["end"]%string w = false) by (apply among_not; cbn; intros [E|[]]; apply B; now rewrite <- E). rewrite B'.
  apply (among_not ["else"; "elseif"]%string) in C. now rewrite C.
Qed.
Lemma closed_run ws : forall n p q, closed_words n ws -> length q = n -> words_run ws (q ++ p) = Some p.
Proof.
  induction ws as [|[w k|c t k] ws IH]; intros n p q H L; cbn [words_run closed_words] in *.
  - subst n. destruct q; [reflexivity|discriminate].
  - destruct H as [[A H]|[[A (m & -> & H)]|[(A & B & H)|(A & B & C & H)]]].
    + rewrite opener_word by exact A. apply (IH (S n) p (consider (q ++ p) :: q) H). cbn. lia.
    + subst w. destruct q as [|b q]; [discriminate|]. cbn [app]. rewrite closer_word. apply (IH m); [exact H|cbn in L; lia].
    + destruct q as [|b q]; [cbn in L; lia|]. cbn [app]. rewrite else_word by exact A. apply (IH n p (false :: q)); [exact H|exact L].
    + rewrite other_word by assumption. now apply (IH n).
  - now apply (IH n).
Qed.
Lemma closed_line ws p : closed_words 0 ws -> words_run ws p = Some p.
Proof. intros H. exact (closed_run ws 0 p [] H eq_refl). Qed.
Lemma around_run P ws p q : around P ws -> (forall w, P w -> lua_word w p = Some q) -> words_run ws p = Some q.
Proof. intros (a & w & n & b & -> & W & A & B) H. rewrite words_run_app, (closed_line a p A). cbn [words_run]. rewrite (H w W). now apply closed_line. Qed.

Section Read.
  Variable R : reader.

  Lemma update_blanks n f p c s : is_blank c = false -> update R (S f) p (blanks n ++ c :: s) = update R (S f) p (c :: s).
  Proof.
    intros B. destruct n as [|n]; [reflexivity|]. cbn [blanks repeat app update].
    assert (E : peekChar true (" " :: repeat " " n ++ c :: s) = (Some c, c :: s)) by (unfold peekChar; cbn [skip]; change (" " :: repeat " " n ++ c :: s) with (blanks (S n) ++ c :: s); rewrite drop_blanks_n; cbn [drop_blanks]; now rewrite B).
    rewrite E, peek by exact B. reflexivity.
  Qed.
  (** A string of Lua. *)
  Lemma update_str q t f p s : In q [quote; dquote] -> ~ In q t -> update R (S f) p (q :: t ++ q :: s) = update R f p s.
  Proof.
    intros Q N. cbn [update].
    assert (B : is_blank q = false) by (destruct Q as [<-|[<-|[]]]; reflexivity). rewrite peek by exact B.
    assert (E1 : Ascii.eqb q nl = false) by (destruct Q as [<-|[<-|[]]]; reflexivity). rewrite E1.
    assert (E2 : oneof [quote; dquote] q = true) by (destruct Q as [<-|[<-|[]]]; reflexivity). rewrite E2. rewrite readc by exact B. cbn [snd].
    f_equal. clear - N. induction t as [|d t IH]; cbn [app reachChar]; [now rewrite Ascii.eqb_refl|]. destruct (Ascii.eqb_spec d q) as [->|_]; [exfalso; apply N; now left|]. apply IH. intros I. apply N. now right.
  Qed.
  (** A word. *)
  Lemma update_word w f p s q : w <> [] -> w <> txt "--" -> (forall c, In c w -> ~ In c [" "; "009"; cr; nl; quote; dquote]) ->
    match s with c :: _ => In c [" "; nl; quote; dquote] | [] => True end -> lua_word w p = Some q -> update R (S f) p (w ++ s) = update R f q s.
  Proof.
    intros NE ND W SE LW. destruct w as [|c w]; [contradiction|]. cbn [app update].
    assert (B : is_blank c = false) by (apply notblank; intros I; apply (W c); [now left|cbn in *; intuition]). rewrite peek by exact B.
    assert (E1 : Ascii.eqb c nl = false) by (apply Ascii.eqb_neq; intros ->; apply (W nl); [now left|cbn; auto]). rewrite E1.
    assert (E2 : oneof [quote; dquote] c = false) by (apply oneof_not; intros I; apply (W c); [now left|cbn in *; intuition]). rewrite E2.
    unfold readString. rewrite skip_nonblank by exact B. change (c :: w ++ s) with ((c :: w) ++ s). rewrite span_all.
    - rewrite text_eqb_ne by exact ND. now rewrite LW.
    - apply forallb_forall. intros d I. apply negb_true_iff. specialize (W d I). apply orb_false_iff. split; [now apply oneof_not|]. apply andb_false_iff. right. apply Ascii.eqb_neq. intros ->. apply W. cbn. auto.
    - destruct s as [|d s]; [exact I|]. apply negb_false_iff. apply orb_true_iff. left. apply oneof_In. cbn in *. intuition.
  Qed.

  Lemma ltok_first t : ltok_ok t -> exists c r, ltok_text t = c :: r /\ is_blank c = false.
  Proof.
    destruct t as [w n|q t n]; cbn [ltok_ok ltok_text].
    - intros (NE & _ & W). destruct w as [|c w]; [contradiction|]. exists c, (w ++ blanks n). split; [reflexivity|]. apply notblank. intros I. apply (W c); [now left|cbn in *; intuition].
    - intros (Q & _). exists q, (t ++ q :: blanks n). split; [reflexivity|]. destruct Q as [<-|[<-|[]]]; reflexivity.
  Qed.
  Lemma words_first ws s : words_ok ws -> exists c r, words_text ws ++ nl :: s = c :: r /\ is_blank c = false.
  Proof.
    destruct ws as [|t ws]; [intros _; now exists nl, s|]. intros (H & _). destruct (ltok_first t H) as (c & r & E & B). exists c, (r ++ words_text ws ++ nl :: s). split; [|exact B].
    unfold words_text. cbn [map concat]. rewrite E, <- app_assoc. reflexivity.
  Qed.

  Lemma update_words ws : forall k p q f s, words_ok ws -> words_run ws p = Some q -> length (words_text ws) < f -> update R f p (blanks k ++ words_text ws ++ nl :: s) = Some (q, s).
  Proof.
    induction ws as [|t ws IH]; intros k p q f s OK RU L; (destruct f as [|f]; [lia|]).
    - cbn [words_text map concat app words_run] in *. injection RU as <-. rewrite update_blanks by reflexivity. reflexivity.
    - cbn [words_ok] in OK. destruct OK as (O & SE & OK). destruct (ltok_first t O) as (c & r & E & B).
      assert (T : words_text (t :: ws) ++ nl :: s = ltok_text t ++ words_text ws ++ nl :: s) by (unfold words_text; cbn [map concat]; now rewrite <- app_assoc).
      assert (LL : length (words_text (t :: ws)) = length (ltok_text t) + length (words_text ws)) by (unfold words_text; cbn [map concat]; apply app_length).
      rewrite T. rewrite E. cbn [app]. rewrite update_blanks by exact B. change (c :: r ++ words_text ws ++ nl :: s) with ((c :: r) ++ words_text ws ++ nl :: s). rewrite <- E.
      assert (L1 : 0 < length (ltok_text t)) by (rewrite E; cbn; lia).
      destruct t as [w n|d u n]; cbn [ltok_text ltok_ok] in *.
      + destruct O as (NE & ND & W). cbn [words_run] in RU. destruct (lua_word w p) as [p1|] eqn:EW; [|discriminate]. rewrite <- app_assoc.
        rewrite update_word with (q := p1); [| exact NE | exact ND | exact W | | exact EW].
        * apply IH; [exact OK|exact RU|lia].
        * destruct n as [|n]; [|cbn; auto]. cbn [blanks repeat app]. destruct ws as [|[w2 n2|d2 u2 n2] ws]; [cbn; auto|contradiction|].
          cbn [words_ok ltok_ok] in OK. destruct OK as ((Q & _) & _). unfold words_text. cbn [map concat ltok_text app]. cbn in *. intuition.
      + destruct O as (Q & N). cbn [words_run] in RU. change ((d :: u ++ d :: blanks n) ++ words_text ws ++ nl :: s) with (d :: (u ++ d :: blanks n) ++ words_text ws ++ nl :: s). rewrite <- app_assoc. cbn [app].
        rewrite update_str by assumption. apply IH; [exact OK|exact RU|lia].
  Qed.
  Lemma process_line k ws p q s : words_ok ws -> words_run ws p = Some q -> processLuaLine R p (lua_line k ws ++ s) = Some (q, s).
  Proof.
    intros OK RU. unfold processLuaLine, lua_line. cbn [app]. rewrite readc by reflexivity. cbn [snd]. rewrite peek by reflexivity. change (Ascii.eqb "$" "$") with true. cbn iota. rewrite readc by reflexivity. cbn [snd].
    rewrite <- !app_assoc. cbn [app]. apply update_words; [exact OK|exact RU|]. rewrite !app_length. cbn [length]. lia.
  Qed.
  Lemma process_ins t p s : (exists d r, t = d :: r /\ is_blank d = false) -> ~ In "$" t -> processLuaLine R p ("$" :: t ++ "$" :: s) = Some (p, s).
  Proof.
    intros (d & r & -> & B) N. unfold processLuaLine. rewrite readc by reflexivity. cbn [snd app]. rewrite peek by exact B.
    destruct (Ascii.eqb_spec d "$") as [->|ND]; [exfalso; apply N; now left|]. f_equal. f_equal. change (d :: r ++ "$" :: s) with ((d :: r) ++ "$" :: s). clear - N.
    induction (d :: r) as [|e t IH]; cbn [app reachChar]; [reflexivity|]. destruct (Ascii.eqb_spec e "$") as [->|_]; [exfalso; apply N; now left|]. apply IH. intros I. apply N. now right.
  Qed.

  (** Where a string ends. *)
  Lemma string_split l s : Forall schar_ok l -> exists w l', Forall schar_ok l' /\ length l' <= length l /\
    span (fun c => negb (oneof [dquote; bslash] c || (r_eol R && Ascii.eqb c nl))) (str_text l ++ dquote :: s) = (w, str_text l' ++ dquote :: s) /\
    match l' with [] => True | Esc _ :: _ => True | SplitProofs.Plain c :: _ => c = nl end.
  Proof.
    induction 1 as [|[c|c] l O F IH].
    - exists [], []. split; [constructor|]. split; [lia|]. split; [|exact I]. reflexivity.
    - change (str_text (SplitProofs.Plain c :: l)) with (c :: str_text l). cbn [app span]. destruct O as [O1 O2].
      assert (E : oneof [dquote; bslash] c = false) by (apply oneof_not; intros [<-|[<-|[]]]; congruence). rewrite E. cbn [orb].
      destruct (r_eol R && Ascii.eqb c nl) eqn:EN; cbn [negb].
      + exists [], (SplitProofs.Plain c :: l). split; [constructor; [split; assumption|exact F]|]. split; [lia|]. split; [reflexivity|]. apply andb_true_iff in EN. destruct EN as [_ EN]. now apply Ascii.eqb_eq in EN.
      + destruct IH as (w & l' & A & B & C & D). exists (c :: w), l'. rewrite C. split; [exact A|]. split; [cbn; lia|]. split; [reflexivity|exact D].
    - exists [], (Esc c :: l). split; [constructor; assumption|]. split; [lia|]. split; [reflexivity|exact I].
  Qed.
  Lemma drop_str l s : Forall schar_ok l -> exists l', Forall schar_ok l' /\ length l' <= length l /\ drop_blanks (str_text l ++ dquote :: s) = str_text l' ++ dquote :: s.
  Proof.
    induction 1 as [|[c|c] l O F IH].
    - exists []. split; [constructor|]. split; [lia|reflexivity].
    - change (str_text (SplitProofs.Plain c :: l)) with (c :: str_text l). cbn [app drop_blanks]. destruct (is_blank c).
      + destruct IH as (l' & A & B & C). exists l'. split; [exact A|]. split; [cbn; lia|exact C].
      + exists (SplitProofs.Plain c :: l). split; [constructor; assumption|]. split; [lia|reflexivity].
    - exists (Esc c :: l). split; [constructor; assumption|]. split; [lia|reflexivity].
  Qed.
  Lemma string_end fuel : forall l str s, Forall schar_ok l -> length l < fuel -> exists t, string_loop R fuel str (str_text l ++ dquote :: s) = Some (t, s).
  Proof.
    induction fuel as [|f IH]; intros l str s F L; [lia|]. cbn [string_loop]. destruct (str_text l ++ dquote :: s) as [|z z'] eqn:E; [destruct (str_text l); discriminate|]. rewrite <- E. clear E z z'. unfold readString.
    assert (SK : exists l', Forall schar_ok l' /\ length l' <= length l /\ skip (r_str R) (str_text l ++ dquote :: s) = str_text l' ++ dquote :: s).
    { destruct (r_str R); cbn [skip]; [now apply drop_str|]. exists l. split; [exact F|]. split; [lia|reflexivity]. }
    destruct SK as (l1 & F1 & L1 & ->). destruct (string_split l1 s F1) as (w & l2 & F2 & L2 & -> & D). destruct l2 as [|[c|c] l2].
    - change (str_text [] ++ dquote :: s) with (dquote :: s). rewrite readc by reflexivity. change (Ascii.eqb dquote bslash) with false. change (Ascii.eqb dquote dquote) with true. cbn iota. now eexists.
    - subst c. change (str_text (SplitProofs.Plain nl :: l2) ++ dquote :: s) with (nl :: str_text l2 ++ dquote :: s). rewrite readc by reflexivity. change (Ascii.eqb nl bslash) with false. change (Ascii.eqb nl dquote) with false. cbn iota.
      inversion F2; subst. apply IH; [assumption|cbn in L2; lia].
    - inversion F2 as [|? ? O O']; subst. change (str_text (Esc c :: l2) ++ dquote :: s) with (bslash :: c :: str_text l2 ++ dquote :: s). rewrite readc by reflexivity. change (Ascii.eqb bslash bslash) with true. cbn iota.
      rewrite readc by exact O. apply IH; [exact O'|cbn in L2; lia].
  Qed.
  Lemma jump_string l s : Forall schar_ok l -> exists t, jumpOverString R (dquote :: str_text l ++ dquote :: s) = Some (t, s).
  Proof.
    intros F. unfold jumpOverString. rewrite readc by reflexivity. apply string_end; [exact F|]. rewrite app_length. cbn [length].
    enough (length l <= length (str_text l)) by lia. unfold str_text. clear. induction l as [|[c|c] l IH]; cbn [map concat schar_text length app]; lia.
  Qed.

  (** * Blocks. *)
  Section Blocks.
    Variables o c : ascii.
    Hypothesis NEQ : o <> c.
    Hypothesis OC : forall d, In d [o; c] -> is_blank d = false /\ ~ In d [nl; bslash; "$"; "/"; dquote].

    Notation jb := (jump_blocks R o c).
    Lemma jb_blank f d p b s : is_blank b = true -> jb (S f) d p (b :: s) = jb (S f) d p s.
    Proof.
      intros B. cbn [jump_blocks]. assert (E : peekChar true (b :: s) = peekChar true s) by (unfold peekChar; cbn [skip drop_blanks]; now rewrite B). rewrite E. clear E. destruct s as [|x s]; [|reflexivity].
      cbn. destruct f; reflexivity.
    Qed.
    Lemma jb_blanks n f d p s : jb (S f) d p (blanks n ++ s) = jb (S f) d p s.
    Proof. induction n as [|n IH]; [reflexivity|]. cbn [blanks repeat app]. rewrite jb_blank by reflexivity. exact IH. Qed.
    Ltac jstep := cbn [app jump_blocks]; rewrite peek by (reflexivity || assumption).
    Lemma jb_nl f d p s : jb (S f) d p (nl :: s) = jb f d p s.
    Proof. reflexivity. Qed.
    Lemma jb_chr f d p x s : inert o c x -> jb (S f) d p (x :: s) = jb f d p s.
    Proof.
      intros (B & N). jstep.
      assert (E : forall y, In y [nl; bslash; "$"; "/"; dquote; o; c] -> Ascii.eqb x y = false) by (intros y I; apply Ascii.eqb_neq; intros ->; contradiction).
      rewrite !E by (cbn; tauto). now rewrite readc.
    Qed.
    Lemma jb_esc f d p x s : is_blank x = false -> jb (S f) d p (bslash :: x :: s) = jb f d p s.
    Proof.
      intros B. jstep. change (Ascii.eqb bslash nl) with false. change (Ascii.eqb bslash bslash) with true. cbn iota. rewrite readc by reflexivity. cbn [snd]. now rewrite readc.
    Qed.
    Lemma jb_lua f d p p' s s' : processLuaLine R p ("$" :: s) = Some (p', s') -> jb (S f) d p ("$" :: s) = jb f d p' s'.
    Proof. intros H. jstep. change (Ascii.eqb "$" nl) with false. change (Ascii.eqb "$" bslash) with false. change (Ascii.eqb "$" "$") with true. cbn iota. now rewrite H. Qed.
    Lemma jb_comment f d p s s' : (exists k, jumpOverComment true ("/" :: s) = JDone k s') \/ jumpOverComment true ("/" :: s) = JNot s' -> jb (S f) d p ("/" :: s) = jb f d p s'.
    Proof.
      intros H. jstep. change (Ascii.eqb "/" nl) with false. change (Ascii.eqb "/" bslash) with false. change (Ascii.eqb "/" "$") with false. change (Ascii.eqb "/" "/") with true. cbn iota.
      destruct H as [[k ->]| ->]; reflexivity.
    Qed.
    Lemma jb_str f d p s t s' : jumpOverString R (dquote :: s) = Some (t, s') -> jb (S f) d p (dquote :: s) = jb f d p s'.
    Proof.
      intros H. jstep. change (Ascii.eqb dquote nl) with false. change (Ascii.eqb dquote bslash) with false. change (Ascii.eqb dquote "$") with false. change (Ascii.eqb dquote "/") with false.
      change (Ascii.eqb dquote dquote) with true. cbn iota. now rewrite H.
    Qed.
    Lemma jb_open f d p s : jb (S f) d p (o :: s) = jb f (if consider p then d + 1 else d)%Z p s.
    Proof.
      destruct (OC o (or_introl eq_refl)) as (B & N). jstep.
      assert (E : forall y, In y [nl; bslash; "$"; "/"; dquote] -> Ascii.eqb o y = false) by (intros y I; apply Ascii.eqb_neq; intros ->; contradiction).
      rewrite !E by (cbn; tauto). rewrite Ascii.eqb_refl. now rewrite readc.
    Qed.
    Lemma jb_close f d p s : jb (S f) d p (c :: s) =
      let d1 := (if consider p then d - 1 else d)%Z in if Z.eqb d1 0 then Some (p, s) else jb f d1 p s.
    Proof.
      destruct (OC c (or_intror (or_introl eq_refl))) as (B & N). jstep.
      assert (E : forall y, In y [nl; bslash; "$"; "/"; dquote] -> Ascii.eqb c y = false) by (intros y I; apply Ascii.eqb_neq; intros ->; contradiction).
      rewrite !E by (cbn; tauto). rewrite Ascii.eqb_refl. rewrite (proj2 (Ascii.eqb_neq c o)) by congruence. rewrite readc by exact B. reflexivity.
    Qed.

    (** Reading items: the path and the depth after them, when the end is not found before. *)
    Definition step (i : item) (p : path) (d : Z) : option (path * Z) :=
      match i with
      | Tok Open => Some (p, if consider p then d + 1 else d)%Z
      | Tok Close => let d1 := (if consider p then d - 1 else d)%Z in if Z.eqb d1 0 then None else Some (p, d1)
      | Tok _ => Some (p, d)
      | Line _ ws => match words_run ws p with Some q => Some (q, d) | None => None end
      end.
    Fixpoint exec (l : list item) (p : path) (d : Z) : option (path * Z) :=
      match l with [] => Some (p, d) | i :: r => match step i p d with Some (q, e) => exec r q e | None => None end end.
    Lemma exec_app a b p d : exec (a ++ b) p d = match exec a p d with Some (q, e) => exec b q e | None => None end.
    Proof. revert p d. induction a as [|i a IH]; intros p d; cbn [app exec]; [reflexivity|]. destruct (step i p d) as [[q e]|]; [apply IH|reflexivity]. Qed.

    Lemma item_go i p d q e s f : item_ok o c i -> step i p d = Some (q, e) -> length (item_text o c i ++ s) < f ->
      exists f', length s < f' /\ jb f d p (item_text o c i ++ s) = jb f' e q s.
    Proof.
      intros OK ST L. destruct f as [|f]; [lia|]. rewrite app_length in L. destruct i as [t|k ws].
      - cbn [item_text item_ok step] in *. destruct t as [x|x| |x|x|b|b|n x|l| |]; cbn [tok_text tok_ok app length] in *; try (injection ST as <- <-).
        + exists f. split; [lia|]. now apply jb_chr.
        + exists (S f). split; [lia|]. now apply jb_blank.
        + exists f. split; [lia|]. reflexivity.
        + exists f. split; [lia|]. now apply jb_esc.
        + exists f. split; [lia|]. rewrite <- app_assoc. cbn [app]. destruct OK as [A B]. apply jb_lua. now apply process_ins.
        + rewrite app_length in L. cbn [length] in L. destruct f as [|f]; [lia|]. exists f. split; [lia|]. rewrite <- app_assoc. cbn [app]. rewrite (jb_comment _ _ _ _ (nl :: s)); [apply jb_nl|].
          left. exists 0. now apply line_comment.
        + exists f. split; [lia|]. rewrite <- app_assoc. cbn [app]. apply jb_comment. left. exists (count_nl b). now apply block_comment.
        + destruct OK as [OK NS]. rewrite app_length in L. cbn [length] in L. destruct f as [|f]; [lia|]. exists f. split; [lia|]. rewrite <- app_assoc. cbn [app]. rewrite (jb_comment _ _ _ _ (x :: s)); [now apply jb_chr|]. right.
          destruct OK as (B & N). unfold jumpOverComment. rewrite readc by reflexivity.
          assert (P : peekChar true (blanks n ++ x :: s) = (Some x, x :: s)) by (unfold peekChar; cbn [skip]; rewrite drop_blanks_n; cbn [drop_blanks]; now rewrite B). rewrite P.
          destruct (Ascii.eqb_spec x "/") as [->|_]; [exfalso; apply N; cbn; tauto|]. destruct (Ascii.eqb_spec x "*") as [->|_]; [congruence|]. reflexivity.
        + exists f. split; [lia|]. rewrite <- app_assoc. cbn [app]. destruct (jump_string l s OK) as [t E]. now apply jb_str with (t := t).
        + exists f. split; [lia|]. apply jb_open.
        + exists f. split; [lia|]. rewrite jb_close. cbn zeta in *. destruct (Z.eqb (if consider p then d - 1 else d) 0); [discriminate|]. now injection ST as <- <-.
      - cbn [item_text item_ok step] in *. destruct (words_run ws p) as [q'|] eqn:E; [|discriminate]. injection ST as <- <-.
        exists f. split; [unfold lua_line in L; cbn [length] in L; lia|].
        change (lua_line k ws ++ s) with ("$" :: ("$" :: blanks k ++ words_text ws ++ [nl]) ++ s). apply jb_lua.
        change ("$" :: ("$" :: blanks k ++ words_text ws ++ [nl]) ++ s) with (lua_line k ws ++ s). now apply process_line.
    Qed.
    Lemma items_go l : forall p d q e s f, Forall (item_ok o c) l -> exec l p d = Some (q, e) -> length (items_text o c l ++ s) < f ->
      exists f', length s < f' /\ jb f d p (items_text o c l ++ s) = jb f' e q s.
    Proof.
      induction l as [|i l IH]; intros p d q e s f OK EX L.
      - injection EX as <- <-. exists f. split; [exact L|reflexivity].
      - inversion OK; subst. cbn [exec] in EX. destruct (step i p d) as [[p1 d1]|] eqn:ES; [|discriminate]. unfold items_text in *. cbn [map concat] in *. rewrite <- app_assoc in *.
        destruct (item_go i p d p1 d1 _ f ltac:(assumption) ES L) as (f1 & L1 & ->). now apply IH with (q := q) (e := e).
    Qed.

    (** Nested parts, from the depth [d]. *)
    Fixpoint depths (l : list bool) (d : Z) : option Z :=
      match l with
      | [] => Some d
      | true :: r => depths r (d + 1)
      | false :: r => if Z.eqb (d - 1) 0 then None else depths r (d - 1)
      end.
    Lemma depths_app a b d : depths (a ++ b) d = match depths a d with Some e => depths b e | None => None end.
    Proof. revert d. induction a as [|[] a IH]; intros d; cbn [app depths]; [reflexivity|apply IH|]. destruct (Z.eqb (d - 1) 0); [reflexivity|apply IH]. Qed.
    Lemma nested_depths l : nested l -> forall d, (0 < d)%Z -> depths l d = Some d.
    Proof.
      induction 1 as [|a b A IA B IB]; intros d P; [reflexivity|]. cbn [depths]. rewrite depths_app, IA by lia. cbn [depths]. destruct (Z.eqb_spec (d + 1 - 1) 0); [lia|]. replace (d + 1 - 1)%Z with d by lia. now apply IB.
    Qed.
    Lemma depths_pos l d e : depths l d = Some e -> (0 < d)%Z -> (0 < e)%Z.
    Proof. revert d. induction l as [|[] l IH]; intros d H P; cbn [depths] in H; [congruence|apply (IH (d + 1)%Z); [exact H|lia]|]. destruct (Z.eqb_spec (d - 1) 0); [discriminate|]. apply (IH (d - 1)%Z); [exact H|lia]. Qed.

    Scheme tree_mind := Induction for tree Sort Prop with forest_mind := Induction for forest Sort Prop with alts_mind := Induction for alts Sort Prop.
    Combined Scheme trees_ind from tree_mind, forest_mind, alts_mind.

    Definition chosen (l : list item) (f : list bool) : Prop := forall p d, (0 < d)%Z ->
      (consider p = true -> forall e, depths f d = Some e -> exec l p d = Some (p, e)) /\ (consider p = false -> exec l p d = Some (p, d)).
    Lemma chosen_nil : chosen [] [].
    Proof. intros p d P. split; [intros _ e [= <-]; reflexivity|reflexivity]. Qed.
    Lemma chosen_app a b f g : chosen a f -> chosen b g -> chosen (a ++ b) (f ++ g).
    Proof.
      intros A B p d P. destruct (A p d P) as [A1 A2]. split.
      - intros C e. rewrite depths_app. destruct (depths f d) as [d1|] eqn:E; [|discriminate]. intros E2. rewrite exec_app, (A1 C d1 eq_refl). apply (B p d1); [exact (depths_pos _ _ _ E P)|exact C|exact E2].
      - intros C. rewrite exec_app, (A2 C). now apply (B p d P).
    Qed.
    Lemma exec_line k ws p q d : words_run ws p = Some q -> exec [Line k ws] p d = Some (q, d).
    Proof. intros H. cbn [exec step]. now rewrite H. Qed.
    Lemma trees_chosen :
      (forall t, tree_ok o c t -> Forall (item_ok o c) (items_of t) /\ chosen (items_of t) (firsts t)) /\
      (forall f, forest_ok o c f -> Forall (item_ok o c) (items_forest f) /\ chosen (items_forest f) (firsts_forest f)) /\
      (forall a, alts_ok o c a -> Forall (item_ok o c) (items_alts a) /\ forall p d b, (0 < d)%Z -> exists b', exec (items_alts a) (b :: p) d = Some (b' :: p, d)).
    Proof.
      apply trees_ind.
      - intros t H. cbn [tree_ok items_of] in *. split; [constructor; [exact H|constructor]|]. intros p d P. destruct t; cbn [firsts depths exec step]; try (split; [intros _ e [= <-]; reflexivity|intros _; reflexivity]).
        + split; intros C; rewrite C; [intros e [= <-]|]; reflexivity.
        + split; intros C; rewrite C; cbn zeta.
          * intros e. destruct (Z.eqb (d - 1) 0); [discriminate|]. now intros [= <-].
          * destruct (Z.eqb_spec d 0); [lia|reflexivity].
      - intros k ws [H C]. cbn [items_of firsts]. split; [constructor; [exact H|constructor]|]. intros p d P. rewrite (exec_line k ws p p d (closed_line ws p C)). split; [intros _ e [= <-]; reflexivity|reflexivity].
      - intros k a b IB e IE kz z (WA & AA & OB & OE & WZ & AZ). destruct (IB OB) as [FB CB]. destruct (IE OE) as [FE CE]. cbn [items_of firsts]. split.
        + constructor; [exact WA|]. apply Forall_app. split; [exact FB|]. apply Forall_app. split; [exact FE|]. constructor; [exact WZ|constructor].
        + assert (A : forall p, words_run a p = Some (consider p :: p)) by (intros p; apply around_run with (1 := AA); intros w; apply opener_word).
          assert (Z : forall p b, words_run z (b :: p) = Some p) by (intros p b0; apply around_run with (1 := AZ); intros w ->; apply closer_word).
          assert (G : forall p d, (0 < d)%Z -> forall b0, exec (items_alts e ++ [Line kz z]) (b0 :: p) d = Some (p, d)).
          { intros p d P b0. rewrite exec_app. destruct (CE p d b0 P) as [b' ->]. apply exec_line, Z. }
          intros p d P. cbn [exec step]. rewrite A. rewrite exec_app. destruct (CB (consider p :: p) d P) as [C1 C2]. cbn [consider] in C1, C2. split.
          * intros C e0 D. rewrite (C1 C e0 D). apply G. exact (depths_pos _ _ _ D P).
          * intros C. rewrite (C2 C). now apply G.
      - intros _. split; [constructor|apply chosen_nil].
      - intros t IT r IR [OT OR]. destruct (IT OT) as [F1 C1]. destruct (IR OR) as [F2 C2]. cbn [items_forest firsts_forest]. split; [apply Forall_app; now split|now apply chosen_app].
      - intros _. split; [constructor|]. intros p d b P. exists b. reflexivity.
      - intros k w b IB r IR (WW & AW & OB & OR). destruct (IB OB) as [F1 C1]. destruct (IR OR) as [F2 C2]. cbn [items_alts]. split; [constructor; [exact WW|apply Forall_app; now split]|].
        intros p d b0 P. cbn [exec step].
        assert (E : words_run w (b0 :: p) = Some (false :: p)) by (apply around_run with (1 := AW); intros w0; apply else_word). rewrite E, exec_app.
        destruct (C1 (false :: p) d P) as [_ C3]. rewrite (C3 eq_refl). now apply C2.
    Qed.

    (** Quiet items before the block. *)
    Lemma quiet_exec l : Forall quiet l -> forall d, exec l [] d = Some ([], d).
    Proof.
      induction 1 as [|i l Q F IH]; intros d; [reflexivity|]. cbn [exec]. destruct i as [t|k ws]; cbn [quiet step] in *; [destruct t; try contradiction; apply IH|].
      rewrite (closed_line ws [] Q). apply IH.
    Qed.
    (** A block is read up to the character that closes it. *)
    Lemma block_go mid body s : Forall (fun i => item_ok o c i /\ quiet i) mid -> forest_ok o c body -> nested (firsts_forest body) ->
      jumpOverNestedBlocks R o c [] (items_text o c mid ++ o :: items_text o c (items_forest body) ++ c :: s) = Some ([], s).
    Proof.
      intros M B N. unfold jumpOverNestedBlocks.
      destruct (items_go mid [] 0%Z [] 0%Z (o :: items_text o c (items_forest body) ++ c :: s) (S (length (items_text o c mid ++ o :: items_text o c (items_forest body) ++ c :: s)))) as (f & L & ->).
      - eapply Forall_impl; [|exact M]. now intros i [H _].
      - apply quiet_exec. eapply Forall_impl; [|exact M]. now intros i [_ H].
      - lia.
      - destruct f as [|f]; [lia|]. rewrite jb_open. cbn [consider]. destruct (proj1 (proj2 trees_chosen) body B) as [F C].
        destruct (items_go (items_forest body) [] (0 + 1)%Z [] (0 + 1)%Z (c :: s) f) as (f1 & L1 & E1).
        + exact F.
        + destruct (C [] (0 + 1)%Z ltac:(lia)) as [C1 _]. apply C1; [reflexivity|]. apply nested_depths; [exact N|lia].
        + cbn [length] in L. lia.
        + rewrite E1. destruct f1 as [|f1]; [lia|]. rewrite jb_close. reflexivity.
    Qed.
  End Blocks.

  (** * Units. *)
  Lemma paren_oc : forall d, In d ["("; ")"] -> is_blank d = false /\ ~ In d [nl; bslash; "$"; "/"; dquote].
  Proof. intros d [<-|[<-|[]]]; (split; [reflexivity|]); cbn; intuition discriminate. Qed.
  Lemma brace_oc : forall d, In d ["{"; "}"] -> is_blank d = false /\ ~ In d [nl; bslash; "$"; "/"; dquote].
  Proof. intros d [<-|[<-|[]]]; (split; [reflexivity|]); cbn; intuition discriminate. Qed.

  Definition after_name (u : uspec) (s : text) : text := "(" :: ports_text u ++ ")" :: mid_text u ++ "{" :: body_text u ++ "}" :: s.
  Definition after_ports (u : uspec) (s : text) : text := mid_text u ++ "{" :: body_text u ++ "}" :: s.
  Lemma unit_jump u s : uspec_ok u -> jumpOverUnit R (blanks (s_k u) ++ after_name u s) = Some (after_name u s, after_ports u s, s).
  Proof.
    intros (_ & _ & _ & _ & FI & FM & FB & NI & NB). unfold jumpOverUnit. rewrite drop_blanks_n. cbn [after_name drop_blanks]. change (is_blank "(") with false. cbn iota.
    pose proof (block_go "(" ")" ltac:(discriminate) paren_oc [] (s_io u) (after_ports u s) (Forall_nil _) FI NI) as E1.
    pose proof (block_go "{" "}" ltac:(discriminate) brace_oc (s_mid u) (s_body u) s FM FB NB) as E2.
    change (items_text "(" ")" [] ++ "(" :: items_text "(" ")" (items_forest (s_io u)) ++ ")" :: after_ports u s) with (after_name u s) in E1.
    change (items_text "{" "}" (s_mid u) ++ "{" :: items_text "{" "}" (items_forest (s_body u)) ++ "}" :: s) with (after_ports u s) in E2.
    fold (after_name u s). rewrite E1, E2. reflexivity.
  Qed.

  (** * Outside of units. *)
  Lemma decompose_blank f p b s : is_blank b = true -> drop_blanks s <> [] -> decompose R (S f) p (b :: s) = decompose R (S f) p s.
  Proof.
    intros B NE. cbn [decompose]. assert (E : peekChar true (b :: s) = peekChar true s) by (unfold peekChar; cbn [skip drop_blanks]; now rewrite B). rewrite E. destruct s as [|x s]; [contradiction|]. reflexivity.
  Qed.
  (** Only blanks are left. *)
  Lemma decompose_end s : forall f p, drop_blanks s = [] -> 1 < f -> decompose R f p s = Some [].
  Proof.
    intros f p E L. destruct f as [|f]; [lia|]. destruct s as [|x s]; [reflexivity|]. cbn [decompose]. unfold peekChar. cbn [skip]. rewrite E.
    unfold readString. replace (skip (r_str R) []) with (@nil ascii) by (destruct (r_str R); reflexivity). cbn [span among existsb]. change (among ["unit"; "algorithm"; "algorithm#"; "circuitry"]%string []) with false. cbn iota.
    destruct f as [|f]; [lia|]. reflexivity.
  Qed.
  (** One step more than characters: the end of the source may be reached by a blank. *)
  Definition dgoes (p : path) (s : text) (q : path) (s' : text) : Prop := forall f, S (length s) < f -> exists f', S (length s') < f' /\ decompose R f p s = decompose R f' q s'.
  Lemma dgoes_blank p b s : is_blank b = true -> dgoes p (b :: s) p s.
  Proof.
    intros B f L. destruct f as [|f]; [lia|]. cbn [length] in L. destruct (drop_blanks s) as [|x y] eqn:E.
    - exists f. split; [lia|]. rewrite !decompose_end; try (assumption || lia); [reflexivity|]. cbn [drop_blanks]. now rewrite B.
    - exists (S f). split; [lia|]. apply decompose_blank; [exact B|congruence].
  Qed.
  Lemma dgoes_refl p s : dgoes p s p s.
  Proof. intros f L. now exists f. Qed.
  Lemma dgoes_trans p s q t r u : dgoes p s q t -> dgoes q t r u -> dgoes p s r u.
  Proof. intros A B f L. destruct (A f L) as (f1 & L1 & ->). now apply B. Qed.
  Lemma dgoes_blanks p n s : dgoes p (blanks n ++ s) p s.
  Proof. induction n as [|n IH]; [apply dgoes_refl|]. cbn [blanks repeat app]. eapply dgoes_trans; [apply dgoes_blank; reflexivity|exact IH]. Qed.
  Lemma dgoes_nl p s : dgoes p (nl :: s) p s.
  Proof. intros f L. destruct f as [|f]; [lia|]. exists f. cbn [length] in L. split; [lia|reflexivity]. Qed.
  Lemma dgoes_comment p s s' : (exists k, jumpOverComment true ("/" :: s) = JDone k s') -> length s' <= length s -> dgoes p ("/" :: s) p s'.
  Proof.
    intros [k H] L0 f L. destruct f as [|f]; [lia|]. exists f. cbn [length] in L. split; [lia|]. cbn [decompose]. rewrite peek by reflexivity.
    change (Ascii.eqb "/" nl) with false. change (Ascii.eqb "/" "$") with false. change (Ascii.eqb "/" "/") with true. cbn iota. now rewrite H.
  Qed.
  Lemma dgoes_lua p q s s' : processLuaLine R p ("$" :: s) = Some (q, s') -> length s' <= length s -> dgoes p ("$" :: s) q s'.
  Proof.
    intros H L0 f L. destruct f as [|f]; [lia|]. exists f. cbn [length] in L. split; [lia|]. cbn [decompose]. rewrite peek by reflexivity.
    change (Ascii.eqb "$" nl) with false. change (Ascii.eqb "$" "$") with true. cbn iota. now rewrite H.
  Qed.

  Lemma gword_first c w : gword (c :: w) -> is_blank c = false /\ c <> nl /\ c <> "$" /\ c <> "/".
  Proof.
    intros (W & _ & D). specialize (W c (or_introl eq_refl)). split; [apply notblank; intros I; apply W; cbn in *; tauto|]. split; [intros ->; apply W; cbn; tauto|]. split; [exact D|]. intros ->. apply W. cbn. tauto.
  Qed.
  Definition stops (c : ascii) : bool := negb (oneof [" "; "009"; cr; "/"; "*"] c || (r_eol R && Ascii.eqb c nl)).
  Lemma dgoes_word p w t s : w <> [] -> (forall c, In c w -> stops c = true) -> match s with c :: _ => stops c = false | [] => True end -> ~ In w keywords ->
    (exists c r, w = c :: r /\ is_blank c = false /\ c <> nl /\ c <> "$" /\ c <> "/") -> t = w ++ s -> dgoes p t p s.
  Proof.
    intros NE W SE NK (c & r & -> & B & N1 & N2 & N3) -> f L. destruct f as [|f]; [lia|]. exists f. cbn [app length] in L. rewrite app_length in L. split; [lia|].
    cbn [app decompose]. rewrite peek by exact B. rewrite (proj2 (Ascii.eqb_neq c nl) N1), (proj2 (Ascii.eqb_neq c "$") N2), (proj2 (Ascii.eqb_neq c "/") N3).
    unfold readString. rewrite skip_nonblank by exact B. change (c :: r ++ s) with ((c :: r) ++ s). rewrite span_all; [|apply forallb_forall; exact W|exact SE].
    assert (A : among ["unit"; "algorithm"; "algorithm#"; "circuitry"]%string (c :: r) = false) by (apply among_not; exact NK). now rewrite A.
  Qed.

  Lemma gword_stops w : gword w -> forall c, In c w -> stops c = true.
  Proof.
    intros (W & _) c I. specialize (W c I). unfold stops. apply negb_true_iff, orb_false_iff. split; [apply oneof_not; intros J; apply W; cbn in *; tauto|]. apply andb_false_iff. right. apply Ascii.eqb_neq. intros ->. apply W. cbn. tauto.
  Qed.
  Lemma blank_stops n s : 0 < n -> match blanks n ++ s with c :: _ => stops c = false | [] => True end.
  Proof. destruct n; [lia|]. intros _. reflexivity. Qed.
  Lemma nl_keyword w : In nl w -> ~ In w keywords.
  Proof. intros I K. cbn in K. destruct K as [<-|[<-|[<-|[<-|[]]]]]; cbn in I; intuition discriminate. Qed.

  Lemma gap_go g p q s : gap_ok g -> match g with GLua _ ws => words_run ws p = Some q | _ => q = p end -> dgoes p (gap_text g ++ s) q s.
  Proof.
    intros OK E. destruct g as [w n|w n|b|b|b|t|k ws]; cbn [gap_ok gap_text] in *; try subst q.
    - destruct OK as (NE & W & P). rewrite <- app_assoc. eapply dgoes_trans; [|apply dgoes_blanks]. apply dgoes_word with (w := w).
      + exact NE.
      + exact (gword_stops w W).
      + exact (blank_stops n s P).
      + apply W.
      + destruct w as [|c r]; [contradiction|]. exists c, r. split; [reflexivity|]. exact (gword_first c r W).
      + reflexivity.
    - destruct OK as (W & P). rewrite <- app_assoc. cbn [app]. destruct w as [|c r]; [eapply dgoes_trans; [apply dgoes_nl|apply dgoes_blanks]|]. specialize (P ltac:(discriminate)).
      destruct (r_eol R) eqn:RE.
      + apply dgoes_trans with (q := p) (t := nl :: blanks n ++ s); [|eapply dgoes_trans; [apply dgoes_nl|apply dgoes_blanks]]. apply dgoes_word with (w := c :: r).
        * discriminate.
        * exact (gword_stops (c :: r) W).
        * unfold stops. now rewrite RE.
        * apply W.
        * exists c, r. split; [reflexivity|exact (gword_first c r W)].
        * reflexivity.
      + apply dgoes_trans with (q := p) (t := blanks n ++ s); [|apply dgoes_blanks]. apply dgoes_word with (w := (c :: r) ++ [nl]).
        * discriminate.
        * intros d I. apply in_app_iff in I. destruct I as [I|[<-|[]]]; [exact (gword_stops (c :: r) W d I)|]. unfold stops. now rewrite RE.
        * exact (blank_stops n s P).
        * apply nl_keyword. apply in_app_iff. right. now left.
        * exists c, (r ++ [nl]). split; [reflexivity|exact (gword_first c r W)].
        * now rewrite <- app_assoc.
    - apply dgoes_blank. exact OK.
    - cbn [app]. rewrite <- app_assoc. cbn [app]. eapply dgoes_trans; [apply dgoes_comment with (s' := nl :: s)|apply dgoes_nl].
      + exists 0. now apply line_comment.
      + cbn [length]. rewrite app_length. cbn [length]. lia.
    - cbn [app]. rewrite <- app_assoc. cbn [app]. apply dgoes_comment.
      + exists (count_nl b). now apply block_comment.
      + cbn [length]. rewrite app_length. cbn [length]. lia.
    - cbn [app]. rewrite <- app_assoc. cbn [app]. destruct OK as [A B]. apply dgoes_lua; [now apply process_ins|]. rewrite app_length. cbn [length]. lia.
    - pose proof (process_line k ws p q s OK E) as H. unfold lua_line in *. cbn [app] in *. apply dgoes_lua; [exact H|]. cbn [length]. rewrite !app_length. cbn [length]. lia.
  Qed.

  Lemma level_run ws : forall p n m, words_level n ws = Some m -> length p = n -> exists q, words_run ws p = Some q /\ length q = m.
  Proof.
    induction ws as [|[w k|c t k] ws IH]; intros p n m H L; cbn [words_level words_run] in *.
    - injection H as <-. now exists p.
    - assert (E : forall l, existsb (text_eqb w) l = true <-> In w l).
      { intros l. rewrite existsb_exists. split; [intros (x & I & Q); apply text_eqb_eq in Q; now subst|intros I; exists w; split; [exact I|now apply text_eqb_eq]]. }
      destruct (existsb (text_eqb w) openers) eqn:E1.
      + apply E in E1. rewrite opener_word by exact E1. apply (IH _ (S n)); [exact H|cbn; lia].
      + assert (N1 : ~ In w openers) by (intros I; apply E in I; congruence). destruct (text_eqb w closer) eqn:E2.
        * apply text_eqb_eq in E2. subst w. destruct n as [|n]; [discriminate|]. destruct p as [|b p]; [discriminate|]. rewrite closer_word. apply (IH _ n); [exact H|cbn in L; lia].
        * assert (N2 : w <> closer) by (intros ->; rewrite (proj2 (text_eqb_eq closer closer) eq_refl) in E2; discriminate). destruct (existsb (text_eqb w) elses) eqn:E3.
          -- apply E in E3. destruct n as [|n]; [discriminate|]. destruct p as [|b p]; [discriminate|]. rewrite else_word by exact E3. apply (IH _ (S n)); [exact H|exact L].
          -- rewrite other_word; [now apply (IH _ n)|exact N1|exact N2|intros I; apply E in I; congruence].
    - now apply (IH _ n).
  Qed.
  Lemma gaps_go l : forall p n m s, Forall gap_ok l -> gaps_level n l = Some m -> length p = n -> exists q, length q = m /\ dgoes p (gaps_text l ++ s) q s.
  Proof.
    induction l as [|g l IH]; intros p n m s OK LV L.
    - injection LV as <-. exists p. split; [exact L|apply dgoes_refl].
    - inversion OK; subst. unfold gaps_text. cbn [map concat]. rewrite <- app_assoc. cbn [gaps_level] in LV.
      assert (G : exists p1 n1, gaps_level n1 l = Some m /\ length p1 = n1 /\ match g with GLua _ ws => words_run ws p = Some p1 | _ => p1 = p end).
      { destruct g as [w k|w k|b|b|b|t|k ws]; try (exists p, (length p); split; [exact LV|split; reflexivity]).
        destruct (words_level (length p) ws) as [n1|] eqn:EW; [|discriminate]. destruct (level_run ws p _ n1 EW eq_refl) as (p1 & R1 & L1). exists p1, n1. now split. }
      destruct G as (p1 & n1 & G1 & G2 & G3). destruct (IH p1 n1 m s ltac:(assumption) G1 G2) as (q & Q1 & Q2). exists q. split; [exact Q1|]. eapply dgoes_trans; [apply gap_go; [assumption|exact G3]|exact Q2].
  Qed.

  (** The units found. *)
  Definition loc (u : uspec) (s : text) : unit_loc := {| u_name := s_name u; u_start := unit_text u ++ s; u_io_start := after_name u s; u_io_end := after_ports u s; u_end := s |}.
  Lemma unit_text_after u s : unit_text u ++ s = s_kw u ++ blanks (s_n u) ++ s_name u ++ blanks (s_k u) ++ after_name u s.
  Proof.
    unfold unit_text, after_name. rewrite <- !app_assoc. do 4 f_equal. cbn [app]. f_equal. rewrite <- app_assoc. f_equal. cbn [app]. f_equal. rewrite <- app_assoc. f_equal. cbn [app]. f_equal. rewrite <- app_assoc. reflexivity.
  Qed.
  (** The name is read after blanks. *)
  Hypothesis RT : r_str R = true.
  Lemma unit_found u p s f : uspec_ok u -> S (length (unit_text u ++ s)) < f ->
    exists f', S (length s) < f' /\ decompose R f p (unit_text u ++ s) = match decompose R f' p s with Some l => Some (loc u s :: l) | None => None end.
  Proof.
    intros OK L. pose proof OK as (K & N & NE & NM & _). destruct f as [|f]; [lia|]. exists f.
    assert (L1 : S (length s) < f).
    { rewrite app_length in L. assert (0 < length (unit_text u)); [|lia]. unfold unit_text. rewrite app_length. destruct (s_kw u) eqn:E; [cbn in K; intuition discriminate|cbn; lia]. }
    split; [exact L1|]. pose proof (unit_text_after u s) as T.
    assert (KW : exists c r, s_kw u = c :: r /\ is_blank c = false /\ Ascii.eqb c nl = false /\ Ascii.eqb c "$" = false /\ Ascii.eqb c "/" = false /\ forallb stops (s_kw u) = true).
    { cbn in K. destruct K as [<-|[<-|[<-|[<-|[]]]]]; eexists _, _; (split; [reflexivity|]); repeat (split; [reflexivity|]); unfold stops; destruct (r_eol R); reflexivity. }
    destruct KW as (c & r & E & B & E1 & E2 & E3 & ST).
    assert (PK : peekChar true (unit_text u ++ s) = (Some c, unit_text u ++ s)) by (rewrite T, E; cbn [app]; now apply peek).
    assert (NN : unit_text u ++ s <> []) by (rewrite T, E; discriminate).
    cbn [decompose]. destruct (unit_text u ++ s) as [|z z'] eqn:EZ; [contradiction|]. rewrite <- EZ in *. clear EZ z z' NN. rewrite PK, E1, E2, E3.
    assert (RS : readString R [" "; "009"; cr; "/"; "*"] (unit_text u ++ s) = (s_kw u, blanks (s_n u) ++ s_name u ++ blanks (s_k u) ++ after_name u s)).
    { rewrite T. unfold readString. rewrite skip_nonblank by (rewrite E; exact B). apply span_all; [exact ST|]. exact (blank_stops _ _ N). }
    rewrite RS. assert (AM : among ["unit"; "algorithm"; "algorithm#"; "circuitry"]%string (s_kw u) = true) by (apply among_in; exact K). rewrite AM.
    destruct (s_name u) as [|x y] eqn:EN; [contradiction|].
    assert (BX : is_blank x = false) by (apply notblank; intros I; apply (NM x); [now left|cbn in *; tauto]).
    assert (SPN : forall g, g "(" = false -> g " " = false -> (forall d, In d (x :: y) -> g d = true) -> span g ((x :: y) ++ blanks (s_k u) ++ after_name u s) = (x :: y, blanks (s_k u) ++ after_name u s)).
    { intros g G1 G2 G3. apply span_all; [apply forallb_forall; exact G3|]. destruct (s_k u); [exact G1|exact G2]. }
    assert (G3 : forall d, In d (x :: y) -> negb (oneof ["("; " "; "009"; cr] d || (r_eol R && Ascii.eqb d nl)) = true).
    { intros d I. specialize (NM d I). apply negb_true_iff, orb_false_iff. split; [apply oneof_not; intros J; apply NM; cbn in *; tauto|]. apply andb_false_iff. right. apply Ascii.eqb_neq. intros ->. apply NM. cbn. tauto. }
    assert (RN : readString R ["("; " "; "009"; cr] (blanks (s_n u) ++ (x :: y) ++ blanks (s_k u) ++ after_name u s) = (x :: y, blanks (s_k u) ++ after_name u s)).
    { unfold readString. rewrite RT. cbn [skip]. rewrite drop_blanks_n. rewrite drop_nonblank by exact BX. apply SPN; [reflexivity|reflexivity|exact G3]. }
    rewrite RN, (unit_jump u s OK). destruct (decompose R f p s); [|reflexivity]. unfold loc. now rewrite EN.
  Qed.

  Fixpoint locs (l : list (list gap * uspec)) (last : list gap) : list unit_loc :=
    match l with [] => [] | (_, u) :: r => loc u (sources r last) :: locs r last end.
  Lemma sources_found l last : forall p n f, Forall (fun x => Forall gap_ok (fst x) /\ uspec_ok (snd x)) l -> Forall gap_ok last -> level_after n l last <> None -> length p = n ->
    S (length (sources l last)) < f -> decompose R f p (sources l last) = Some (locs l last).
  Proof.
    induction l as [|[g u] l IH]; intros p n f OK OL LV LP L.
    - cbn [sources locs level_after] in *. destruct (gaps_level n last) as [m|] eqn:E; [|contradiction]. destruct (gaps_go last p n m [] OL E LP) as (q & _ & G). rewrite app_nil_r in G.
      destruct (G f L) as (f1 & L1 & ->). apply decompose_end; [reflexivity|cbn in L1; lia].
    - inversion OK as [|? ? [OG OU] OK']; subst. cbn [fst snd sources locs level_after] in *. destruct (gaps_level (length p) g) as [m|] eqn:E; [|contradiction].
      destruct (gaps_go g p _ m (unit_text u ++ sources l last) OG E eq_refl) as (q & Q & G). destruct (G f L) as (f1 & L1 & ->).
      destruct (unit_found u q (sources l last) f1 OU L1) as (f2 & L2 & ->). now rewrite (IH q m f2 OK' OL LV Q L2).
  Qed.
End Read.
