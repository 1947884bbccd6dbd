(** Property C51. *)
From Coq Require Import Ascii String List Bool Arith Lia.
Import ListNotations.
From Verif Require Import CommentModel CommentProofs SplitModel SplitProofs.
Local Open Scope char_scope.
Local Open Scope list_scope.

(** How a statement of the Lua text reads: a call outputting the parts of a line (their insertions evaluated in order), or the Lua code of the source. *)
Definition reads (t : text) (s : stmt) : Prop :=
  match s with
  | Out l n => forall r, exists a, lua_call (t ++ r) = Some (a, n, r) /\ flat_map atom_codes a = flat_map piece_codes l /\ forall ev, atoms_value ev a = pieces_value ev l ++ [nl]
  | Raw c => t = c ++ [nl] \/ t = drop_blanks c ++ [nl]
  end.

(** The Lua program has, in the order of the source, one call per line of Silice (none when there are only comments or blanks), which outputs its words, strings and the values of its
    insertions, with the number of the line; and the lines of Lua as they are.
    [_partial]: single quotes and escaped backslashes are not in strings, comments are separated from words, / is not followed by a comment, Lua lines start with $$, there is no backslash
    outside of strings (witnesses below). *)
Theorem C51_program_partial R ls k l ln : Forall line_ok ls -> wf l nl ->
  exists ts, luaCodeSplit R (source ls ++ blanks k ++ pieces_text l) ln = Some (concat ts, line_after ls ln + pieces_lines l) /\
    Forall2 reads ts (stmts ls ln ++ (if visible l then [Out l (line_after ls ln + pieces_lines l)] else [])).
Proof.
  intros F W. set (q := stmts ls ln ++ (if visible l then [Out l (line_after ls ln + pieces_lines l)] else [])).
  exists (map (stmt_text R) q). split.
  - unfold luaCodeSplit. rewrite lines_run by (assumption || lia). reflexivity.
  - assert (A : forall s, In s q -> match s with Out p n => exists e, wf p e | Raw c => True end).
    { intros s I. unfold q in I. apply in_app_iff in I. destruct I as [I|I].
      - clear q W. revert ln I. induction F as [|x ls O F IH]; intros ln I; [destruct I|]. destruct x as [k0 p c|k0 c]; cbn [stmts] in I.
        + apply in_app_iff in I. destruct I as [I|I]; [|eapply IH; eauto]. destruct (visible p); [|destruct I]. destruct I as [<-|[]]. cbn [line_ok] in O. destruct c; [exists "/"; apply O|exists nl; apply O].
        + destruct I as [<-|I]; [exact Logic.I|eapply IH; eauto].
      - destruct (visible l); [|destruct I]. destruct I as [<-|[]]. now exists nl. }
    clearbody q. clear F W. induction q as [|s q IH]; cbn [map]; [constructor|]. constructor; [|apply IH; intros s' I; apply A; now right].
    specialize (A s (or_introl eq_refl)). destruct s as [p n|c]; cbn [reads stmt_text].
    + destruct A as [e W]. intros r. exists (atoms_of p [nl]). split; [now apply call_read with (e := e)|]. split; [apply atoms_codes|]. intros ev. apply atoms_val.
    + destruct (r_str R); [right|left]; reflexivity.
Qed.
Print Assumptions C51_program_partial.

(** Without Lua lines: the output of the preprocessor is the text of the lines. *)
Fixpoint output_of (ev : text -> text) (ls : list line) : text :=
  match ls with
  | [] => []
  | Silice _ l _ :: r => (if visible l then pieces_value ev l ++ [nl] else []) ++ output_of ev r
  | Lua _ _ :: r => output_of ev r
  end.
Theorem C51_text_partial R ev ls ln : Forall line_ok ls -> (forall x, In x ls -> match x with Lua _ _ => False | Silice _ _ _ => True end) ->
  exists code, luaCodeSplit R (source ls) ln = Some (code, line_after ls ln) /\ lua_run ev (S (length code)) code = Some (output_of ev ls).
Proof.
  intros F NL. destruct (C51_program_partial R ls 0 [] ln F I) as (ts & E & Q). cbn [blanks repeat pieces_text map concat visible existsb app] in *.
  change (pieces_lines []) with 0 in E. rewrite !app_nil_r in *. rewrite Nat.add_0_r in E. exists (concat ts). split; [exact E|]. clear E F.
  assert (G : forall f ts q, Forall2 reads ts q -> (forall s, In s q -> match s with Raw _ => False | _ => True end) -> length (concat ts) < f ->
    lua_run ev f (concat ts) = Some (concat (map (fun s => match s with Out l _ => pieces_value ev l ++ [nl] | Raw _ => [] end) q))).
  { induction f as [|f IH]; intros us q H N L; [lia|]. destruct H as [|u s us q H1 H2]; [reflexivity|]. destruct s as [p n|c]; [|exfalso; exact (N _ (or_introl eq_refl))].
    cbn [concat] in *. cbn [reads] in H1. destruct (H1 (concat us)) as (a & C & _ & V).
    assert (NE : u <> []). { intros ->. destruct (H1 []) as (a' & C' & _). discriminate. }
    cbn [lua_run]. destruct (u ++ concat us) as [|z z'] eqn:EU; [destruct u; [contradiction|discriminate]|]. rewrite C.
    rewrite (IH us q H2).
    - cbn [map concat]. now rewrite V.
    - intros s I. apply N. now right.
    - rewrite <- EU, app_length in L. destruct u; [contradiction|]. cbn [length] in L. lia. }
  assert (NR : forall s, In s (stmts ls ln) -> match s with Raw _ => False | _ => True end).
  { clear - NL. revert ln. induction ls as [|[k l c|k c] ls IH]; intros ln s I; [destruct I| |exfalso; exact (NL _ (or_introl eq_refl))].
    cbn [stmts] in I. apply in_app_iff in I. destruct I as [I|I]; [|exact (IH (fun x H => NL x (or_intror H)) _ s I)]. destruct (visible l); [|destruct I]. destruct I as [<-|[]]. exact Logic.I. }
  rewrite (G _ ts (stmts ls ln) Q NR (Nat.lt_succ_diag_r _)).
  f_equal. clear - NL. revert ln. induction ls as [|[k l c|k c] ls IH]; intros ln; [reflexivity| |exfalso; exact (NL _ (or_introl eq_refl))].
  cbn [stmts output_of]. rewrite map_app, concat_app, IH by (intros x H; apply NL; now right). f_equal. destruct (visible l); [|reflexivity]. cbn [map concat]. now rewrite app_nil_r.
Qed.
Print Assumptions C51_text_partial.

(** A program: a comment over two lines, a sized literal, insertions, a string with escapes, a division and Lua lines:
      "  a = 8'hff + $x+f(1)$;  /* one" / "two */ b = a / c; // it's $5"
      "$$if x then" / " __display(""%d\n"" ,a);" *)
Definition p_lines : list line := [
  Silice 2 [Word (txt "a") 1; Word (txt "=") 1; Word (txt "8'hff") 1; Word (txt "+") 1; Ins (txt "x+f(1)") 0; Word (txt ";") 2;
            Block (txt " one" ++ nl :: txt "two ") 1; Word (txt "b") 1; Word (txt "=") 1; Word (txt "a") 1; Slash 1; Word (txt "c;") 1] (Some (txt " it's $5"));
  Lua 0 (txt "if x then");
  Silice 1 [] None;
  Silice 1 [Word (txt "__display(") 0; Str [Plain "%"; Plain "d"; Esc "n"; Esc """"; Plain "!"] 1; Word (txt ",a);") 0] None].
Lemma p_ok : Forall line_ok p_lines.
Proof.
  repeat (apply Forall_cons || apply Forall_nil); cbn [line_ok wf]; repeat (split || exact I || reflexivity); try (vm_compute; intuition discriminate).
Qed.
Example C51_program_ex : Forall line_ok p_lines /\ forall R, exists code, luaCodeSplit R (source p_lines) 0 = Some (code, 5) /\
  string_of_list_ascii code = ("output('a = 8\'hff + ' .. (x+f(1)) .. '; b = a /c; \n',1,0)" ++ String nl ("if x then" ++ String nl
    ("output('__display(""%d\\n\\""!"",a);\n',4,0)" ++ String nl "")))%string.
Proof. split; [exact p_ok|]. intros [[] []]; eexists; split; vm_compute; reflexivity. Qed.

(** * Single quotes in strings. *)

(** __display("it's"): Lua does not read what is written. *)
Theorem C51_quote_refuted : exists s, s = txt "__display(""it's"");" /\ forall R, exists code n, luaCodeSplit R s 0 = Some (code, n) /\ lua_call code = None.
Proof. exists (txt "__display(""it's"");"). split; [reflexivity|]. intros [[] []]; eexists _, _; split; vm_compute; reflexivity. Qed.
Print Assumptions C51_quote_refuted.
(** Or the content of a string is evaluated: "a' .. (f()) .. 'b" outputs the value of f(). *)
Theorem C51_quote_evaluated_refuted : exists s, s = txt """a' .. (f()) .. 'b""" /\
  forall R, exists code n a, luaCodeSplit R s 0 = Some (code, n) /\ lua_call code = Some (a, 0, []) /\ forall ev, atoms_value ev a = txt """a" ++ ev (txt "f()") ++ txt "b""" ++ [nl].
Proof.
  exists (txt """a' .. (f()) .. 'b"""). split; [reflexivity|]. intros R. exists (txt "output('""a' .. (f()) .. 'b""\n',0,0)" ++ [nl]), 0, [Lit (txt """a"); Code (txt "f()"); Lit (txt "b""" ++ [nl])].
  split; [destruct R as [[] []]; vm_compute; reflexivity|]. split; [vm_compute; reflexivity|]. intros ev. unfold atoms_value. cbn [map concat atom_value]. reflexivity.
Qed.
Print Assumptions C51_quote_evaluated_refuted.

(** * Escaped backslashes in strings: before an n the string is output with an end of line in it, at its end with one backslash, which escapes its last quote. *)
Theorem C51_backslash_refuted : (forall R, exists code n a, luaCodeSplit R (txt """a\\nb""") 0 = Some (code, n) /\ lua_call code = Some (a, 0, []) /\
    forall ev, atoms_value ev a = txt """a\" ++ nl :: txt "b""" ++ [nl]) /\
  (forall R, exists code n a, luaCodeSplit R (txt """a\\""") 0 = Some (code, n) /\ lua_call code = Some (a, 0, []) /\ forall ev, atoms_value ev a = txt """a\""" ++ [nl]).
Proof.
  split; intros R.
  - exists (txt "output('""a\\\nb""\n',0,0)" ++ [nl]), 0, [Lit (txt """a\" ++ nl :: txt "b""" ++ [nl])].
    split; [destruct R as [[] []]; vm_compute; reflexivity|]. split; [vm_compute; reflexivity|]. intros ev. unfold atoms_value. cbn [map concat atom_value]. apply app_nil_r.
  - exists (txt "output('""a\\\""\n',0,0)" ++ [nl]), 0, [Lit (txt """a\""" ++ [nl])].
    split; [destruct R as [[] []]; vm_compute; reflexivity|]. split; [vm_compute; reflexivity|]. intros ev. unfold atoms_value. cbn [map concat atom_value]. apply app_nil_r.
Qed.
Print Assumptions C51_backslash_refuted.

(** * Comments. *)

(** A comment that follows a word without blank is not skipped: a;//costs $5 or $6 evaluates "5 or ", a double quote in such a comment is an error. *)
Theorem C51_glued_comment_refuted : (forall R, exists code n a, luaCodeSplit R (txt "a;//costs $5 or $6") 0 = Some (code, n) /\ lua_call code = Some (a, 0, []) /\
    flat_map atom_codes a = [txt "5 or "]) /\
  forall R, luaCodeSplit R (txt "a;//""") 0 = None.
Proof.
  split; [|intros [[] []]; vm_compute; reflexivity]. intros R. exists (txt "output('a;//costs ' .. (5 or ) .. '6\n',0,0)" ++ [nl]), 0, [Lit (txt "a;//costs "); Code (txt "5 or "); Lit (txt "6" ++ [nl])].
  split; [destruct R as [[] []]; vm_compute; reflexivity|]. split; vm_compute; reflexivity.
Qed.
Print Assumptions C51_glued_comment_refuted.

(** A division at the end of a line, before a comment, is lost: "a / // c" then "b" outputs "a" and "b" only. *)
Theorem C51_division_refuted : forall R ev, exists code n, luaCodeSplit R (txt "a / // c" ++ nl :: txt "b" ++ [nl]) 0 = Some (code, n) /\
  lua_run ev (S (length code)) code = Some (txt "a " ++ nl :: txt "b" ++ [nl]).
Proof.
  intros R ev. exists (txt "output('a \n',0,0)" ++ nl :: txt "output('b\n',1,0)" ++ [nl]), 2. split; [destruct R as [[] []]; vm_compute; reflexivity|]. vm_compute. reflexivity.
Qed.
Print Assumptions C51_division_refuted.

(** * Lua after text on a line: the text comes after the Lua code. *)
Theorem C51_lua_first_refuted : forall R, exists code n, luaCodeSplit R (txt "a $$if x then" ++ [nl]) 0 = Some (code, n) /\ code = txt "if x then" ++ nl :: txt "output('a \n',0,0)" ++ [nl].
Proof. intros R. eexists _, 1. split; [|reflexivity]. destruct R as [[] []]; vm_compute; reflexivity. Qed.
Print Assumptions C51_lua_first_refuted.

(** * Strings over several lines: the end of line is lost, or Lua does not read its string. *)
Theorem C51_string_lines_refuted : exists s, s = txt """a" ++ nl :: txt "b""" ++ [nl] /\ forall R, exists code, luaCodeSplit R s 0 = Some (code, 1) /\
  (if r_eol R then exists a, lua_call code = Some (a, 0, []) /\ forall ev, atoms_value ev a = txt """ab""" ++ [nl] else lua_call code = None).
Proof.
  exists (txt """a" ++ nl :: txt "b""" ++ [nl]). split; [reflexivity|]. intros [[] []]; eexists; (split; [vm_compute; reflexivity|]); cbn [r_eol]; try (vm_compute; reflexivity);
    (exists [Lit (txt """ab""" ++ [nl])]; split; [vm_compute; reflexivity|]; intros ev; unfold atoms_value; cbn [map concat atom_value]; apply app_nil_r).
Qed.
Print Assumptions C51_string_lines_refuted.
