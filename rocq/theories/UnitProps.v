(** Property C52. *)
From Coq Require Import Ascii String List Bool Arith ZArith Lia.
Import ListNotations.
From Verif Require Import CommentModel CommentProofs SplitModel SplitProofs UnitModel UnitProofs.
Local Open Scope char_scope.
Local Open Scope list_scope.

Lemma between_app a b : between (a ++ b) b = a.
Proof. unfold between. rewrite app_length. replace (length a + length b - length b) with (length a + 0) by lia. rewrite firstn_app_2. cbn [firstn]. apply app_nil_r. Qed.
Lemma name_ports u s : after_name u s = ("(" :: ports_text u ++ [")"]) ++ after_ports u s.
Proof. unfold after_name, after_ports. cbn [app]. rewrite <- app_assoc. reflexivity. Qed.
Lemma remove_ports u : removelast (tl ("(" :: ports_text u ++ [")"])) = ports_text u.
Proof. cbn [tl]. apply removelast_last. Qed.

(** The units found are those of the source, in order, with their exact text and ports.
    [_partial]: braces are balanced along the first branch of each conditional, with lines of Lua where if, for, while, function, else, elseif and end are separate words, without comments,
    and with the name and the opening parenthesis on the line of the keyword (witnesses below); names are read after blanks ([r_str]: no unit could be found otherwise). *)
Theorem C52_units_partial R l last : r_str R = true -> sources_ok l last ->
  exists us, decomposeSource R (sources l last) = Some us /\
    map (fun u => (u_name u, between (u_start u) (u_end u), between (u_io_start u) (u_io_end u))) us = map (fun x => (s_name (snd x), unit_text (snd x), "(" :: ports_text (snd x) ++ [")"])) l.
Proof.
  intros RT (OK & OL & LV). exists (locs l last). split; [apply sources_found with (n := 0); auto|]. clear. induction l as [|[g u] l IH]; [reflexivity|]. cbn [locs map fst snd]. rewrite IH. f_equal.
  cbn [u_name u_start u_end u_io_start u_io_end loc]. rewrite between_app. f_equal. rewrite name_ports. apply between_app.
Qed.
Print Assumptions C52_units_partial.

(** The condition on braces follows when the braces output are balanced whatever the choices and the numbers of iterations. *)
Lemma firsts_out : (forall t, exists y, outs t (firsts t ++ y) /\ y = []) /\ (forall f, outs_forest f (firsts_forest f)) /\ (forall a : alts, True).
Proof.
  apply trees_ind.
  - intros t. exists []. split; [|reflexivity]. rewrite app_nil_r. destruct t; cbn [firsts]; constructor; discriminate.
  - intros k ws. exists []. split; [constructor|reflexivity].
  - intros k o b IB e _ kz z. exists []. split; [|reflexivity]. cbn [firsts]. apply o_more; [now left|constructor].
  - constructor.
  - intros t (y & IT & ->) r IR. rewrite app_nil_r in IT. cbn [firsts_forest]. now constructor.
  - exact I.
  - auto.
Qed.
Theorem C52_balanced_partial u : In (s_kw u) keywords -> 0 < s_n u -> s_name u <> [] -> (forall c, In c (s_name u) -> ~ In c ["("; " "; "009"; cr; nl]) ->
  forest_ok "(" ")" (s_io u) -> Forall (fun i => item_ok "{" "}" i /\ quiet i) (s_mid u) -> forest_ok "{" "}" (s_body u) ->
  (forall x, outs_forest (s_io u) x -> nested x) -> (forall x, outs_forest (s_body u) x -> nested x) -> uspec_ok u.
Proof. intros A B C D E F G H I. repeat (split; [assumption|]). split; [apply H, firsts_out|apply I, firsts_out]. Qed.
Print Assumptions C52_balanced_partial.

(** The Lua program: the text around units, and for each unit two functions made of its ports and of its whole text; [before]: the text before. *)
Definition functions (n : text) (name ios body : text) : text :=
  txt "-- =================================>>> unit IO " ++ n ++ [nl] ++
  txt "_G[ '__io__' .. " ++ name ++ txt "] = function()" ++ [nl] ++ ios ++ txt "end" ++ [nl] ++
  txt "-- =================================>>> unit " ++ n ++ [nl] ++
  txt "_G[" ++ name ++ txt "] = function()" ++ [nl] ++ body ++ txt "end" ++ [nl] ++
  txt "-- -----------------------------------" ++ [nl].
(** The Lua text of [t], which starts on the line given by the text before. *)
Definition chunk (R : reader) (before t code : text) : Prop := luaCodeSplit R t (count_nl before) = Some (code, count_nl (before ++ t)).
Inductive program (R : reader) : text -> list (list gap * uspec) -> list gap -> text -> Prop :=
| p_last before last c : chunk R before (gaps_text last) c -> program R before [] last c
| p_unit before g u l last cg ci cb name c : chunk R before (gaps_text g) cg -> chunk R (before ++ gaps_text g) (ports_text u) ci -> chunk R (before ++ gaps_text g) (unit_text u) cb ->
    nameToLua R (s_name u) = Some name -> program R (before ++ gaps_text g ++ unit_text u) l last c ->
    program R before ((g, u) :: l) last (cg ++ functions (s_name u) name ci cb ++ c).

(** Texts that can be read (C51). *)
Definition readable (t : text) : Prop := exists ls k l, t = source ls ++ blanks k ++ pieces_text l /\ Forall line_ok ls /\ wf l nl.
Lemma count_app a b : count_nl (a ++ b) = count_nl a + count_nl b.
Proof. unfold count_nl. now rewrite filter_app, app_length. Qed.
Lemma count_none s : (forall c, In c s -> c <> nl) -> count_nl s = 0.
Proof. intros H. induction s as [|c s IH]; [reflexivity|]. unfold count_nl in *. cbn [filter]. rewrite (proj2 (Ascii.eqb_neq c nl)) by (apply H; now left). apply IH. intros d I. apply H. now right. Qed.
Lemma count_blanks n : count_nl (blanks n) = 0.
Proof. apply count_none. intros c I. apply repeat_spec in I. subst. discriminate. Qed.
Lemma count_str l : forall b, str_ok b l = true -> count_nl (str_text l) = 0.
Proof.
  induction l as [|[c|c] l IH]; intros b H; [reflexivity| |]; cbn [str_ok] in H; rewrite !andb_true_iff in H; destruct H as [[H1 _] H2]; apply negb_true_iff, oneof_not in H1.
  - change (str_text (SplitProofs.Plain c :: l)) with ([c] ++ str_text l). rewrite count_app, (IH _ H2), count_none; [reflexivity|]. intros d [<-|[]] ->. apply H1. cbn. tauto.
  - change (str_text (Esc c :: l)) with ([bslash; c] ++ str_text l). rewrite count_app, (IH _ H2), count_none; [reflexivity|]. intros d [<-|[<-|[]]]; [discriminate|]. intros ->. apply H1. cbn. tauto.
Qed.
Lemma count_piece p : piece_ok p -> count_nl (piece_text p) = piece_lines p.
Proof.
  destruct p as [w n|l n|c n|n|b n]; cbn [piece_ok piece_text piece_lines]; intros H.
  - destruct (word_spec w H) as (c & r & _ & _ & N). rewrite count_app, count_blanks, count_none; [reflexivity|]. intros d I ->. apply (N nl I). cbn. tauto.
  - change (dquote :: str_text l ++ dquote :: blanks n) with ([dquote] ++ str_text l ++ [dquote] ++ blanks n). rewrite !count_app, count_blanks, (count_str l true H). reflexivity.
  - destruct (ins_spec c H) as (d & r & _ & _ & N & _). change ("$" :: c ++ "$" :: blanks n) with (["$"] ++ c ++ ["$"] ++ blanks n). rewrite !count_app, count_blanks, (count_none c); [reflexivity|]. intros x I ->. apply (N nl I). cbn. tauto.
  - change ("/" :: blanks n) with (["/"] ++ blanks n). now rewrite count_app, count_blanks.
  - change ("/" :: "*" :: b ++ "*" :: "/" :: blanks n) with (["/"; "*"] ++ b ++ ["*"; "/"] ++ blanks n). rewrite !count_app, count_blanks. change (count_nl ["/"; "*"]) with 0. change (count_nl ["*"; "/"]) with 0. lia.
Qed.
Lemma count_pieces l : forall e, wf l e -> count_nl (pieces_text l) = pieces_lines l.
Proof.
  induction l as [|p l IH]; intros e H; [reflexivity|]. change (pieces_text (p :: l)) with (piece_text p ++ pieces_text l). change (pieces_lines (p :: l)) with (piece_lines p + pieces_lines l).
  cbn [wf] in H. destruct H as (H1 & _ & H2). now rewrite count_app, (count_piece p H1), (IH e H2).
Qed.
Lemma count_line x : line_ok x -> forall n, line_after [x] n = n + count_nl (line_text x).
Proof.
  destruct x as [k l c|k c]; cbn [line_ok line_text line_after]; intros H n; rewrite !count_app, count_blanks.
  - destruct c as [b|].
    + destruct H as [W N]. rewrite (count_pieces l _ W). cbn [comment_text]. change ("/" :: "/" :: b) with (["/"; "/"] ++ b). rewrite count_app, (count_none b) by (intros c I ->; contradiction). change (count_nl ["/"; "/"]) with 0. change (count_nl [nl]) with 1. lia.
    + rewrite (count_pieces l _ H). cbn [comment_text]. change (count_nl []) with 0. change (count_nl [nl]) with 1. lia.
  - change ("$" :: "$" :: c ++ [nl]) with (["$"; "$"] ++ c ++ [nl]). rewrite !count_app, (count_none c) by (intros d I ->; contradiction). change (count_nl ["$"; "$"]) with 0. change (count_nl [nl]) with 1. lia.
Qed.
Lemma count_source ls : Forall line_ok ls -> forall n, line_after ls n = n + count_nl (source ls).
Proof.
  induction 1 as [|x ls O F IH]; intros n; [cbn; lia|]. change (source (x :: ls)) with (line_text x ++ source ls). rewrite count_app.
  assert (E : line_after (x :: ls) n = line_after ls (line_after [x] n)) by (destruct x; reflexivity). rewrite E, IH, (count_line x O). lia.
Qed.
Lemma readable_chunk R before t : readable t -> exists c, chunk R before t c.
Proof.
  intros (ls & k & l & -> & F & W). unfold chunk, luaCodeSplit. eexists. rewrite lines_run; [|exact F|exact W|lia]. f_equal. f_equal.
  rewrite !count_app, count_blanks, (count_pieces l _ W), (count_source ls F). lia.
Qed.

(** Names with insertions: the Lua expression made of the name. *)
Definition name_ok (R : reader) (n : text) : Prop := exists e, nameToLua R n = Some e.
Theorem C52_program_partial R l last : r_str R = true -> sources_ok l last ->
  Forall (fun x => readable (gaps_text (fst x)) /\ readable (ports_text (snd x)) /\ readable (unit_text (snd x)) /\ name_ok R (s_name (snd x))) l -> readable (gaps_text last) ->
  exists code, prepareCode R (sources l last) = Some code /\ program R [] l last code.
Proof.
  intros RT (OK & OL & LV) RD RL. unfold prepareCode, decomposeSource. rewrite (sources_found R RT l last [] 0 _ OK OL LV eq_refl) by lia. cbn [obind].
  enough (G : forall before, exists code, prepare R (locs l last) (sources l last) (count_nl before) = Some code /\ program R before l last code) by exact (G []).
  clear OK OL LV. induction RD as [|[g u] l (RG & RP & RU & [name NM]) RD IH]; intros before; cbn [locs prepare sources fst snd] in *.
  - destruct (readable_chunk R before _ RL) as [c C]. exists c. rewrite C. split; [reflexivity|now constructor].
  - change (u_start (loc u (sources l last))) with (unit_text u ++ sources l last). rewrite between_app.
    destruct (readable_chunk R before _ RG) as [cg CG]. rewrite CG. cbn [obind snd fst]. change (u_name (loc u (sources l last))) with (s_name u). rewrite NM. cbn [obind].
    change (u_io_start (loc u (sources l last))) with (after_name u (sources l last)). change (u_io_end (loc u (sources l last))) with (after_ports u (sources l last)). rewrite name_ports, between_app, remove_ports.
    destruct (readable_chunk R (before ++ gaps_text g) _ RP) as [ci CI]. rewrite CI. cbn [obind fst]. change (u_end (loc u (sources l last))) with (sources l last). rewrite between_app.
    destruct (readable_chunk R (before ++ gaps_text g) _ RU) as [cb CB]. rewrite CB. cbn [obind fst snd]. rewrite <- app_assoc. destruct (IH (before ++ gaps_text g ++ unit_text u)) as (c & -> & P). cbn [obind].
    exists (cg ++ functions (s_name u) name ci cb ++ c). split; [|now constructor]. f_equal. f_equal. unfold functions. rewrite <- !app_assoc. reflexivity.
Qed.
Print Assumptions C52_program_partial.

(** * An example: text, a unit with conditional ports, a block opened in one of two ways, a string and a comment with braces, and a unit in a conditional. *)
Definition chr (o c : ascii) (x : ascii) : tok := if is_blank x then Sp x else if Ascii.eqb x nl then Nl else if Ascii.eqb x o then Open else if Ascii.eqb x c then Close else Chr x.
Definition leaves (o c : ascii) (s : string) (r : forest) : forest := fold_right (fun x f => FCons (Leaf (chr o c x)) f) r (txt s).
Definition nls (f : forest) : forest := FCons (Leaf Nl) f.
Definition lw (s : string) : ltok := LW (txt s) 1.
Definition e_ports : forest :=
  nls (FCons (Leaf (Sp " ")) (FCons (Cond 0 [lw "if"; lw "N==1"; lw "then"] (leaves "(" ")" " input uint8 a" (nls FNil)) (ACons 0 [lw "else"] (leaves "(" ")" " input uint8 b" (nls FNil)) ANil) 0 [lw "end"])
    (leaves "(" ")" " output uint8 o" FNil))).
Definition e_body : forest :=
  nls (FCons (Leaf (Sp " ")) (FCons (Cond 1 [lw "if"; lw "N==1"; lw "then"] (leaves "{" "}" " while (a) {" (nls FNil)) (ACons 1 [lw "else"] (leaves "{" "}" " while (b) {" (nls FNil)) ANil) 1 [lw "end"])
    (leaves "{" "}" " __display( " (FCons (Leaf (Strg (map SplitProofs.Plain (txt "}")))) (leaves "{" "}" ",o); " (FCons (Leaf (Cline (txt " }"))) (leaves "{" "}" " o = o + 1; }" (nls FNil)))))))).
Definition e_unit : uspec := {| s_kw := txt "algorithm"; s_n := 1; s_name := txt "main_$N$"; s_k := 0; s_io := e_ports; s_mid := [Tok (Sp " ")]; s_body := e_body |}.
Definition e_unit2 : uspec := {| s_kw := txt "unit"; s_n := 1; s_name := txt "u"; s_k := 1; s_io := FNil; s_mid := [Tok (Sp " ")]; s_body := FNil |}.
Definition e_gap : list gap := [GBl " "; GW (txt "bitfield") 1; GW (txt "A") 1; GW (txt "{") 1; GN (txt "}") 1; GLine (txt " algorithm"); GBl " "].
Definition e_gap2 : list gap := [GN [] 1; GLua 0 [lw "if"; lw "N==1"; lw "then"]; GBl " "].
Definition e_last : list gap := [GN [] 1; GLua 0 [lw "end"]].
Lemma e_ok : sources_ok [(e_gap, e_unit); (e_gap2, e_unit2)] e_last.
Proof.
  assert (C : forall n, closed_words 0 [] /\ closed_words 0 [LW (txt "N==1") n; LW (txt "then") n]).
  { intros n. split; [reflexivity|]. cbn. right; right; right. repeat (split; [cbn; intuition discriminate|]). right; right; right. repeat (split; [cbn; intuition discriminate|]). reflexivity. }
  assert (AO : around (fun w => In w openers) [lw "if"; lw "N==1"; lw "then"]) by (exists [], (txt "if"), 1, [lw "N==1"; lw "then"]; split; [reflexivity|]; split; [cbn; auto|exact (C 1)]).
  assert (AE : around (fun w => In w elses) [lw "else"]) by (exists [], (txt "else"), 1, []; repeat split; cbn; auto).
  assert (AZ : around (fun w => w = closer) [lw "end"]) by (exists [], (txt "end"), 1, []; repeat split; cbn; auto).
  assert (W : forall l, forallb (fun t => match t with LW w _ => match w with [] => false | _ => negb (text_eqb w (txt "--")) && forallb (fun c => negb (oneof [" "; "009"; cr; nl; quote; dquote] c)) w end | LS _ _ _ => false end) l = true ->
    (forall t, In t l -> match t with LW _ n => n = 1 | _ => False end) -> words_ok l).
  { induction l as [|[w n|q t n] l IH]; [intros _ _; exact I| |discriminate]. cbn [forallb]. rewrite andb_true_iff. intros [H1 H2] H3. cbn [words_ok]. split; [|split; [|apply IH; [exact H2|intros t I; apply H3; now right]]].
    - destruct w as [|c w]; [discriminate|]. apply andb_true_iff in H1. destruct H1 as [H1 H4]. split; [discriminate|]. split; [intros E; apply text_eqb_eq in E; rewrite E in H1; discriminate|].
      intros d I. rewrite forallb_forall in H4. specialize (H4 d I). now apply negb_true_iff, oneof_not in H4.
    - specialize (H3 _ (or_introl eq_refl)). cbn in H3. subst n. exact I. }
  assert (W1 : words_ok [lw "if"; lw "N==1"; lw "then"]) by (apply W; [reflexivity|intros t [<-|[<-|[<-|[]]]]; reflexivity]).
  assert (W2 : words_ok [lw "else"]) by (apply W; [reflexivity|intros t [<-|[]]; reflexivity]).
  assert (W3 : words_ok [lw "end"]) by (apply W; [reflexivity|intros t [<-|[]]; reflexivity]).
  assert (LV : forall o c, (o, c) = ("(", ")") \/ (o, c) = ("{", "}") -> forall s r, forallb (fun x => negb (oneof [bslash; "$"; "/"; dquote] x)) (txt s) = true -> forest_ok o c r -> forest_ok o c (leaves o c s r)).
  { intros o c OC s r. unfold leaves. induction (txt s) as [|x t IH]; [auto|]. cbn [forallb fold_right]. rewrite andb_true_iff. intros [H1 H2] H3. split; [|now apply IH]. apply negb_true_iff, oneof_not in H1. unfold chr. cbn [tree_ok].
    destruct (is_blank x) eqn:B; [exact B|]. destruct (Ascii.eqb_spec x nl); [exact I|]. destruct (Ascii.eqb_spec x o); [exact I|]. destruct (Ascii.eqb_spec x c); [exact I|]. split; [exact B|]. cbn in *. intuition congruence. }
  assert (U1 : uspec_ok e_unit).
  { split; [cbn; auto|]. split; [cbn; lia|]. split; [discriminate|]. split; [cbn; intuition (subst; discriminate)|]. split; [|split; [|split; [|split]]].
    - repeat (assumption || exact I || reflexivity || (left; reflexivity) || apply LV || split).
    - repeat constructor.
    - split; [exact I|]. split; [reflexivity|]. split; [repeat (assumption || exact I || reflexivity || (right; reflexivity) || apply LV || split)|]. apply LV; [now right|reflexivity|]. split.
      + cbn [tree_ok tok_ok]. repeat constructor; discriminate.
      + apply LV; [now right|reflexivity|]. split; [cbn; intuition discriminate|]. apply LV; [now right|reflexivity|]. repeat split.
    - exact n_nil.
    - exact (n_block [] [] n_nil n_nil). }
  assert (U2 : uspec_ok e_unit2).
  { split; [cbn; auto|]. split; [cbn; lia|]. split; [discriminate|]. split; [cbn; intuition (subst; discriminate)|]. repeat split; try constructor; try (split; (reflexivity || exact I)); constructor. }
  split; [|split].
  - constructor; [|constructor; [|constructor]]; cbn [fst snd]; (split; [|assumption]); repeat (apply Forall_cons || apply Forall_nil); cbn [gap_ok]; try exact W1; try reflexivity;
      unfold gword; repeat split; try discriminate; try lia; try (intros c; cbn; intuition (subst; discriminate)); cbn; intuition (subst; discriminate).
  - repeat (apply Forall_cons || apply Forall_nil); cbn [gap_ok]; try exact W3. unfold gword. repeat split; try discriminate; try (intros c; cbn; intuition (subst; discriminate)); try (cbn; intuition (subst; discriminate)); intros H; now contradiction H.
  - vm_compute. discriminate.
Qed.
Definition L (s : string) : text := txt s ++ [nl].
Example C52_ex : sources_ok [(e_gap, e_unit); (e_gap2, e_unit2)] e_last /\
  sources [(e_gap, e_unit); (e_gap2, e_unit2)] e_last =
    L " bitfield A { }" ++ L " // algorithm" ++ L " algorithm main_$N$(" ++ L " $$if N==1 then " ++ L " input uint8 a" ++ L "$$else " ++ L " input uint8 b" ++ L "$$end " ++ L " output uint8 o) {" ++
    L " $$ if N==1 then " ++ L " while (a) {" ++ L "$$ else " ++ L " while (b) {" ++ L "$$ end " ++ L " __display( ""}"",o); // }" ++ L " o = o + 1; }" ++ L "}" ++
    L " $$if N==1 then " ++ L " unit u () {}" ++ L " $$end " /\
  forall R, r_str R = true -> exists us, decomposeSource R (sources [(e_gap, e_unit); (e_gap2, e_unit2)] e_last) = Some us /\ map u_name us = [txt "main_$N$"; txt "u"].
Proof. split; [exact e_ok|]. split; [vm_compute; reflexivity|]. intros [[] []] RT; try discriminate; eexists; split; vm_compute; reflexivity. Qed.
(** A source to which [C52_program_partial] applies, and its program. *)
Definition f_gap : list gap := [GBl " "; GW (txt "bitfield") 1; GW (txt "A") 1; GW (txt "{") 1; GN (txt "}") 1].
Definition f_last : list gap := [GN [] 0].
Lemma f_ok : sources_ok [(f_gap, e_unit2)] f_last.
Proof.
  destruct e_ok as (OK & _ & _). inversion OK as [|? ? _ OK']; subst. inversion OK' as [|? ? [_ OU] _]; subst. cbn [snd] in OU. split; [|split].
  - constructor; [|constructor]. cbn [fst snd]. split; [|exact OU]. repeat (apply Forall_cons || apply Forall_nil); cbn [gap_ok]; try reflexivity;
      unfold gword; repeat split; try discriminate; try lia; try (intros c; cbn; intuition (subst; discriminate)); cbn; intuition (subst; discriminate).
  - repeat (apply Forall_cons || apply Forall_nil); cbn [gap_ok]. unfold gword. repeat split; try discriminate; try (intros c; cbn; intuition (subst; discriminate)); try (cbn; intuition (subst; discriminate)); intros H; now contradiction H.
  - vm_compute. discriminate.
Qed.
Example C52_program_ex R : r_str R = true -> sources_ok [(f_gap, e_unit2)] f_last /\
  Forall (fun x => readable (gaps_text (fst x)) /\ readable (ports_text (snd x)) /\ readable (unit_text (snd x)) /\ name_ok R (s_name (snd x))) [(f_gap, e_unit2)] /\ readable (gaps_text f_last) /\
  prepareCode R (sources [(f_gap, e_unit2)] f_last) =
    Some (L "output('bitfield A { }\n',0,0)" ++ functions (txt "u") (txt "'u'") [] (L "output('unit u () {}\n',1,0)")).
Proof.
  intros RT. split; [exact f_ok|]. split; [|split; [|destruct R as [[] []]; try discriminate; vm_compute; reflexivity]].
  - constructor; [|constructor]. cbn [fst snd]. split; [|split; [|split]].
    + exists [Silice 1 [Word (txt "bitfield") 1; Word (txt "A") 1; Word (txt "{") 1; Word (txt "}") 0] None], 1, []. split; [reflexivity|]. split; [|exact I]. constructor; [|constructor]. vm_compute. intuition discriminate.
    + exists [], 0, []. split; [reflexivity|]. split; [constructor|exact I].
    + exists [], 0, [Word (txt "unit") 1; Word (txt "u") 1; Word (txt "()") 1; Word (txt "{}") 0]. split; [reflexivity|]. split; [constructor|]. vm_compute. intuition discriminate.
    + exists (txt "'u'"). destruct R as [[] []]; try discriminate; vm_compute; reflexivity.
  - exists [Silice 0 [] None], 0, []. split; [reflexivity|]. split; [|exact I]. constructor; [exact I|constructor].
Qed.

(** * Conditionals are not free in units. *)

(** The first branches of two conditionals may not be taken together: a block opened when A holds, closed in the else of the opposite condition. The braces are balanced for both values of A,
    the end of the unit is not found. *)
Definition both_body : forest :=
  nls (FCons (Cond 0 [lw "if"; lw "A"; lw "then"] (leaves "{" "}" " while (x) {" (nls FNil)) ANil 0 [lw "end"])
    (FCons (Cond 0 [lw "if"; lw "not"; lw "A"; lw "then"] FNil (ACons 0 [lw "else"] (leaves "{" "}" " }" (nls FNil)) ANil) 0 [lw "end"]) FNil)).
Lemma outs_leaves s r x : outs_forest r x -> outs_forest (leaves "{" "}" s r) (flat_map (fun c => if Ascii.eqb c "{" then [true] else if Ascii.eqb c "}" then [false] else []) (txt s) ++ x).
Proof.
  intros H. unfold leaves. induction (txt s) as [|c t IH]; [exact H|]. cbn [fold_right flat_map]. rewrite <- app_assoc. constructor; [|exact IH]. unfold chr.
  destruct (is_blank c) eqn:B; [destruct (Ascii.eqb_spec c "{") as [->|_]; [discriminate|]; destruct (Ascii.eqb_spec c "}") as [->|_]; [discriminate|]; constructor; discriminate|].
  destruct (Ascii.eqb_spec c nl) as [->|_]; [constructor; discriminate|]. destruct (Ascii.eqb c "{"); [constructor|]. destruct (Ascii.eqb c "}"); constructor; discriminate.
Qed.
Theorem C52_correlated_refuted :
  (outs_forest both_body [true; false] /\ nested [true; false]) /\ (outs_forest both_body [] /\ nested []) /\
  forall R, r_str R = true -> decomposeSource R (txt "unit u() {" ++ items_text "{" "}" (items_forest both_body) ++ txt "}" ++ nl :: txt " unit v() { }" ++ [nl]) = None.
Proof.
  split; [|split].
  - split; [|exact (n_block [] [] n_nil n_nil)]. apply (o_cons _ _ [] [true; false]); [constructor; discriminate|]. apply (o_cons _ _ [true] [false]).
    + apply (o_more _ _ _ _ _ _ [true] []); [left|constructor]. apply (outs_leaves " while (x) {" _ []). apply (o_cons _ _ [] []); [constructor; discriminate|constructor].
    + apply (o_cons _ _ [false] []); [|constructor]. apply (o_more _ _ _ _ _ _ [false] []); [right|constructor]. constructor. apply (outs_leaves " }" _ []). apply (o_cons _ _ [] []); [constructor; discriminate|constructor].
  - split; [|constructor]. apply (o_cons _ _ [] []); [constructor; discriminate|]. apply (o_cons _ _ [] []); [constructor|]. apply (o_cons _ _ [] []); [constructor|constructor].
  - intros [[] []] H; try discriminate; vm_compute; reflexivity.
Qed.
Print Assumptions C52_correlated_refuted.

(** A condition in parentheses glued to if, a block with do, and a function in an expression: the end is an error. *)
Theorem C52_blocks_refuted : Forall (fun line => forall R, r_str R = true -> decomposeSource R (L "unit u() {" ++ L line ++ L " x = 1;" ++ L "$$end" ++ L "}") = None)
  [" $$if(A) then"; " $$do"; " $$f = function(x)"]%string.
Proof. repeat (apply Forall_cons || apply Forall_nil); intros [[] []] H; try discriminate; vm_compute; reflexivity. Qed.
Print Assumptions C52_blocks_refuted.

(** Comments of Lua: braces count, and quotes open strings over the lines that follow. *)
Theorem C52_lua_comment_refuted : Forall (fun line => forall R, r_str R = true -> decomposeSource R (L "unit u() {" ++ L line ++ L "}" ++ L " unit v() { }") = None)
  [" $$ -- {"; " $$x = 1 --it's"]%string.
Proof. repeat (apply Forall_cons || apply Forall_nil); intros [[] []] H; try discriminate; vm_compute; reflexivity. Qed.
Print Assumptions C52_lua_comment_refuted.

(** * Names and ports. *)

(** A name made with a call is cut at its parenthesis, its argument is taken for the ports and the rest for an insertion; a comment is taken for the name; ports on another line are not those found. *)
Theorem C52_name_refuted :
  (forall R, r_str R = true -> decomposeSource R (L "unit m_$f(i)$(input uint8 a) { }") = None) /\
  (forall R, r_str R = true -> exists u, decomposeSource R (L "unit /* c */ m(input uint8 a) { }") = Some [u] /\ u_name u = txt "/*") /\
  (forall R, r_str R = true -> exists u, decomposeSource R (L "unit m" ++ L " (input uint8 a) { }") = Some [u] /\
    (u_name u <> txt "m" \/ removelast (tl (between (u_io_start u) (u_io_end u))) <> txt "input uint8 a")).
Proof.
  split; [intros [[] []] H; try discriminate; vm_compute; reflexivity|].
  split; intros [[] []] H; try discriminate; eexists; (split; [vm_compute; reflexivity|]); try (split; vm_compute; reflexivity); try (vm_compute; reflexivity).
  - right. vm_compute. discriminate.
  - left. vm_compute. discriminate.
Qed.
Print Assumptions C52_name_refuted.

(** Strings outside of units are read as words. *)
Theorem C52_string_refuted : forall R, r_str R = true -> decomposeSource R (L " import('my unit test.v')" ++ L " unit m() { }") <> decomposeSource R (L " import('my_unit_test.v')" ++ L " unit m() { }") /\
  exists u, decomposeSource R (L " import('my unit test.v')" ++ L " unit m() { }") = Some [u] /\ u_name u = txt "test.v')" ++ (if r_eol R then [] else [nl]).
Proof. intros [[] []] H; try discriminate; (split; [vm_compute; discriminate|]); eexists; split; vm_compute; reflexivity. Qed.
Print Assumptions C52_string_refuted.

(** * Units split by conditionals are rejected. *)

(** A block of Lua opened between the ports and the brace, and still open at the end of the unit. *)
Theorem C52_split_rejected R ports m1 k o m2 body s : forest_ok "(" ")" ports -> nested (firsts_forest ports) -> forest_ok "{" "}" body -> nested (firsts_forest body) ->
  Forall (fun i => item_ok "{" "}" i /\ quiet i) m1 -> Forall (fun i => item_ok "{" "}" i /\ quiet i) m2 -> words_ok o -> around (fun w => In w openers) o ->
  jumpOverUnit R ("(" :: items_text "(" ")" (items_forest ports) ++ ")" :: items_text "{" "}" (m1 ++ Line k o :: m2) ++ "{" :: items_text "{" "}" (items_forest body) ++ "}" :: s) = None.
Proof.
  intros FP NP FB NB F1 F2 WO AO. unfold jumpOverUnit. cbn [drop_blanks]. change (is_blank "(") with false. cbn iota.
  set (t := items_text "{" "}" (m1 ++ Line k o :: m2) ++ "{" :: items_text "{" "}" (items_forest body) ++ "}" :: s).
  pose proof (block_go R "(" ")" ltac:(discriminate) paren_oc [] ports t (Forall_nil _) FP NP) as E1.
  change (items_text "(" ")" [] ++ "(" :: items_text "(" ")" (items_forest ports) ++ ")" :: t) with ("(" :: items_text "(" ")" (items_forest ports) ++ ")" :: t) in E1. rewrite E1. unfold jumpOverNestedBlocks.
  assert (Q : forall l p d, Forall (fun i => item_ok "{" "}" i /\ quiet i) l -> exec l p d = Some (p, d)).
  { induction l as [|i l IH]; intros p d H; [reflexivity|]. inversion H as [|? ? [_ Q] H']; subst. cbn [exec]. destruct i as [tk|k0 ws]; cbn [quiet step] in *; [destruct tk; try contradiction; now apply IH|].
    rewrite (closed_line ws p Q). now apply IH. }
  assert (EX : exec (m1 ++ Line k o :: m2) [] 0%Z = Some ([true], 0%Z)).
  { rewrite exec_app, (Q m1 [] 0%Z F1). cbn [exec step]. rewrite (around_run _ o [] [true] AO) by (intros w H; now apply opener_word). now apply Q. }
  assert (OKS : Forall (item_ok "{" "}") (m1 ++ Line k o :: m2)).
  { apply Forall_app. split; [eapply Forall_impl; [|exact F1]; now intros i [H _]|]. constructor; [exact WO|]. eapply Forall_impl; [|exact F2]. now intros i [H _]. }
  destruct (items_go R "{" "}" ltac:(discriminate) brace_oc (m1 ++ Line k o :: m2) [] 0%Z [true] 0%Z ("{" :: items_text "{" "}" (items_forest body) ++ "}" :: s) (S (length t)) OKS EX ltac:(unfold t; lia)) as (f & L & E).
  fold t in E. rewrite E. destruct f as [|f]; [lia|]. rewrite jb_open by (discriminate || exact brace_oc). cbn [consider].
  destruct (proj1 (proj2 (trees_chosen "{" "}")) body FB) as [F C]. destruct (C [true] (0 + 1)%Z ltac:(lia)) as [C1 _].
  destruct (items_go R "{" "}" ltac:(discriminate) brace_oc (items_forest body) [true] (0 + 1)%Z [true] (0 + 1)%Z ("}" :: s) f F (C1 eq_refl _ (nested_depths _ NB (0 + 1)%Z ltac:(lia)))) as (f1 & L1 & E2); [cbn [length] in L; lia|].
  rewrite E2. destruct f1 as [|f1]; [lia|]. rewrite jb_close by (discriminate || exact brace_oc). reflexivity.
Qed.
Print Assumptions C52_split_rejected.
(** The example of the documentation, and a unit closed in a conditional. *)
Example C52_split_ex : (forall R, r_str R = true -> decomposeSource R (L "$$if BUTTONS then" ++ L "  unit main(output uint8 leds, input uint3 buttons) {" ++ L "$$else" ++ L "  unit main(output uint8 leds) {" ++ L "$$end" ++ L "  // ..." ++ L "}") = None) /\
  forall R, jumpOverUnit R (L "(input uint8 a)" ++ L "$$if A then" ++ L "{ a = 1; }") = None.
Proof. split; [intros [[] []] H; try discriminate; vm_compute; reflexivity|]. intros [[] []]; vm_compute; reflexivity. Qed.

(** * Names: the function is registered under the name written, with its insertions evaluated. *)
Inductive npart := NText (t : text) | NCode (c : text).
Definition npart_text (p : npart) : text := match p with NText t => t | NCode c => "$" :: c ++ ["$"] end.
Definition npart_ok (p : npart) : Prop :=
  match p with
  | NText t => t <> [] /\ (forall c, In c t -> ~ In c [" "; "009"; nl; "$"; quote; bslash])
  | NCode c => ins_ok c = true
  end.
Fixpoint parts_ok (l : list npart) : Prop :=
  match l with [] => True | p :: r => npart_ok p /\ match p, r with NText _, NText _ :: _ => False | _, _ => True end /\ parts_ok r end.
Definition npart_value (ev : text -> text) (p : npart) : text := match p with NText t => t | NCode c => ev c end.
(** An expression of Lua made of strings and parenthesised expressions joined by [..]. *)
Fixpoint lua_joined (fuel : nat) (s : text) : option (list atom * text) :=
  match fuel with
  | O => None
  | S f =>
      match lua_atom s with
      | None => None
      | Some (a, r) =>
          match expect (txt "..") r with
          | Some r1 => match lua_joined f r1 with Some (l, r2) => Some (a :: l, r2) | None => None end
          | None => Some ([a], r)
          end
      end
  end.
Definition npart_atom (p : npart) : atom := match p with NText t => Lit t | NCode c => Code c end.
Definition npart_lua (p : npart) : text := match p with NText t => quote :: t ++ [quote] | NCode c => txt "(" ++ c ++ txt ")" end.

Fixpoint joined (first : bool) (l : list npart) : text := match l with [] => [] | p :: r => (if first then [] else txt "..") ++ npart_lua p ++ joined false r end.
Lemma name_go R l : forall f first, parts_ok l -> length (concat (map npart_text l)) < f -> name_loop R f first (concat (map npart_text l)) = Some (joined first l).
Proof.
  induction l as [|p l IH]; intros f first OK L; (destruct f as [|f]; [lia|]); [reflexivity|]. cbn [parts_ok] in OK. destruct OK as (O & SE & OK). cbn [map concat joined] in *. rewrite app_length in L.
  set (r := concat (map npart_text l)) in *. destruct p as [t|c]; cbn [npart_text npart_ok npart_lua] in *.
  - destruct O as [NE W]. destruct t as [|c t]; [contradiction|]. cbn [app name_loop].
    assert (B : is_blank c = false) by (apply notblank; intros I; apply (W c); [now left|cbn in *; tauto]). rewrite peek by exact B.
    rewrite (proj2 (Ascii.eqb_neq c nl)) by (intros ->; apply (W nl); [now left|cbn; tauto]). rewrite (proj2 (Ascii.eqb_neq c "$")) by (intros ->; apply (W "$"); [now left|cbn; tauto]).
    unfold readString. rewrite skip_nonblank by exact B. change (c :: t ++ r) with ((c :: t) ++ r). rewrite span_all.
    + unfold r. rewrite IH; [|exact OK|fold r; cbn [length] in L; lia]. f_equal. f_equal. cbn [app]. now rewrite <- app_assoc.
    + apply forallb_forall. intros d I. specialize (W d I). apply negb_true_iff, orb_false_iff. split; [apply oneof_not; intros [<-|[]]; apply W; cbn; tauto|]. apply andb_false_iff. right. apply Ascii.eqb_neq. intros ->. apply W. cbn. tauto.
    + unfold r. destruct l as [|[t2|c2] l]; [exact I|contradiction|]. reflexivity.
  - destruct (ins_spec c O) as (d & r0 & EC & B & W & _). cbn [app name_loop]. rewrite peek by reflexivity. change (Ascii.eqb "$" nl) with false. change (Ascii.eqb "$" "$") with true. cbn iota. rewrite readc by reflexivity. cbn [snd].
    unfold readString. rewrite <- app_assoc. rewrite skip_nonblank by (rewrite EC; exact B). rewrite span_all.
    + cbn [app]. rewrite readc by reflexivity. cbn [snd]. unfold r. rewrite IH; [|exact OK|fold r; cbn [length] in L; lia]. f_equal. f_equal. cbn [txt list_ascii_of_string app]. rewrite <- app_assoc. reflexivity.
    + apply forallb_forall. intros x I. specialize (W x I). apply negb_true_iff, orb_false_iff. split; [apply oneof_not; intros [<-|[]]; apply W; cbn; tauto|]. apply andb_false_iff. right. apply Ascii.eqb_neq. intros ->. apply W. cbn. tauto.
    + reflexivity.
Qed.
Lemma lua_atom_part p s : npart_ok p -> lua_atom (npart_lua p ++ s) = Some (npart_atom p, s).
Proof.
  destruct p as [t|c]; cbn [npart_ok npart_lua npart_atom]; intros O.
  - destruct O as [_ W]. cbn [app lua_atom]. change (Ascii.eqb quote quote) with true. cbn iota. rewrite <- app_assoc. rewrite lua_plain.
    + cbn [app lua_string]. change (Ascii.eqb quote quote) with true. cbn iota. cbn [before]. now rewrite app_nil_r.
    + intros c I. specialize (W c I). repeat split; intros ->; apply W; cbn; tauto.
  - destruct (ins_spec c O) as (_ & _ & _ & _ & _ & CL). cbn [txt list_ascii_of_string app lua_atom]. change (Ascii.eqb "(" quote) with false. change (Ascii.eqb "(" "(") with true. cbn iota. rewrite <- app_assoc. cbn [app].
    rewrite (closed_paren c s); [reflexivity|exact CL|]. rewrite app_length. cbn [length]. lia.
Qed.
Lemma joined_read l : forall f s, parts_ok l -> l <> [] -> length l <= f -> expect (txt "..") s = None -> lua_joined f (joined true l ++ s) = Some (map npart_atom l, s).
Proof.
  induction l as [|p l IH]; intros f s OK NE L SE; [contradiction|]. destruct f as [|f]; [cbn in L; lia|]. cbn [parts_ok] in OK. destruct OK as (O & _ & OK). cbn [joined app]. rewrite <- app_assoc. cbn [lua_joined]. rewrite lua_atom_part by exact O.
  destruct l as [|p2 l]; [cbn [joined app]; rewrite SE; reflexivity|].
  assert (E : expect (txt "..") (joined false (p2 :: l) ++ s) = Some (joined true (p2 :: l) ++ s)) by reflexivity. rewrite E, IH; [reflexivity|exact OK|discriminate|cbn in *; lia|exact SE].
Qed.
Theorem C52_names R l : parts_ok l -> l <> [] -> exists e, nameToLua R (concat (map npart_text l)) = Some e /\ exists a, lua_joined (length l) e = Some (a, []) /\
  forall ev, atoms_value ev a = concat (map (npart_value ev) l).
Proof.
  intros OK NE. exists (joined true l). unfold nameToLua. rewrite name_go by (assumption || lia). split; [reflexivity|]. exists (map npart_atom l). split.
  - rewrite <- (app_nil_r (joined true l)). apply joined_read; auto.
  - intros ev. unfold atoms_value. rewrite map_map. f_equal. apply map_ext. now intros [].
Qed.
Print Assumptions C52_names.
Example C52_names_ex : parts_ok [NText (txt "main_"); NCode (txt "N+1"); NText (txt "_x")] /\ forall R, nameToLua R (txt "main_$N+1$_x") = Some (txt "'main_'..(N+1)..'_x'").
Proof. split; [|intros [[] []]; vm_compute; reflexivity]. cbn [parts_ok npart_ok]. repeat split; try discriminate; intros c; cbn; intuition (subst; discriminate). Qed.
