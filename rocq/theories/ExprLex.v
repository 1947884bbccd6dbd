(** The tokens of a written expression, and when a Verilog tool finds them again in the text. *)
From Coq Require Import String Ascii List Bool Arith NArith Lia.
From Verif Require Import LiteralModel ExprModel.
Import ListNotations.
Local Open Scope string_scope.
Local Open Scope list_scope.

(** Tokens of a tree. *)
Fixpoint vprint (v : vexpr) : list tok :=
  match v with
  | VWord s => [TWord s]
  | VIndex b e => vprint b ++ TOp "[" :: vprint e ++ [TOp "]"]
  | VSel b e n => vprint b ++ TOp "[" :: vprint e ++ [TOp "+:"; TWord n; TOp "]"]
  | VParen e => TOp "(" :: vprint e ++ [TOp ")"]
  | VCall f e => TWord f :: TOp "(" :: vprint e ++ [TOp ")"]
  | VCat a => TOp "{" :: vprint a ++ [TOp "}"]
  | VRep n c => TOp "{" :: TWord n :: vprint c ++ [TOp "}"]
  | VUn o a => TOp (utext o) :: vprint a
  | VBin o l r => vprint l ++ TOp (btext o) :: vprint r
  | VTern c a b => vprint c ++ TOp "?" :: vprint a ++ TOp ":" :: vprint b
  | VComma a b => vprint a ++ TOp "," :: vprint b
  end.

(** Text of a token; the question mark is written with spaces, src/Algorithm.cpp 1717-1720. *)
Definition tx (t : tok) : string :=
  match t with TWord s => s | TOp s => if String.eqb s "?" then " ? " else s end.
Fixpoint text (ts : list tok) : string := match ts with [] => "" | t :: r => (tx t ++ text r)%string end.

Lemma sapp_assoc : forall a b c : string, ((a ++ b) ++ c)%string = (a ++ b ++ c)%string.
Proof. induction a as [|x a IH]; intros b c; [reflexivity|]. cbn [append]. rewrite IH. reflexivity. Qed.
Lemma sapp_nil : forall a : string, (a ++ "")%string = a.
Proof. induction a as [|x a IH]; [reflexivity|]. cbn [append]. rewrite IH. reflexivity. Qed.

Lemma text_app : forall a b, text (a ++ b) = (text a ++ text b)%string.
Proof. induction a as [|t a IH]; intros b; [reflexivity|]. cbn [app text]. rewrite IH, sapp_assoc. reflexivity. Qed.

(** [write], with the suffixed writing on its own. *)
Fixpoint write_sfx (e : expr) (suffix : string) : string :=
  match e with
  | EId f s => (write_id f s ++ suffix)%string
  | EIndex b x => write_sfx b ("[" ++ write x ++ "]" ++ suffix)%string
  | _ => suffix
  end.

Lemma write_index : forall b x, write (EIndex b x) = write_sfx b ("[" ++ write x ++ "]")%string.
Proof. reflexivity. Qed.
Lemma write_select : forall b x n, write (ESelect b x n) = write_sfx b ("[" ++ write x ++ "+:" ++ n ++ "]")%string.
Proof. reflexivity. Qed.
Lemma write_field : forall sg b off w, write (EField sg b off w) =
  ((if sg then "$signed(" else "") ++ write_sfx b ("[" ++ off ++ "+:" ++ w ++ "]") ++ (if sg then ")" else ""))%string.
Proof. reflexivity. Qed.
Lemma write_fieldsel : forall sg b x off n, write (EFieldSel sg b x off n) =
  ((if sg then "$signed(" else "") ++ write_sfx b ("[" ++ ("((" ++ write x ++ ")+(" ++ off ++ "))") ++ "+:" ++ n ++ "]")
      ++ (if sg then ")" else ""))%string.
Proof. reflexivity. Qed.

Lemma sfx_plain : forall b s, plain b -> write_sfx b s = (write b ++ s)%string.
Proof. intros b s H. destruct b; try contradiction. reflexivity. Qed.
Lemma sfx_base : forall b s, base b -> der b -> write_sfx b s = (write b ++ s)%string.
Proof.
  intros b s H D. destruct b; try contradiction; [reflexivity|].
  cbn [der] in D. destruct D as (P & _). cbn [write_sfx]. rewrite write_index, !sfx_plain by exact P.
  rewrite !sapp_assoc. reflexivity.
Qed.

Lemma tx_b : forall o, tx (TOp (btext o)) = btext o. Proof. destruct o; reflexivity. Qed.
Lemma tx_u : forall o, tx (TOp (utext o)) = utext o. Proof. destruct o; reflexivity. Qed.

(** What is written is the text of the tokens of the tree. *)
Theorem write_text : forall e, der e -> write e = text (vprint (tr e)).
Proof.
  assert (W : forall s, text [TWord s] = s) by (intro s; cbn [text tx]; apply sapp_nil).
  induction e; intros D; cbn [der] in D.
  - cbn [tr vprint]. rewrite W. reflexivity.
  - cbn [tr write]. unfold write_number. destruct neg; cbn [vprint utext]; [|rewrite W; reflexivity].
    change (text (TOp "-" :: ?l)) with ("-" ++ text l)%string. cbn [vprint].
    change (text (TOp "-" :: [TWord (to_string w ++ "'" ++ String b v)%string])) with ("-" ++ text [TWord (to_string w ++ "'" ++ String b v)%string])%string.
    rewrite W. reflexivity.
  - cbn [tr write]. destruct f; cbn [tr_id write_id vprint app]; [rewrite W; reflexivity| |];
      cbn [text tx String.eqb Ascii.eqb Bool.eqb]; rewrite ?sapp_nil; reflexivity.
  - cbn [tr vprint write]. rewrite W. reflexivity.
  - cbn [tr write]. exact (IHe (proj2 D)).
  - cbn [tr write vprint]. rewrite (IHe (proj2 D)). cbn [text]. rewrite text_app. reflexivity.
  - cbn [tr write vprint]. rewrite (IHe (proj2 D)). cbn [text]. rewrite text_app. reflexivity.
  - cbn [tr write vprint]. rewrite (IHe (proj2 D)). cbn [text]. rewrite text_app. reflexivity.
  - cbn [tr write vprint app text tx]. rewrite ?sapp_nil. reflexivity.
  - cbn [tr write vprint app text tx]. rewrite ?sapp_nil. reflexivity.
  - cbn [tr write vprint]. rewrite (IHe D). cbn [text]. rewrite text_app. reflexivity.
  - cbn [tr write vprint]. rewrite (IHe (proj2 (proj2 D))). cbn [text]. rewrite text_app. reflexivity.
  - destruct D as (P & D1 & _ & D2). rewrite write_index, sfx_plain by exact P. rewrite (IHe1 D1), (IHe2 D2). cbn [tr vprint].
    rewrite text_app. cbn [text]. rewrite text_app. reflexivity.
  - destruct D as (P & D1 & _ & D2 & _). rewrite write_select, sfx_base by assumption. rewrite (IHe1 D1), (IHe2 D2). cbn [tr vprint].
    rewrite text_app. cbn [text]. rewrite text_app. cbn [text]. rewrite sapp_nil. reflexivity.
  - destruct D as (P & D1 & _). rewrite write_field, sfx_base by assumption. rewrite (IHe D1). cbn [tr]. destruct sg; cbn [signed_if].
    + repeat (rewrite !text_app || cbn [text vprint app]). rewrite ?sapp_nil. cbn [tx]. rewrite ?sapp_assoc. cbn [append]. rewrite ?sapp_assoc, ?sapp_nil. reflexivity.
    + repeat (rewrite !text_app || cbn [text vprint app]). rewrite ?sapp_nil. cbn [tx]. rewrite ?sapp_assoc. cbn [append]. rewrite ?sapp_assoc, ?sapp_nil. reflexivity.
  - destruct D as (P & D1 & _ & D2 & _). rewrite write_fieldsel, sfx_base by assumption. rewrite (IHe1 D1), (IHe2 D2). cbn [tr].
    destruct sg; cbn [signed_if vprint text btext app].
    + repeat (rewrite !text_app || cbn [text vprint app]). rewrite ?sapp_nil. cbn [tx]. rewrite ?sapp_assoc. cbn [append]. rewrite ?sapp_assoc, ?sapp_nil. reflexivity.
    + repeat (rewrite !text_app || cbn [text vprint app]). rewrite ?sapp_nil. cbn [tx]. rewrite ?sapp_assoc. cbn [append]. rewrite ?sapp_assoc, ?sapp_nil. reflexivity.
  - cbn [tr write vprint text]. rewrite (IHe (proj2 D)), tx_u. reflexivity.
  - destruct D as (_ & D1 & _ & D2). cbn [tr write vprint]. rewrite (IHe1 D1), (IHe2 D2), text_app. cbn [text]. rewrite tx_b. reflexivity.
  - destruct D as (_ & D1 & _ & D2 & _ & D3). cbn [tr write vprint]. rewrite (IHe1 D1), (IHe2 D2), (IHe3 D3), text_app. cbn [text]. rewrite text_app. reflexivity.
  - destruct D as (_ & D1 & D2). cbn [tr write vprint]. rewrite (IHe1 D1), (IHe2 D2), text_app. reflexivity.
Qed.

(** * Lexical analysis *)

Definition tok_ok (t : tok) : Prop :=
  match t with
  | TWord s => word s
  | TOp s => In s ["("; ")"; "["; "]"; "{"; "}"; ","; ":"; "?"; "+:"] \/ (exists o, s = btext o) \/ (exists o, s = utext o)
  end.

(** First character written for a token. *)
Definition fst_char (t : tok) : ascii := match tx t with String c _ => c | EmptyString => " "%char end.
Definition joins (sv : bool) (t1 t2 : tok) : bool := ext sv t1 (fst_char t2).
Fixpoint chain (sv : bool) (ts : list tok) : Prop :=
  match ts with
  | t1 :: r => match r with t2 :: _ => joins sv t1 t2 = false | [] => True end /\ chain sv r
  | [] => True
  end.

Definition stops (sv : bool) (t : tok) (s : string) : bool := match s with String c _ => negb (ext sv t c) | EmptyString => true end.

Lemma lex_flush : forall sv t s, stops sv t s = true -> lex sv (Some t) s = emit (Some t) (lex sv None s).
Proof.
  intros sv t [|c s] H; [reflexivity|]. cbn [stops] in H. apply negb_true_iff in H. cbn [lex]. rewrite H.
  destruct (Ascii.eqb c " "); [destruct (lex sv None s); reflexivity|].
  destruct (wordc c); [destruct (lex sv (Some (TWord (String c ""))) s); reflexivity|].
  destruct (is_op sv (String c "")); [destruct (lex sv (Some (TOp (String c ""))) s); reflexivity|reflexivity].
Qed.

Lemma lex_word_run : forall sv w a s, all_chars wordc w = true -> lex sv (Some (TWord a)) (w ++ s) = lex sv (Some (TWord (a ++ w))) s.
Proof.
  intros sv. induction w as [|c w IH]; intros a s H; [rewrite sapp_nil; reflexivity|].
  cbn [all_chars] in H. apply andb_true_iff in H. destruct H as [Hc H]. cbn [append lex ext]. rewrite Hc. cbn [grow].
  rewrite IH by exact H. rewrite sapp_assoc. reflexivity.
Qed.

Lemma wordc_space : wordc " " = false. Proof. reflexivity. Qed.

(** A token is read when started, up to its end. *)
Lemma lex_tok : forall sv t s, tok_ok t -> t <> TOp "?" -> lex sv None (tx t ++ s) = lex sv (Some t) s.
Proof.
  intros sv [w|o] s H Q.
  - destruct H as [N H]. cbn [tx]. destruct w as [|c w]; [congruence|]. cbn [all_chars] in H. apply andb_true_iff in H. destruct H as [Hc H].
    cbn [append lex emit]. destruct (Ascii.eqb_spec c " ") as [E|E]; [subst c; rewrite wordc_space in Hc; discriminate|].
    rewrite Hc. rewrite lex_word_run by exact H. cbn [append]. destruct (lex sv (Some (TWord (String c w))) s); reflexivity.
  - destruct H as [H|[[b H]|[u H]]].
    + cbn [In] in H. destruct sv; repeat (destruct H as [H|H]; [subst o; try congruence; cbn; match goal with |- _ = ?x => destruct x end; reflexivity|]); contradiction.
    + subst o. destruct sv, b; cbn; match goal with |- _ = ?x => destruct x end; reflexivity.
    + subst o. destruct sv, u; cbn; match goal with |- _ = ?x => destruct x end; reflexivity.
Qed.

Lemma lex_question : forall sv s, lex sv None (" ? " ++ s) = emit (Some (TOp "?")) (lex sv None s).
Proof. intros [|] s; cbn; destruct (lex _ None s); reflexivity. Qed.

Lemma ext_space : forall sv t, tok_ok t -> ext sv t " " = false.
Proof.
  intros sv [w|o] H; [reflexivity|]. destruct H as [H|[[b H]|[u H]]].
  - cbn [In] in H. destruct sv; repeat (destruct H as [H|H]; [subst o; reflexivity|]); contradiction.
  - subst o. destruct sv, b; reflexivity.
  - subst o. destruct sv, u; reflexivity.
Qed.

Lemma tx_first : forall t s, tok_ok t -> exists r, (tx t ++ s)%string = String (fst_char t) r.
Proof.
  intros [w|o] s H.
  - destruct H as [N _]. unfold fst_char. cbn [tx]. destruct w as [|c w]; [congruence|]. eexists. reflexivity.
  - destruct H as [H|[[b H]|[u H]]].
    + cbn [In] in H. repeat (destruct H as [H|H]; [subst o; eexists; reflexivity|]); contradiction.
    + subst o. destruct b; eexists; reflexivity.
    + subst o. destruct u; eexists; reflexivity.
Qed.

Lemma question_dec : forall t : tok, {t = TOp "?"} + {t <> TOp "?"}.
Proof. intros [w|o]; [right; discriminate|]. destruct (string_dec o "?") as [->|N]; [left; reflexivity|right; congruence]. Qed.

(** The tokens are found again if and only if no two of them join. *)
Definition len (t : tok) : nat := match t with TWord s | TOp s => String.length s end.
Lemma length_snoc : forall (s : string) c, String.length (s ++ String c "") = S (String.length s).
Proof. induction s as [|x s IH]; intro c; [reflexivity|]. cbn [append String.length]. rewrite IH. reflexivity. Qed.
Lemma lex_longer : forall sv s t l, lex sv (Some t) s = Some l -> exists t' r, l = t' :: r /\ len t <= len t'.
Proof.
  intros sv. induction s as [|c s IH]; intros t l H.
  - cbn in H. injection H as <-. exists t, []. split; [reflexivity|lia].
  - cbn [lex] in H. destruct (ext sv t c).
    + apply IH in H. destruct H as (t' & r & E & L). exists t', r. split; [exact E|].
      destruct t; cbn [grow len] in L; rewrite length_snoc in L; cbn [len]; lia.
    + match type of H with emit _ ?z = _ => destruct z as [y|]; [|discriminate H] end. injection H as <-. exists t, y. split; [reflexivity|lia].
Qed.

Theorem lex_iff : forall sv ts, Forall tok_ok ts -> (lex sv None (text ts) = Some ts <-> chain sv ts).
Proof.
  intros sv. induction ts as [|t ts IH]; intros F; [split; intros; [exact I|reflexivity]|].
  inversion F as [|? ? Ft Fs]; subst. specialize (IH Fs). cbn [text chain].
  assert (G : stops sv t (text ts) = true -> forall x, emit (Some t) (lex sv None (text ts)) = Some (t :: x) <-> lex sv None (text ts) = Some x).
  { intros _ x. destruct (lex sv None (text ts)); cbn [emit]; split; intro E; try discriminate; injection E as <-; reflexivity. }
  assert (J : stops sv t (text ts) = true <-> match ts with t2 :: _ => joins sv t t2 = false | [] => True end).
  { destruct ts as [|t2 r]; [split; intros; [exact I|reflexivity]|]. inversion Fs as [|? ? F2 Fr]; subst. cbn [text].
    destruct (tx_first t2 (text r) F2) as [q E]. rewrite E. cbn [stops]. unfold joins. rewrite negb_true_iff. reflexivity. }
  destruct (question_dec t) as [->|Q].
  - change (tx (TOp "?")) with " ? ". rewrite lex_question.
    assert (S : stops sv (TOp "?") (text ts) = true).
    { apply J. destruct ts as [|t2 r]; [exact I|]. inversion Fs as [|? ? F2 Fr]; subst. unfold joins. clear - F2.
      assert (C : forall c, ext sv (TOp "?") c = false) by (intro c; destruct c as [[] [] [] [] [] [] [] []], sv; reflexivity). apply C. }
    rewrite (G S ts). rewrite IH. tauto.
  - rewrite lex_tok by assumption. destruct (stops sv t (text ts)) eqn:S.
    + rewrite lex_flush by exact S. rewrite (G eq_refl ts), IH. tauto.
    + split.
      * intro H. exfalso. destruct (text ts) as [|c s]; [discriminate S|]. cbn [stops] in S. apply negb_false_iff in S. cbn [lex] in H. rewrite S in H.
        apply lex_longer in H. destruct H as (t' & r & E & L). injection E as <- _. destruct t; cbn [grow len] in L; rewrite length_snoc in L; cbn [len] in L; lia.
      * intros [H _]. apply J in H. discriminate H.
Qed.
