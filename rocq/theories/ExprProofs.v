(** The text of an expression is read as its tree if and only if no operators join and no conditional operators follow one another. *)
From Coq Require Import String Ascii List Bool Arith NArith Lia.
From Verif Require Import LiteralModel LiteralProofs ExprModel ExprLex ExprParse.
Import ListNotations.
Local Open Scope string_scope.
Local Open Scope list_scope.

(** * Words *)
Lemma digit_word : forall c, digitb c = true -> wordc c = true.
Proof.
  intros c H. unfold digitb in H. unfold wordc. apply andb_true_iff in H. destruct H as [A B]. rewrite A, B. cbn [andb].
  rewrite !orb_true_r. reflexivity.
Qed.
Lemma all_chars_imp : forall (p q : ascii -> bool) s, (forall c, p c = true -> q c = true) -> all_chars p s = true -> all_chars q s = true.
Proof.
  intros p q s I. induction s as [|c s IH]; [reflexivity|]. cbn [all_chars]. intro H. apply andb_true_iff in H. destruct H as [A B].
  rewrite (I c A), (IH B). reflexivity.
Qed.
Lemma all_chars_app : forall p a b, all_chars p (a ++ b) = all_chars p a && all_chars p b.
Proof. intros p. induction a as [|c a IH]; intro b; [reflexivity|]. cbn [append all_chars]. rewrite IH, andb_assoc. reflexivity. Qed.
Lemma number_word : forall n, word (to_string n).
Proof.
  intro n. split.
  - pose proof (to_string_nonempty n) as H. intro E. rewrite E in H. discriminate H.
  - exact (all_chars_imp digitb wordc _ digit_word (to_string_digits n)).
Qed.
Lemma sized_word : forall w b v, wordc b = true -> all_chars wordc v = true -> word (to_string w ++ "'" ++ String b v).
Proof.
  intros w b v B V. destruct (number_word w) as [N W]. split.
  - destruct (to_string w); [congruence|discriminate].
  - rewrite !all_chars_app, W. cbn [all_chars]. rewrite B, V. reflexivity.
Qed.
Lemma word_first : forall w, word w -> wordc (fst_char (TWord w)) = true.
Proof. intros w [N H]. unfold fst_char. cbn [tx]. destruct w as [|c w]; [congruence|]. cbn [all_chars] in H. apply andb_true_iff in H. tauto. Qed.

(** * Levels *)
Lemma access_13 : forall a, access a -> der a -> vl (tr a) = 13.
Proof. intros a H D. destruct a; try contradiction; cbn [tr]; try reflexivity; [destruct f; reflexivity| |]; destruct sg; reflexivity. Qed.

Lemma tr_level : forall e, der e -> (lvl e <= 12 -> vl (tr e) = lvl e) /\ (13 <= lvl e -> 12 <= vl (tr e)).
Proof.
  intros e D. destruct e; cbn [lvl tr vl]; try (split; intros; lia).
  - split; [intros; lia|]. destruct neg; cbn [vl]; lia.
  - split; [intros; lia|]. destruct f; cbn; lia.
  - cbn [der] in D. rewrite (access_13 e (proj1 D) (proj2 D)). split; intros; lia.
  - destruct sg; cbn; split; intros; lia.
  - destruct sg; cbn; split; intros; lia.
  - rewrite vprec_slevel. split; [reflexivity|]. intro H. pose proof (vprec_range o). rewrite vprec_slevel in *. lia.
Qed.
Lemma tr_level_ge : forall e k, der e -> k <= 12 -> k <= lvl e -> k <= vl (tr e).
Proof. intros e k D K L. destruct (tr_level e D) as [A B]. destruct (le_lt_dec (lvl e) 12) as [H|H]; [rewrite (A H)|specialize (B H)]; lia. Qed.

Lemma tr_plain : forall b, plain b -> vbase (tr b). Proof. intros b H. destruct b; try contradiction. destruct f; try contradiction. exact I. Qed.
Lemma tr_base : forall b, base b -> vbase (tr b). Proof. intros b H. destruct b; try contradiction; [destruct f; try contradiction|]; exact I. Qed.
Lemma plain_fits : forall b, plain b -> fits (tr b) /\ unchained b. Proof. intros b H. destruct b; try contradiction. destruct f; try contradiction. split; exact I. Qed.

Lemma slevel_range : forall o, 2 <= slevel o <= 11. Proof. destruct o; cbn; lia. Qed.

(** The tree of the grammar is one Verilog may read if and only if no conditional operator is chained. *)
Theorem fits_iff : forall e, der e -> (fits (tr e) <-> unchained e).
Proof.
  assert (T : True <-> True) by tauto.
  induction e; intros D; cbn [der] in D; cbn [tr fits unchained].
  - exact T.
  - destruct neg; cbn [fits vl]; [|exact T]. split; [intros _; exact I|intros _; split; [lia|exact I]].
  - destruct f; cbn [tr_id fits vl]; [exact T| |]; (split; [intros _; exact I|intros _; split; [lia|exact I]]).
  - exact T.
  - exact (IHe (proj2 D)).
  - destruct D as (L & D). rewrite (IHe D). pose proof (tr_level_ge e 1 D ltac:(lia) L). tauto.
  - destruct D as (L & D). rewrite (IHe D). pose proof (tr_level_ge e 1 D ltac:(lia) L). tauto.
  - destruct D as (L & D). rewrite (IHe D). pose proof (tr_level_ge e 1 D ltac:(lia) L). tauto.
  - split; [intros _; exact I|intros _; split; [cbn; lia|exact I]].
  - split; [intros _; exact I|intros _; split; [cbn; lia|exact I]].
  - exact (IHe D).
  - destruct D as (_ & B & D). rewrite (IHe D). split; [tauto|]. intro U. split; [|exact U]. destruct e; try contradiction; exact I.
  - destruct D as (P & D1 & L & D2). rewrite (IHe1 D1), (IHe2 D2). pose proof (tr_level_ge e2 1 D2 ltac:(lia) L). pose proof (tr_plain e1 P). tauto.
  - destruct D as (P & D1 & L & D2 & _). rewrite (IHe1 D1), (IHe2 D2). pose proof (tr_level_ge e2 1 D2 ltac:(lia) L). pose proof (tr_base e1 P). tauto.
  - destruct D as (P & D1 & _). pose proof (tr_base e P). specialize (IHe D1).
    destruct sg; cbn [signed_if fits vl]; rewrite IHe; split; try tauto; intro U; repeat split; try assumption; lia.
  - destruct D as (P & D1 & L & D2 & _). pose proof (tr_base e1 P). pose proof (tr_level_ge e2 1 D2 ltac:(lia) L). specialize (IHe1 D1). specialize (IHe2 D2).
    assert (V : vprec Add = 10) by reflexivity.
    destruct sg; cbn [signed_if fits vl]; rewrite IHe1, IHe2, ?V; split; try tauto; intros [U1 U2]; repeat split; try assumption; lia.
  - destruct D as (L & D). rewrite (IHe D). destruct (tr_level e D) as [_ L2]. specialize (L2 L). tauto.
  - destruct D as (L1 & D1 & L2 & D2). rewrite (IHe1 D1), (IHe2 D2), vprec_slevel. pose proof (slevel_range o) as R.
    pose proof (tr_level_ge e1 (slevel o) D1 ltac:(lia) L1). pose proof (tr_level_ge e2 (S (slevel o)) D2 ltac:(lia) L2). tauto.
  - destruct D as (L1 & D1 & L2 & D2 & L3 & D3). rewrite (IHe1 D1), (IHe2 D2), (IHe3 D3).
    pose proof (tr_level_ge e2 1 D2 ltac:(lia) L2). pose proof (tr_level_ge e3 1 D3 ltac:(lia) ltac:(lia)).
    assert (C : 2 <= vl (tr e1) <-> match e1 with ETern _ _ _ => False | _ => True end).
    { destruct (tr_level e1 D1) as [A B]. split.
      - intro G. destruct e1; try exact I. cbn in G. lia.
      - intro G. destruct (le_lt_dec (lvl e1) 12) as [X|X]; [|specialize (B X); lia]. rewrite (A X).
        destruct e1; cbn [lvl] in *; try contradiction; try lia. pose proof (slevel_range o). lia. }
    rewrite C. tauto.
  - destruct D as (L1 & D1 & D2). rewrite (IHe1 D1), (IHe2 D2). pose proof (tr_level_ge e1 1 D1 ltac:(lia) L1). tauto.
Qed.

(** * Tokens *)
Ltac op_in := left; cbn; tauto.
Lemma okb : forall o, tok_ok (TOp (btext o)). Proof. intro o. right. left. exists o. reflexivity. Qed.
Lemma oku : forall o, tok_ok (TOp (utext o)). Proof. intro o. right. right. exists o. reflexivity. Qed.
Lemma okp : forall s, In s ["("; ")"; "["; "]"; "{"; "}"; ","; ":"; "?"; "+:"] -> tok_ok (TOp s). Proof. intros s H. left. exact H. Qed.
Lemma ok_signed : tok_ok (TWord "$signed"). Proof. split; [discriminate|reflexivity]. Qed.
Lemma ok_unsigned : tok_ok (TWord "$unsigned"). Proof. split; [discriminate|reflexivity]. Qed.

Ltac toks := repeat first
  [ assumption
  | apply Forall_nil
  | apply Forall_app; split
  | apply Forall_cons
  | apply okb | apply oku | apply ok_signed | apply ok_unsigned
  | apply okp; cbn; tauto
  | apply number_word
  | apply sized_word; tauto
  | match goal with H : word ?s |- tok_ok (TWord ?s) => exact H end
  | match goal with H : _ /\ _ |- _ => destruct H end
  | exact (okb Add) ].

Lemma toks_ok : forall e, der e -> Forall tok_ok (vprint (tr e)).
Proof.
  induction e; intros D; cbn [der] in D; cbn [tr].
  - cbn [vprint]. toks.
  - destruct neg; cbn [vprint]; toks.
  - destruct f; cbn [tr_id vprint app]; toks.
  - cbn [vprint]. toks.
  - tauto.
  - pose proof (IHe (proj2 D)). cbn [vprint]. toks.
  - pose proof (IHe (proj2 D)). cbn [vprint]. toks.
  - pose proof (IHe (proj2 D)). cbn [vprint]. toks.
  - cbn [vprint app]. toks.
  - cbn [vprint app]. toks.
  - pose proof (IHe D). cbn [vprint]. toks.
  - destruct D as (N & B & D). pose proof (IHe D). cbn [vprint]. toks.
  - destruct D as (P & D1 & _ & D2). pose proof (IHe1 D1). pose proof (IHe2 D2). cbn [vprint]. toks.
  - destruct D as (P & D1 & _ & D2 & N). pose proof (IHe1 D1). pose proof (IHe2 D2). cbn [vprint]. toks.
  - destruct D as (P & D1 & N1 & N2). pose proof (IHe D1). destruct sg; cbn [signed_if vprint app]; toks.
  - destruct D as (P & D1 & _ & D2 & N1 & N2). pose proof (IHe1 D1). pose proof (IHe2 D2). destruct sg; cbn [signed_if vprint app]; toks.
  - pose proof (IHe (proj2 D)). cbn [vprint]. toks.
  - destruct D as (_ & D1 & _ & D2). pose proof (IHe1 D1). pose proof (IHe2 D2). cbn [vprint]. toks.
  - destruct D as (_ & D1 & _ & D2 & _ & D3). pose proof (IHe1 D1). pose proof (IHe2 D2). pose proof (IHe3 D3). cbn [vprint]. toks.
  - destruct D as (_ & D1 & D2). pose proof (IHe1 D1). pose proof (IHe2 D2). cbn [vprint]. toks.
Qed.

(** * Which tokens join *)
Lemma is_op_chars : forall sv s, is_op sv s = true -> all_chars (fun c => negb (wordc c)) s = true.
Proof.
  intros sv s H. assert (I : In s (ops ++ sv_ops)).
  { unfold is_op in H. apply orb_true_iff in H. apply in_or_app. destruct H as [H|H]; [left|right].
    - apply existsb_exists in H. destruct H as (x & I & E). apply String.eqb_eq in E. subst x. exact I.
    - apply andb_true_iff in H. destruct H as [_ H]. apply existsb_exists in H. destruct H as (x & I & E). apply String.eqb_eq in E. subst x. exact I. }
  assert (F : forallb (all_chars (fun c => negb (wordc c))) (ops ++ sv_ops) = true) by reflexivity.
  rewrite forallb_forall in F. exact (F s I).
Qed.

Lemma op_word : forall sv o w, word w -> joins sv (TOp o) (TWord w) = false.
Proof.
  intros sv o w W. unfold joins. cbn [ext]. destruct (is_op sv (o ++ String (fst_char (TWord w)) "")) eqn:E; [|reflexivity].
  apply is_op_chars in E. rewrite all_chars_app in E. apply andb_true_iff in E. destruct E as [_ E]. cbn [all_chars] in E.
  rewrite (word_first w W) in E. discriminate E.
Qed.
Lemma word_op : forall sv w s, tok_ok (TOp s) -> joins sv (TWord w) (TOp s) = false.
Proof.
  intros sv w s [H|[[o ->]|[o ->]]].
  - cbn [In] in H. repeat (destruct H as [H|H]; [subst s; reflexivity|]). contradiction.
  - destruct o; reflexivity.
  - destruct o; reflexivity.
Qed.
Definition closer (s : string) : Prop := In s [")"; "]"; "}"; "("; "["; "{"; ","; "?"].
Lemma closer_joins : forall sv s t, closer s -> joins sv (TOp s) t = false.
Proof.
  intros sv s t H. unfold joins. generalize (fst_char t). intro c. unfold closer in H. cbn [In] in H.
  repeat (destruct H as [H|H]; [subst s; destruct sv; reflexivity|]). contradiction.
Qed.
Lemma b_joins_u : forall sv o u, joins sv (TOp (btext o)) (TOp (utext u)) = clash sv o u.
Proof. intros [] o u; destruct o, u; reflexivity. Qed.
Lemma u_joins_minus : forall sv o, joins sv (TOp (utext o)) (TOp "-") = match o with Neg => sv | _ => false end.
Proof. intros [] o; destruct o; reflexivity. Qed.
Lemma b_joins_open : forall sv o s, s = "(" \/ s = "{" -> joins sv (TOp (btext o)) (TOp s) = false.
Proof. intros [] o s [->| ->]; destruct o; reflexivity. Qed.
Lemma u_joins_open : forall sv o s, s = "(" \/ s = "{" -> joins sv (TOp (utext o)) (TOp s) = false.
Proof. intros [] o s [->| ->]; destruct o; reflexivity. Qed.
Lemma colon_open : forall sv s, s = "(" \/ s = "{" -> joins sv (TOp ":") (TOp s) = false.
Proof. intros [] s [->| ->]; reflexivity. Qed.
Lemma colon_u : forall sv u, joins sv (TOp ":") (TOp (utext u)) = false.
Proof. intros [] []; reflexivity. Qed.

(** The first token of an expression. *)
Definition head_ok (u : option uop) (t : tok) : Prop :=
  match u with Some o => t = TOp (utext o) | None => (exists w, t = TWord w /\ word w) \/ t = TOp "(" \/ t = TOp "{" end.
Lemma first_tr : forall e, der e -> exists t r, vprint (tr e) = t :: r /\ head_ok (lead e) t.
Proof.
  assert (W : forall w r, word w -> exists t r', TWord w :: r = t :: r' /\ head_ok None t).
  { intros w r H. exists (TWord w), r. split; [reflexivity|]. left. exists w. split; [reflexivity|exact H]. }
  assert (O : forall s r, s = "(" \/ s = "{" -> exists t r', TOp s :: r = t :: r' /\ head_ok None t).
  { intros s r H. exists (TOp s), r. split; [reflexivity|]. right. destruct H as [->| ->]; [left|right]; reflexivity. }
  assert (B : forall e r, base e -> der e -> (exists t r', vprint (tr e) = t :: r' /\ head_ok (lead e) t) -> exists t r', vprint (tr e) ++ r = t :: r' /\ head_ok None t).
  { intros e r H _ (t & r' & E & K). rewrite E. exists t, (r' ++ r). split; [reflexivity|]. destruct e; try contradiction; exact K. }
  induction e; intros D; cbn [der] in D; cbn [tr vprint lead].
  - apply W. exact D.
  - destruct neg; cbn [vprint]; [exists (TOp "-"), [TWord (to_string w ++ "'" ++ String b v)%string]; split; reflexivity|]. apply W. apply sized_word; tauto.
  - destruct f; cbn [tr_id vprint app]; [apply W; exact D|apply W; exact ok_signed|apply W; exact ok_unsigned].
  - apply W. apply number_word.
  - destruct D as (A & D). destruct (IHe D) as (t & r & E & H). exists t, r. split; [exact E|]. destruct e; try contradiction; exact H.
  - apply O. tauto.
  - apply W. exact ok_signed.
  - apply W. exact ok_unsigned.
  - apply O. tauto.
  - apply O. tauto.
  - apply O. tauto.
  - apply O. tauto.
  - destruct D as (P & D1 & _). apply B; [destruct e1; try contradiction; exact P|exact D1|exact (IHe1 D1)].
  - destruct D as (P & D1 & _). apply B; [exact P|exact D1|exact (IHe1 D1)].
  - destruct D as (P & D1 & _). destruct sg; cbn [signed_if vprint]; [apply W; exact ok_signed|]. apply B; [exact P|exact D1|exact (IHe D1)].
  - destruct D as (P & D1 & _). destruct sg; cbn [signed_if vprint]; [apply W; exact ok_signed|]. apply B; [exact P|exact D1|exact (IHe1 D1)].
  - exists (TOp (utext o)), (vprint (tr e)). split; reflexivity.
  - destruct D as (_ & D1 & _). destruct (IHe1 D1) as (t & r & E & H). rewrite E. eexists t, _. split; [reflexivity|exact H].
  - destruct D as (_ & D1 & _). destruct (IHe1 D1) as (t & r & E & H). rewrite E. eexists t, _. split; [reflexivity|exact H].
  - destruct D as (_ & D1 & _). destruct (IHe1 D1) as (t & r & E & H). rewrite E. eexists t, _. split; [reflexivity|exact H].
Qed.

(** The last token of a tree. *)
Definition tail_ok (t : tok) : Prop := match t with TWord _ => True | TOp s => closer s end.
Lemma last_v : forall v, exists l t, vprint v = l ++ [t] /\ tail_ok t.
Proof.
  assert (A : forall (x : list tok) s, closer s -> exists l t, x ++ [TOp s] = l ++ [t] /\ tail_ok t) by (intros x s H; exists x, (TOp s); split; [reflexivity|exact H]).
  assert (B : forall (x : list tok) v, (exists l t, vprint v = l ++ [t] /\ tail_ok t) -> exists l t, x ++ vprint v = l ++ [t] /\ tail_ok t).
  { intros x v (l & t & E & H). exists (x ++ l), t. rewrite E, app_assoc. split; [reflexivity|exact H]. }
  assert (C : closer ")" /\ closer "]" /\ closer "}") by (unfold closer; cbn; tauto). destruct C as (C1 & C2 & C3).
  induction v; cbn [vprint].
  - exists [], (TWord s). split; [reflexivity|exact I].
  - rewrite app_comm_cons, app_assoc. apply A. exact C2.
  - change [TOp "+:"; TWord n; TOp "]"] with ([TOp "+:"; TWord n] ++ [TOp "]"]). rewrite app_comm_cons, app_assoc, app_assoc. apply A. exact C2.
  - rewrite app_comm_cons. apply A. exact C1.
  - rewrite app_comm_cons, app_comm_cons. apply A. exact C1.
  - rewrite app_comm_cons. apply A. exact C3.
  - rewrite app_comm_cons, app_comm_cons. apply A. exact C3.
  - apply (B [TOp (utext o)]). exact IHv.
  - change (TOp (btext o) :: vprint v2) with ([TOp (btext o)] ++ vprint v2). rewrite app_assoc. apply B. exact IHv2.
  - change (TOp ":" :: vprint v3) with ([TOp ":"] ++ vprint v3). rewrite app_comm_cons, app_assoc, app_assoc. apply B. exact IHv3.
  - change (TOp "," :: vprint v2) with ([TOp ","] ++ vprint v2). rewrite app_assoc. apply B. exact IHv2.
Qed.

(** * Chains of tokens *)
Lemma chain_cut : forall sv l t s r, chain sv ((l ++ [t]) ++ TOp s :: r) <-> chain sv (l ++ [t]) /\ joins sv t (TOp s) = false /\ chain sv (TOp s :: r).
Proof.
  intros sv. induction l as [|x l IH]; intros t s r.
  - cbn [app chain]. tauto.
  - specialize (IH t s r). cbn [app chain] in *. destruct l as [|y l]; cbn [app] in *.
    + cbn [chain] in *. tauto.
    + rewrite IH. tauto.
Qed.
Lemma chain_then : forall sv v s r, tok_ok (TOp s) -> (chain sv (vprint v ++ TOp s :: r) <-> chain sv (vprint v) /\ chain sv (TOp s :: r)).
Proof.
  intros sv v s r O. destruct (last_v v) as (l & t & E & H). rewrite E, chain_cut.
  assert (J : joins sv t (TOp s) = false) by (destruct t as [w|o]; [apply word_op; exact O|apply closer_joins; exact H]). tauto.
Qed.
Lemma chain_open : forall sv s r, closer s -> (chain sv (TOp s :: r) <-> chain sv r).
Proof. intros sv s r H. cbn [chain]. split; [tauto|]. intro C. split; [|exact C]. destruct r; [exact I|]. apply closer_joins. exact H. Qed.
Lemma chain_word : forall sv w s r, tok_ok (TOp s) -> (chain sv (TWord w :: TOp s :: r) <-> chain sv (TOp s :: r)).
Proof. intros sv w s r H. cbn [chain]. pose proof (word_op sv w s H). tauto. Qed.
Lemma chain_op_word : forall sv o w r, word w -> (chain sv (TOp o :: TWord w :: r) <-> chain sv (TWord w :: r)).
Proof. intros sv o w r H. pose proof (op_word sv o w H). cbn [chain]. tauto. Qed.
Lemma chain_colon : forall sv e r, der e -> (chain sv (TOp ":" :: vprint (tr e) ++ r) <-> chain sv (vprint (tr e) ++ r)).
Proof.
  intros sv e r D. destruct (first_tr e D) as (t & q & E & H). rewrite E. cbn [app]. change (chain sv (TOp ":" :: t :: q ++ r)) with (joins sv (TOp ":") t = false /\ chain sv (t :: q ++ r)).
  assert (J : joins sv (TOp ":") t = false); [|tauto]. destruct (lead e); cbn [head_ok] in H; [subst t; apply colon_u|].
  destruct H as [(w & -> & W)|[->| ->]]; [apply op_word; exact W| |]; apply colon_open; tauto.
Qed.
Lemma chain_binary : forall sv o e, der e -> (chain sv (TOp (btext o) :: vprint (tr e)) <->
  match lead e with Some u => clash sv o u = false | None => True end /\ chain sv (vprint (tr e))).
Proof.
  intros sv o e D. destruct (first_tr e D) as (t & q & E & H). rewrite E. change (chain sv (TOp (btext o) :: t :: q)) with (joins sv (TOp (btext o)) t = false /\ chain sv (t :: q)).
  destruct (lead e) as [u|]; cbn [head_ok] in H.
  - subst t. rewrite b_joins_u. reflexivity.
  - assert (J : joins sv (TOp (btext o)) t = false); [|tauto]. destruct H as [(w & -> & W)|[->| ->]]; [apply op_word; exact W| |]; apply b_joins_open; tauto.
Qed.
Lemma lead_atom : forall a, 13 <= lvl a -> lead a = None \/ lead a = Some Neg.
Proof. intros a H. destruct a; cbn [lvl] in H; try (left; reflexivity); try lia; [destruct neg; [right|left]; reflexivity|]. pose proof (slevel_range o). lia. Qed.
Lemma chain_unary : forall sv o e, der e -> 13 <= lvl e -> (chain sv (TOp (utext o) :: vprint (tr e)) <->
  (o = Neg -> lead e = Some Neg -> sv = false) /\ chain sv (vprint (tr e))).
Proof.
  intros sv o e D L. destruct (first_tr e D) as (t & q & E & H). rewrite E. change (chain sv (TOp (utext o) :: t :: q)) with (joins sv (TOp (utext o)) t = false /\ chain sv (t :: q)).
  destruct (lead_atom e L) as [A|A]; rewrite A in *; cbn [head_ok] in H.
  - assert (J : joins sv (TOp (utext o)) t = false). { destruct H as [(w & -> & W)|[->| ->]]; [apply op_word; exact W| |]; apply u_joins_open; tauto. }
    split; [|tauto]. intros [_ C]. split; [intros _ X; discriminate X|exact C].
  - subst t. change (utext Neg) with "-". rewrite u_joins_minus. destruct o; split; intros [X C]; (split; [|exact C]); try reflexivity; try (intros; discriminate); try (intros _ _; exact X); exact (X eq_refl eq_refl).
Qed.

Lemma chain_nil_word : forall sv w, chain sv [TWord w]. Proof. intros; cbn; tauto. Qed.

Lemma c1 : closer ")". Proof. unfold closer; cbn; tauto. Qed.
Lemma c2 : closer "(". Proof. unfold closer; cbn; tauto. Qed.
Lemma c3 : closer "[". Proof. unfold closer; cbn; tauto. Qed.
Lemma c4 : closer "]". Proof. unfold closer; cbn; tauto. Qed.
Lemma c5 : closer "{". Proof. unfold closer; cbn; tauto. Qed.
Lemma c6 : closer "}". Proof. unfold closer; cbn; tauto. Qed.
Lemma c7 : closer ",". Proof. unfold closer; cbn; tauto. Qed.
Lemma c8 : closer "?". Proof. unfold closer; cbn; tauto. Qed.
Ltac kt := apply okp; clear; cbn; tauto.
Ltac cl := first [exact c1|exact c2|exact c3|exact c4|exact c5|exact c6|exact c7|exact c8|clear; cbn; tauto].

Theorem chain_iff : forall sv e, der e -> (chain sv (vprint (tr e)) <-> apart sv e).
Proof.
  intros sv.
  assert (T : forall P : Prop, P -> (P <-> True)) by tauto.
  assert (Cl : forall s, closer s -> chain sv [TOp s]) by (intros; cbn; tauto).
  assert (Par : forall v s s', closer s -> closer s' -> In s' [")"; "]"; "}"] -> (chain sv (TOp s :: vprint v ++ [TOp s']) <-> chain sv (vprint v))).
  { intros v s s' H H' I. rewrite chain_open by exact H. rewrite chain_then by (apply okp; clear - I; cbn in I |- *; tauto). specialize (Cl s' H'). tauto. }
  assert (Sel : forall n, word n -> chain sv [TOp "+:"; TWord n; TOp "]"]).
  { intros n N. rewrite chain_op_word by exact N. rewrite chain_word by kt. apply Cl. exact c4. }
  assert (Call : forall f v, chain sv (TWord f :: TOp "(" :: vprint v ++ [TOp ")"]) <-> chain sv (vprint v)).
  { intros f v. rewrite chain_word by kt. apply Par; cl. }
  induction e; intros D; cbn [der] in D; cbn [tr apart].
  - apply T. apply chain_nil_word.
  - destruct neg; apply T; [|apply chain_nil_word]. cbn [vprint]. rewrite chain_op_word by (apply sized_word; tauto). apply chain_nil_word.
  - destruct f; apply T; cbn [tr_id]; [apply chain_nil_word| |].
    + cbn [vprint app]. change ([TWord "$signed"; TOp "("; TWord s; TOp ")"]) with (TWord "$signed" :: TOp "(" :: vprint (VWord s) ++ [TOp ")"]). apply Call. apply chain_nil_word.
    + cbn [vprint app]. change ([TWord "$unsigned"; TOp "("; TWord s; TOp ")"]) with (TWord "$unsigned" :: TOp "(" :: vprint (VWord s) ++ [TOp ")"]). apply Call. apply chain_nil_word.
  - apply T. apply chain_nil_word.
  - exact (IHe (proj2 D)).
  - cbn [vprint]. rewrite Par by cl. exact (IHe (proj2 D)).
  - cbn [vprint]. rewrite Call. exact (IHe (proj2 D)).
  - cbn [vprint]. rewrite Call. exact (IHe (proj2 D)).
  - apply T. apply (Par (VWord s) "(" ")"); [cl|cl|cl|apply chain_nil_word].
  - apply T. apply (Par (VWord s) "(" ")"); [cl|cl|cl|apply chain_nil_word].
  - cbn [vprint]. rewrite Par by cl. exact (IHe D).
  - destruct D as (N & B & D). cbn [vprint]. rewrite chain_open by exact c5.
    assert (H : exists q, vprint (tr e) = TOp "{" :: q) by (destruct e; try contradiction; cbn [tr vprint]; eexists; reflexivity). destruct H as [q H].
    rewrite <- (IHe D). rewrite H. cbn [app]. rewrite chain_word by kt.
    change (TOp "{" :: q ++ [TOp "}"]) with ((TOp "{" :: q) ++ [TOp "}"]). rewrite <- H. rewrite chain_then by kt. specialize (Cl "}" c6). tauto.
  - destruct D as (P & D1 & L & D2). cbn [vprint]. rewrite chain_then by kt. rewrite Par by cl. rewrite (IHe1 D1), (IHe2 D2). reflexivity.
  - destruct D as (P & D1 & L & D2 & N). cbn [vprint]. rewrite chain_then by kt. rewrite chain_open by exact c3. rewrite chain_then by kt.
    rewrite (IHe1 D1), (IHe2 D2). pose proof (Sel n N). tauto.
  - destruct D as (P & D1 & N1 & N2). specialize (IHe D1).
    assert (H : chain sv (vprint (VSel (tr e) (VWord off) w)) <-> apart sv e).
    { cbn [vprint]. rewrite chain_then by kt. rewrite chain_open by exact c3. cbn [app]. rewrite chain_word by kt. pose proof (Sel w N2). tauto. }
    destruct sg; cbn [signed_if]; [|exact H]. exact (iff_trans (Call "$signed" (VSel (tr e) (VWord off) w)) H).
  - destruct D as (P & D1 & _ & D2 & N1 & N2). specialize (IHe1 D1). specialize (IHe2 D2).
    assert (H : chain sv (vprint (VSel (tr e1) (VParen (VBin Add (VParen (tr e2)) (VParen (VWord off)))) n)) <-> apart sv e1 /\ apart sv e2).
    { cbn [vprint]. rewrite chain_then by kt. rewrite chain_open by exact c3.
      change (TOp "(" :: ((TOp "(" :: vprint (tr e2) ++ [TOp ")"]) ++ TOp (btext Add) :: TOp "(" :: [TWord off] ++ [TOp ")"]) ++ [TOp ")"])
        with (vprint (VParen (VBin Add (VParen (tr e2)) (VParen (VWord off))))).
      rewrite chain_then by kt. cbn [vprint].
      change ((TOp "(" :: vprint (tr e2) ++ [TOp ")"]) ++ TOp (btext Add) :: TOp "(" :: [TWord off] ++ [TOp ")"]) with (vprint (VBin Add (VParen (tr e2)) (VParen (VWord off)))).
      rewrite Par by cl. cbn [vprint]. change (TOp "(" :: vprint (tr e2) ++ [TOp ")"]) with (vprint (VParen (tr e2))).
      rewrite chain_then by (apply okb). cbn [vprint]. rewrite Par by cl.
      assert (Z : chain sv (TOp (btext Add) :: TOp "(" :: [TWord off] ++ [TOp ")"])).
      { split; [destruct sv; reflexivity|]. apply (Par (VWord off)); [cl|cl|cl|apply chain_nil_word]. }
      pose proof (Sel n N2). tauto. }
    destruct sg; cbn [signed_if]; [|exact H].
    exact (iff_trans (Call "$signed" (VSel (tr e1) (VParen (VBin Add (VParen (tr e2)) (VParen (VWord off)))) n)) H).
  - destruct D as (L & D). cbn [vprint]. rewrite chain_unary by assumption. rewrite (IHe D). tauto.
  - destruct D as (_ & D1 & _ & D2). cbn [vprint]. rewrite chain_then by apply okb. rewrite chain_binary by exact D2. rewrite (IHe1 D1), (IHe2 D2). tauto.
  - destruct D as (_ & D1 & _ & D2 & _ & D3). cbn [vprint]. rewrite chain_then by kt. rewrite chain_open by exact c8. rewrite chain_then by kt.
    pose proof (chain_colon sv e3 [] D3) as C. rewrite !app_nil_r in C. rewrite C, (IHe1 D1), (IHe2 D2), (IHe3 D3). tauto.
  - destruct D as (_ & D1 & D2). cbn [vprint]. rewrite chain_then by kt. rewrite chain_open by exact c7. rewrite (IHe1 D1), (IHe2 D2). tauto.
Qed.

(** * The text is read as the tree *)
Theorem reads_iff : forall sv e, der e -> 1 <= lvl e -> (reads sv (write e) (tr e) <-> apart sv e /\ unchained e).
Proof.
  intros sv e D L. rewrite (write_text e D). split.
  - intros (ts & n & X & P). apply parse_sound in P. destruct P as (-> & F). split.
    + apply chain_iff; [exact D|]. apply lex_iff; [exact (toks_ok e D)|exact X].
    + apply fits_iff; assumption.
  - intros (A & U). destruct (parse_complete (tr e)) as [n P].
    + apply fits_iff; assumption.
    + apply tr_level_ge; [exact D|lia|exact L].
    + exists (vprint (tr e)), n. split; [|exact P]. apply lex_iff; [exact (toks_ok e D)|]. apply chain_iff; assumption.
Qed.

Theorem reads_unique : forall sv s v v', reads sv s v -> reads sv s v' -> v = v'.
Proof. intros sv s v v' (ts & n & X & P) (ts' & n' & X' & P'). rewrite X in X'. injection X' as <-. exact (p_unique ts n n' v v' P P'). Qed.
