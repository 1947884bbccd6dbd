(** Values of the expressions read by a Verilog tool. Chains of conditional operators. *)
From Coq Require Import String Ascii List Bool Arith NArith ZArith Lia.
From Verif Require Import LiteralModel ExprModel ExprLex ExprParse ExprProofs.
From Verif Require LintModel LintProofs.
Import ListNotations.
Local Open Scope string_scope.
Local Open Scope list_scope.

(** * Chains of conditional operators *)
Fixpoint rot (c a b : vexpr) : vexpr :=
  match c with VTern c1 a1 b1 => VTern c1 a1 (rot b1 a b) | _ => VTern c a b end.

(** The tree in which [x ? a : y ? b : c] is [x ? a : (y ? b : c)]. *)
Fixpoint right (v : vexpr) : vexpr :=
  match v with
  | VWord s => VWord s
  | VIndex b e => VIndex (right b) (right e)
  | VSel b e n => VSel (right b) (right e) n
  | VParen e => VParen (right e)
  | VCall f e => VCall f (right e)
  | VCat a => VCat (right a)
  | VRep n c => VRep n (right c)
  | VUn o a => VUn o (right a)
  | VBin o l r => VBin o (right l) (right r)
  | VTern c a b => rot (right c) (right a) (right b)
  | VComma a b => VComma (right a) (right b)
  end.

Lemma rot_print : forall c a b, vprint (rot c a b) = vprint c ++ TOp "?" :: vprint a ++ TOp ":" :: vprint b.
Proof.
  induction c; intros a b; cbn [rot vprint]; try reflexivity. rewrite IHc3. repeat (rewrite <- app_assoc; cbn [app]). reflexivity.
Qed.
Lemma right_print : forall v, vprint (right v) = vprint v.
Proof. induction v; cbn [right vprint]; rewrite ?rot_print; congruence. Qed.
Lemma rot_vl : forall c a b, vl (rot c a b) = 1. Proof. destruct c; reflexivity. Qed.
Lemma right_vl : forall v, vl (right v) = vl v. Proof. destruct v; try reflexivity. apply rot_vl. Qed.
Lemma rot_fits : forall c a b, fits c -> 1 <= vl c -> fits a -> 1 <= vl a -> fits b -> 1 <= vl b -> fits (rot c a b).
Proof.
  induction c; intros a b Fc Lc Fa La Fb Lb;
  try (cbn [rot]; cbn [fits] in *; cbn [vl] in *; repeat split; try tauto; lia).
  - cbn [rot]. pose proof (vprec_range o). cbn [fits] in *. cbn [vl]. repeat split; try tauto; lia.
  - cbn [rot]. cbn [fits] in *. rewrite rot_vl. destruct Fc as (L1 & F1 & L2 & F2 & L3 & F3).
    split; [exact L1|]. split; [exact F1|]. split; [exact L2|]. split; [exact F2|]. split; [lia|]. exact (IHc3 a b F3 L3 Fa La Fb Lb).
Qed.
Lemma right_base : forall v, vbase v -> vbase (right v). Proof. destruct v; intro H; try contradiction; exact I. Qed.

Lemma right_fits : forall e, der e -> fits (right (tr e)).
Proof.
  induction e; intros D; cbn [der] in D; cbn [tr right].
  - exact I.
  - destruct neg; cbn [right fits vl]; [split; [lia|exact I]|exact I].
  - destruct f; cbn; try exact I; split; try exact I; lia.
  - exact I.
  - tauto.
  - destruct D as (L & D). cbn [fits]. rewrite right_vl. split; [apply tr_level_ge; [exact D|lia|exact L]|exact (IHe D)].
  - destruct D as (L & D). cbn [fits]. rewrite right_vl. split; [apply tr_level_ge; [exact D|lia|exact L]|exact (IHe D)].
  - destruct D as (L & D). cbn [fits]. rewrite right_vl. split; [apply tr_level_ge; [exact D|lia|exact L]|exact (IHe D)].
  - cbn. split; [lia|exact I].
  - cbn. split; [lia|exact I].
  - exact (IHe D).
  - destruct D as (_ & B & D). cbn [fits]. split; [|exact (IHe D)]. destruct e; try contradiction; exact I.
  - destruct D as (P & D1 & L & D2). cbn [fits]. rewrite right_vl.
    split; [apply right_base, tr_plain, P|]. split; [exact (IHe1 D1)|]. split; [apply tr_level_ge; [exact D2|lia|exact L]|exact (IHe2 D2)].
  - destruct D as (P & D1 & L & D2 & _). cbn [fits]. rewrite right_vl.
    split; [apply right_base, tr_base, P|]. split; [exact (IHe1 D1)|]. split; [apply tr_level_ge; [exact D2|lia|exact L]|exact (IHe2 D2)].
  - destruct D as (P & D1 & _). pose proof (right_base _ (tr_base e P)). pose proof (IHe D1).
    destruct sg; cbn [signed_if right fits vl]; repeat split; try assumption; lia.
  - destruct D as (P & D1 & L & D2 & _). pose proof (right_base _ (tr_base e1 P)). pose proof (IHe1 D1). pose proof (IHe2 D2).
    pose proof (tr_level_ge e2 1 D2 ltac:(lia) L) as L2. rewrite <- right_vl in L2. assert (V : vprec Add = 10) by reflexivity.
    destruct sg; cbn [signed_if right fits vl]; rewrite ?V; repeat split; try assumption; lia.
  - destruct D as (L & D). cbn [fits]. rewrite right_vl. split; [|exact (IHe D)]. exact (proj2 (tr_level e D) L).
  - destruct D as (L1 & D1 & L2 & D2). cbn [fits]. rewrite !right_vl, vprec_slevel. pose proof (slevel_range o).
    split; [apply tr_level_ge; [exact D1|lia|exact L1]|]. split; [exact (IHe1 D1)|]. split; [apply tr_level_ge; [exact D2|lia|exact L2]|exact (IHe2 D2)].
  - destruct D as (L1 & D1 & L2 & D2 & L3 & D3). apply rot_fits; [exact (IHe1 D1)| |exact (IHe2 D2)| |exact (IHe3 D3)|]; rewrite right_vl; apply tr_level_ge; try assumption; lia.
  - destruct D as (L1 & D1 & D2). cbn [fits]. rewrite right_vl. split; [apply tr_level_ge; [exact D1|lia|exact L1]|]. split; [exact (IHe1 D1)|exact (IHe2 D2)].
Qed.

Lemma right_same : forall v, fits v -> right v = v.
Proof.
  induction v; intros F; cbn [fits] in F; cbn [right]; try reflexivity.
  - rewrite IHv1, IHv2 by tauto. reflexivity.
  - rewrite IHv1, IHv2 by tauto. reflexivity.
  - rewrite IHv by tauto. reflexivity.
  - rewrite IHv by tauto. reflexivity.
  - rewrite IHv by tauto. reflexivity.
  - rewrite IHv by tauto. reflexivity.
  - rewrite IHv by tauto. reflexivity.
  - rewrite IHv1, IHv2 by tauto. reflexivity.
  - rewrite IHv1, IHv2, IHv3 by tauto. destruct v1; try reflexivity. cbn [vl] in F. lia.
  - rewrite IHv1, IHv2 by tauto. reflexivity.
Qed.

(** What is read when no operators join, chains included. *)
Theorem reads_right : forall sv e, der e -> 1 <= lvl e -> apart sv e -> reads sv (write e) (right (tr e)).
Proof.
  intros sv e D L A. destruct (parse_complete (right (tr e))) as [n P].
  - exact (right_fits e D).
  - rewrite right_vl. apply tr_level_ge; [exact D|lia|exact L].
  - rewrite right_print in P. exists (vprint (tr e)), n. split; [|exact P]. rewrite (write_text e D).
    apply lex_iff; [exact (toks_ok e D)|]. apply chain_iff; assumption.
Qed.

(** * Values *)

Definition den_b (o : bop) : LintModel.bop :=
  match o with
  | LOr => LintModel.LOr | LAnd => LintModel.LAnd | Or => LintModel.Or | Xor => LintModel.Xor | XnorA | XnorB => LintModel.Xnor | And => LintModel.And
  | CEq | Eq => LintModel.Eq | CNe | Ne => LintModel.Ne | Lt => LintModel.Lt | Gt => LintModel.Gt | Le => LintModel.Le | Ge => LintModel.Ge
  | Shl => LintModel.Shl | AShl => LintModel.AShl | Shr => LintModel.Shr | AShr => LintModel.AShr | Add => LintModel.Add | Sub => LintModel.Sub
  | Mul => LintModel.Mul
  end.
Definition den_u (o : uop) : LintModel.uop :=
  match o with
  | Neg => LintModel.Neg | LNot => LintModel.LNot | RNand => LintModel.RNand | RNor => LintModel.RNor | RAnd => LintModel.RAnd
  | ROr => LintModel.ROr | RXor => LintModel.RXor | RXnorA | RXnorB => LintModel.RXnor | Not => LintModel.Not
  end.

(** The meaning of a tree, in the expressions of LintModel, for any meaning of the words, of the numbers of copies and of the
    accesses. Comparisons with x are not modelled: === is ==. *)
Record meaning := { m_word : string -> LintModel.expr; m_num : string -> nat; m_access : vexpr -> LintModel.expr }.
Fixpoint den (M : meaning) (v : vexpr) : LintModel.expr :=
  match v with
  | VWord s => m_word M s
  | VIndex _ _ | VSel _ _ _ => m_access M v
  | VParen e => den M e
  | VCall f e => if String.eqb f "$signed" then LintModel.ToSigned (den M e) else LintModel.ToUnsigned (den M e)
  | VCat a => den M a
  | VRep n c => LintModel.Rep (m_num M n) (den M c)
  | VUn o a => LintModel.Un (den_u o) (den M a)
  | VBin o l r => LintModel.Bin (den_b o) (den M l) (den M r)
  | VTern c a b => LintModel.Tern (den M c) (den M a) (den M b)
  | VComma a b => LintModel.Cat (den M a) (den M b)
  end.

(** Same width, sign and value, in every context. *)
Definition same (x y : LintModel.expr) : Prop := forall G,
  LintModel.vwidth G x = LintModel.vwidth G y /\ LintModel.vsigned G x = LintModel.vsigned G y /\
  forall sg L, LintModel.veval G sg L x = LintModel.veval G sg L y.

Lemma same_refl : forall x, same x x. Proof. intros x G. split; [reflexivity|]. split; reflexivity. Qed.
Lemma same_trans : forall x y z, same x y -> same y z -> same x z.
Proof.
  intros x y z A B G. destruct (A G) as (A1 & A2 & A3), (B G) as (B1 & B2 & B3). split; [congruence|]. split; [congruence|].
  intros sg L. rewrite A3. apply B3.
Qed.
Lemma same_un : forall o x y, same x y -> same (LintModel.Un o x) (LintModel.Un o y).
Proof.
  intros o x y H G. destruct (H G) as (W & S & V).
  destruct o; (split; [cbn [LintModel.vwidth]; congruence|]; split; [cbn [LintModel.vsigned]; congruence|]; intros sg L; cbn [LintModel.veval]; rewrite ?W, ?S, ?V; reflexivity).
Qed.
Lemma same_bin : forall o x y x' y', same x x' -> same y y' -> same (LintModel.Bin o x y) (LintModel.Bin o x' y').
Proof.
  intros o x y x' y' H K G. destruct (H G) as (W & S & V), (K G) as (W2 & S2 & V2).
  destruct o; (split; [cbn [LintModel.vwidth]; congruence|]; split; [cbn [LintModel.vsigned]; congruence|]; intros sg L; cbn [LintModel.veval];
    rewrite ?W, ?S, ?W2, ?S2, ?V, ?V2; reflexivity).
Qed.
Lemma same_tern : forall c x y c' x' y', same c c' -> same x x' -> same y y' -> same (LintModel.Tern c x y) (LintModel.Tern c' x' y').
Proof.
  intros c x y c' x' y' J H K G. destruct (J G) as (W0 & S0 & V0), (H G) as (W & S & V), (K G) as (W2 & S2 & V2).
  split; [cbn [LintModel.vwidth]; congruence|]. split; [cbn [LintModel.vsigned]; congruence|]. intros sg L. cbn [LintModel.veval].
  rewrite W0, S0, V0, V, V2. reflexivity.
Qed.
Lemma same_cat : forall x y x' y', same x x' -> same y y' -> same (LintModel.Cat x y) (LintModel.Cat x' y').
Proof.
  intros x y x' y' H K G. destruct (H G) as (W & S & V), (K G) as (W2 & S2 & V2).
  split; [cbn [LintModel.vwidth]; congruence|]. split; [reflexivity|]. intros sg L. cbn [LintModel.veval]. rewrite W, S, V, W2, S2, V2. reflexivity.
Qed.
Lemma same_rep : forall n x y, same x y -> same (LintModel.Rep n x) (LintModel.Rep n y).
Proof.
  intros n x y H G. destruct (H G) as (W & S & V).
  split; [cbn [LintModel.vwidth]; congruence|]. split; [reflexivity|]. intros sg L. cbn [LintModel.veval]. rewrite W, S, V. reflexivity.
Qed.
Lemma same_signed : forall x y, same x y -> same (LintModel.ToSigned x) (LintModel.ToSigned y).
Proof.
  intros x y H G. destruct (H G) as (W & S & V).
  split; [cbn [LintModel.vwidth]; congruence|]. split; [reflexivity|]. intros sg L. cbn [LintModel.veval]. rewrite W, S, V. reflexivity.
Qed.
Lemma same_unsigned : forall x y, same x y -> same (LintModel.ToUnsigned x) (LintModel.ToUnsigned y).
Proof.
  intros x y H G. destruct (H G) as (W & S & V).
  split; [cbn [LintModel.vwidth]; congruence|]. split; [reflexivity|]. intros sg L. cbn [LintModel.veval]. rewrite W, S, V. reflexivity.
Qed.
Lemma same_xnor : forall x y, same (LintModel.Bin LintModel.Xnor x y) (LintModel.Bin LintModel.Xor x (LintModel.Un LintModel.Not y)).
Proof.
  intros x y G. split; [reflexivity|]. split; [reflexivity|]. intros sg L. cbn [LintModel.veval].
  pose proof (LintProofs.veval_range G x sg L) as R.
  rewrite <- (LintProofs.small_mod _ _ R) at 2. rewrite LintProofs.lxor_mod.
  set (p := LintModel.veval G sg L x). set (q := LintModel.veval G sg L y).
  assert (E : forall z, (-1 - z)%Z = Z.lnot z) by (intro z; unfold Z.lnot, Z.pred; lia).
  rewrite !E, Z.lnot_lxor_r. reflexivity.
Qed.

(** * An exclusive or with a complement, alone *)
(** The expression in which [a ^ ~b] is [a ^~ b], out of the indices of accesses. *)
Fixpoint glue (e : expr) : expr :=
  match e with
  | EParen x => EParen (glue x)
  | ESigned x => ESigned (glue x)
  | EUnsigned x => EUnsigned (glue x)
  | ECat x => ECat (glue x)
  | ERep n c => ERep n (glue c)
  | EUn o a => EUn o (glue a)
  | EBin o l r =>
      match o, r with
      | Xor, EUn Not a => EBin XnorA (glue l) (glue a)
      | _, _ => EBin o (glue l) (glue r)
      end
  | ETern c a b => ETern (glue c) (glue a) (glue b)
  | EComma a b => EComma (glue a) (glue b)
  | _ => e
  end.

Lemma glue_cases : forall o l r, (exists a, o = Xor /\ r = EUn Not a /\ glue (EBin o l r) = EBin XnorA (glue l) (glue a)) \/
  glue (EBin o l r) = EBin o (glue l) (glue r).
Proof.
  intros o l r. cbn [glue]. destruct o; try (right; reflexivity). destruct r; try (right; reflexivity). destruct o; try (right; reflexivity).
  left. exists r. split; [reflexivity|]. split; reflexivity.
Qed.

Lemma glue_write : forall e, write (glue e) = write e.
Proof.
  induction e; try reflexivity; try (cbn [glue write]; congruence).
  destruct (glue_cases o e1 e2) as [(a & -> & -> & E)|E]; rewrite E; cbn [write]; rewrite IHe1.
  - cbn [glue write] in IHe2. injection IHe2 as IH. rewrite IH. reflexivity.
  - rewrite IHe2. reflexivity.
Qed.
Lemma glue_lvl : forall e, lvl (glue e) = lvl e.
Proof. destruct e; try reflexivity. destruct (glue_cases o e1 e2) as [(a & -> & -> & E)|E]; rewrite E; reflexivity. Qed.
Lemma glue_der : forall e, der e -> der (glue e).
Proof.
  induction e; intros D; try exact D; cbn [der] in D; try (cbn [glue der]; rewrite ?glue_lvl; tauto).
  - cbn [glue der]. split; [tauto|]. split; [|tauto]. destruct e; tauto.
  - destruct D as (L1 & D1 & L2 & D2). specialize (IHe1 D1). specialize (IHe2 D2).
    destruct (glue_cases o e1 e2) as [(a & -> & -> & E)|E]; rewrite E; cbn [der]; rewrite !glue_lvl.
    + cbn [der] in D2. cbn [glue der] in IHe2. destruct D2 as (La & Da), IHe2 as (_ & Ia). cbn [slevel] in *. split; [exact L1|]. split; [exact IHe1|]. split; [lia|exact Ia].
    + tauto.
Qed.
Lemma glue_unchained : forall e, unchained (glue e) <-> unchained e.
Proof.
  induction e; try tauto; try (cbn [glue unchained]; tauto).
  - destruct (glue_cases o e1 e2) as [(a & -> & -> & E)|E]; rewrite E; cbn [unchained].
    + cbn [glue unchained] in IHe2. tauto.
    + tauto.
  - cbn [glue unchained]. rewrite IHe1, IHe2, IHe3.
    assert (H : match glue e1 with ETern _ _ _ => False | _ => True end <-> match e1 with ETern _ _ _ => False | _ => True end); [|tauto].
    destruct e1; try tauto. destruct (glue_cases o e1_1 e1_2) as [(a & -> & -> & E)|E]; rewrite E; tauto.
Qed.
Lemma glue_same : forall M e, same (den M (tr (glue e))) (den M (tr e)).
Proof.
  intros M. induction e; try apply same_refl; cbn [glue tr den].
  - exact IHe.
  - apply same_signed. exact IHe.
  - apply same_unsigned. exact IHe.
  - exact IHe.
  - apply same_rep. exact IHe.
  - apply same_un. exact IHe.
  - change (match o with Xor => _ | _ => _ end) with (glue (EBin o e1 e2)). destruct (glue_cases o e1 e2) as [(a & -> & -> & E)|E]; rewrite E; cbn [tr den den_b den_u].
    + apply same_trans with (y := LintModel.Bin LintModel.Xor (den M (tr (glue e1))) (LintModel.Un LintModel.Not (den M (tr (glue a))))); [apply same_xnor|].
      apply same_bin; [exact IHe1|exact IHe2].
    + apply same_bin; assumption.
  - apply same_tern; assumption.
  - apply same_cat; assumption.
Qed.

Theorem reads_value : forall sv e, der e -> 1 <= lvl e -> apart sv (glue e) -> unchained e ->
  exists v, reads sv (write e) v /\ forall M, same (den M v) (den M (tr e)).
Proof.
  intros sv e D L A U. exists (tr (glue e)). split; [|intro M; apply glue_same].
  rewrite <- glue_write. apply reads_iff; [exact (glue_der e D)|rewrite glue_lvl; exact L|]. split; [exact A|]. apply glue_unchained. exact U.
Qed.

(** * Operators that no expression has *)
Definition printed (t : tok) : Prop :=
  match t with
  | TWord _ => True
  | TOp s => In s ["("; ")"; "["; "]"; "{"; "}"; ","; ":"; "?"; "+:"] \/ (exists o, s = btext o) \/ (exists o, s = utext o)
  end.
Lemma all_printed : forall v, Forall printed (vprint v).
Proof.
  assert (P : forall s, In s ["("; ")"; "["; "]"; "{"; "}"; ","; ":"; "?"; "+:"] -> printed (TOp s)) by (intros s H; left; exact H).
  induction v; cbn [vprint]; repeat first [assumption | apply Forall_nil | apply Forall_app; split | apply Forall_cons
    | exact I | apply P; clear; cbn; tauto | right; left; eexists; reflexivity | right; right; eexists; reflexivity].
Qed.
Lemma not_printed : forall s, s = "--" \/ s = "&&&" -> ~ printed (TOp s).
Proof.
  intros s H [K|[[o K]|[o K]]].
  - cbn [In] in K. destruct H as [->| ->]; repeat (destruct K as [K|K]; [discriminate K|]); contradiction.
  - destruct H as [->| ->]; destruct o; discriminate K.
  - destruct H as [->| ->]; destruct o; discriminate K.
Qed.
Theorem never_read : forall sv text ts s, lex sv None text = Some ts -> In (TOp s) ts -> s = "--" \/ s = "&&&" -> forall v, ~ reads sv text v.
Proof.
  intros sv text ts s X I H v (ts' & n & X' & P). rewrite X in X'. injection X' as <-. apply parse_sound in P. destruct P as (-> & _).
  pose proof (all_printed v) as F. rewrite Forall_forall in F. exact (not_printed s H (F _ I)).
Qed.
