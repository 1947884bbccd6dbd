(** Texts of the macros: widths and signs of their values, accesses to parts. *)
From Coq Require Import List Bool Arith ZArith Lia.
Import ListNotations.
From Verif Require Import LintModel LintProofs.
Local Open Scope Z_scope.

(** * Model *)
(** [Utils::justHigherPow2], src/Utils.cpp 199-211, of a positive number. The accumulators are [p2] and [isp2]. *)
Fixpoint jhp_loop (n : positive) (p2 : nat) (isp2 : bool) : nat :=
  match n with
  | xH => let p2 := S p2 in if isp2 then (p2 - 1)%nat else p2
  | xO q => jhp_loop q (S p2) isp2
  | xI q => jhp_loop q (S p2) false
  end.
Definition just_higher_pow2 (n : positive) : nat := jhp_loop n 0 true.

(** Text of a macro, [Algorithm::vioAsDefine], src/Algorithm.cpp 1509-1535: a text taken as it is, or a size cast W'(e). *)
Inductive mtext := Plain (e : expr) | Cast (w : nat) (e : expr).
(** The expression is written without parentheses; a number negated is a number for isNumber (TypesAndConsts.cpp 82-107) as well.
    [None]: the number does not fit atoi (1519). Digits x and z are not modelled. *)
Definition vio_as_define (w : nat) (e : expr) : option mtext :=
  match e with
  | Sized k v | Un Neg (Sized k v) => Some (Plain e)
  | Num v =>
      if v <? 0 then Some (Cast w e)
      else if 2147483647 <? v then None
      else match v with Zpos p => Some (Plain (Sized (1 + just_higher_pow2 p) v)) | _ => Some (Cast w e) end
  | _ => Some (Cast w e)
  end.

(** Size and value of a text on its own (IEEE 1800-2017, 6.24.1: the operand of a size cast is self-determined, and extended with its own sign). *)
Definition mwidth (G : env) (t : mtext) : nat := match t with Plain e => vwidth G e | Cast w _ => w end.
Definition mvalue (G : env) (t : mtext) : Z :=
  match t with
  | Plain e => veval G (vsigned G e) (vwidth G e) e
  | Cast w e => extend (vsigned G e) (vwidth G e) w (veval G (vsigned G e) (vwidth G e) e)
  end.
(** Read of a macro, rewriteIdentifier 1638-1652: [$signed(`_c_x)] or [$unsigned(`_c_x)], in a context of size [L] and sign [sg]. *)
Definition read_macro (G : env) (t : ty) (d : mtext) (sg : bool) (L : nat) : Z :=
  match t with Int => extend sg (mwidth G d) L (mvalue G d) | UInt => mvalue G d mod pow2 L end.
(** Read of a variable of type [t] and width [w] which received [e], as [Var] of LintModel. *)
Definition read_var (G : env) (t : ty) (w : nat) (e : expr) (sg : bool) (L : nat) : Z := extend sg w L (assigned G w e).

(** Nothing distinguishes reads of the macro from reads of the variable: same size, and same value in every context. A context is signed only if all
    its operands are. *)
Definition same_reads (G : env) (t : ty) (w : nat) (e : expr) (d : mtext) : Prop :=
  mwidth G d = w /\ forall sg L, (sg = true -> t = Int) -> read_macro G t d sg L = read_var G t w e sg L.

(** * Size casts *)
Lemma pow2_pos n : 0 < pow2 n. Proof. unfold pow2. apply Z.pow_pos_nonneg; lia. Qed.
Lemma pow2_split a b : (a <= b)%nat -> pow2 b = pow2 (b - a) * pow2 a.
Proof. intros H. unfold pow2. rewrite <- Z.pow_add_r by lia. f_equal. lia. Qed.
Lemma to_signed_mod w W x : (W <= w)%nat -> to_signed w x mod pow2 W = x mod pow2 W.
Proof.
  intros H. unfold to_signed. destruct (pow2 w <=? 2 * x); [|reflexivity]. rewrite (pow2_split W w H).
  replace (x - pow2 (w - W) * pow2 W) with (x + (- pow2 (w - W)) * pow2 W) by lia. apply Z.mod_add. pose proof (pow2_pos W). lia.
Qed.
Lemma same_cast G t w e : mvalue G (Cast w e) = assigned G w e -> same_reads G t w e (Cast w e).
Proof.
  intros H. split; [reflexivity|]. intros sg L S. unfold read_macro, read_var. cbn [mwidth]. rewrite H. destruct t; [|reflexivity].
  destruct sg; [now specialize (S eq_refl)|]. reflexivity.
Qed.

Lemma wide_cast G w e : (w <= vwidth G e)%nat -> mvalue G (Cast w e) = assigned G w e.
Proof.
  intros H. unfold mvalue, assigned, extend. rewrite Nat.max_r by exact H. destruct (vsigned G e); [now apply to_signed_mod|reflexivity].
Qed.

(** Operators whose result does not depend on the size of the context. *)
Fixpoint steady (G : env) (e : expr) : bool :=
  match e with
  | Sized _ _ | Var _ | ToSigned _ | ToUnsigned _ | Cat _ _ => true
  | Num _ | Rep _ _ => false
  | Un o _ => match o with Neg | Not => false | _ => true end
  | Bin o a b =>
      match o with
      | And | Or | Xor => steady G a && steady G b
      | Shr => steady G a
      | Eq | Ne | Lt | Gt | Le | Ge | LAnd | LOr => true
      | _ => false
      end
  | Tern _ a b => steady G a && steady G b
  end.

Lemma mod_wider x n L : (n <= L)%nat -> 0 <= x < pow2 n -> x mod pow2 L = x.
Proof. intros H R. apply Z.mod_small. unfold pow2 in *. assert (2 ^ Z.of_nat n <= 2 ^ Z.of_nat L) by (apply Z.pow_le_mono_r; lia). lia. Qed.
Lemma bit_one b : 0 <= bit b < pow2 1. Proof. change (pow2 1) with 2. apply bit_range. Qed.
Lemma bit_mod b L : (1 <= L)%nat -> bit b mod pow2 L = bit b.
Proof. intros H. apply (mod_wider _ 1); [exact H|apply bit_one]. Qed.

Lemma steady_ok G : forall e, steady G e = true -> forall L, (vwidth G e <= L)%nat -> veval G false L e = veval G false (vwidth G e) e.
Proof.
  induction e as [w v|v|x|o u IH|o a IHa b IHb|c IHc a IHa b IHb|a IHa b IHb|n a IHa|a IHa|a IHa]; cbn [steady]; intros S L H; try discriminate S.
  - cbn [veval vwidth] in *. unfold extend. rewrite !(mod_wider (v mod pow2 w) w) by (auto using mod_range). reflexivity.
  - cbn [veval vwidth] in *. unfold extend. rewrite !(mod_wider (v_val G x mod _) (v_width G x)) by (auto using mod_range). reflexivity.
  - destruct o; try discriminate S; cbn [veval vwidth] in *; rewrite !bit_mod by lia; reflexivity.
  - destruct o; try discriminate S; cbn [veval vwidth] in *; try (rewrite !bit_mod by lia; reflexivity).
    + rewrite (IHa S L H). reflexivity.
    + apply andb_true_iff in S as [Sa Sb]. rewrite (IHa Sa L), (IHb Sb L), (IHa Sa (Nat.max _ _)), (IHb Sb (Nat.max _ _)) by lia. reflexivity.
    + apply andb_true_iff in S as [Sa Sb]. rewrite (IHa Sa L), (IHb Sb L), (IHa Sa (Nat.max _ _)), (IHb Sb (Nat.max _ _)) by lia. reflexivity.
    + apply andb_true_iff in S as [Sa Sb]. rewrite (IHa Sa L), (IHb Sb L), (IHa Sa (Nat.max _ _)), (IHb Sb (Nat.max _ _)) by lia. reflexivity.
  - cbn [veval vwidth] in *. apply andb_true_iff in S as [Sa Sb]. rewrite (IHa Sa L), (IHb Sb L), (IHa Sa (Nat.max _ _)), (IHb Sb (Nat.max _ _)) by lia. reflexivity.
  - cbn [veval vwidth] in *. set (va := veval G (vsigned G a) (vwidth G a) a). set (vb := veval G (vsigned G b) (vwidth G b) b).
    pose proof (veval_range G a (vsigned G a) (vwidth G a)). pose proof (veval_range G b (vsigned G b) (vwidth G b)).
    fold va in H0. fold vb in H1. assert (R : 0 <= va * pow2 (vwidth G b) + vb < pow2 (vwidth G a + vwidth G b)).
    { unfold pow2 in *. rewrite Nat2Z.inj_add, Z.pow_add_r by lia. nia. }
    rewrite (mod_wider _ _ L H R). now rewrite (mod_wider _ _ (vwidth G a + vwidth G b) (le_n _) R).
  - cbn [veval vwidth] in *. unfold extend. pose proof (veval_range G a (vsigned G a) (vwidth G a)) as R. rewrite (mod_wider _ _ L H R). now rewrite (mod_wider _ _ (vwidth G a) (le_n _) R).
  - cbn [veval vwidth] in *. pose proof (veval_range G a (vsigned G a) (vwidth G a)) as R. rewrite (mod_wider _ _ L H R). now rewrite (mod_wider _ _ (vwidth G a) (le_n _) R).
Qed.

Lemma steady_cast G w e : steady G e = true -> vsigned G e = false -> mvalue G (Cast w e) = assigned G w e.
Proof.
  intros S V. unfold mvalue, assigned, extend. rewrite V. rewrite (steady_ok G e S (Nat.max w (vwidth G e))) by lia. reflexivity.
Qed.
Lemma signed_read_cast G w x : (1 <= v_width G x)%nat -> mvalue G (Cast w (Var x)) = assigned G w (Var x).
Proof.
  intros W1. destruct (le_lt_dec w (v_width G x)) as [H|H]; [now apply wide_cast|].
  unfold mvalue, assigned. cbn [veval vwidth vsigned]. rewrite Nat.max_l by lia. destruct (v_type G x).
  - unfold extend. rewrite !(mod_wider (v_val G x mod _) (v_width G x)) by (auto using mod_range; lia). reflexivity.
  - unfold extend. rewrite (to_signed_mod (v_width G x) (v_width G x)) by lia. rewrite !Z.mod_mod by (match goal with |- pow2 ?n <> 0 => pose proof (pow2_pos n); lia end). reflexivity.
Qed.

(** A cast is written exactly for what is not a number, and for numbers which are not positive. *)
Definition cast_text (e : expr) : bool :=
  match e with Sized _ _ | Un Neg (Sized _ _) => false | Num v => v <=? 0 | _ => true end.

(** ** Assigned expressions which are not constants, at least as wide as the variable. *)
Theorem C47_macro_wide G t w e :
  cast_text e = true -> (w <= vwidth G e)%nat -> exists d, vio_as_define w e = Some d /\ same_reads G t w e d.
Proof.
  intros C H. exists (Cast w e). split; [|apply same_cast; now apply wide_cast].
  destruct e as [k v|v|x|o u|o a b|c a b|a b|n a|a|a]; try reflexivity; [discriminate C| |].
  - cbn [cast_text] in C. cbn [vio_as_define]. destruct (Z.ltb_spec v 0); [reflexivity|]. assert (v = 0) by lia. now subst v.
  - destruct o; try reflexivity. destruct u; try reflexivity. discriminate C.
Qed.
Print Assumptions C47_macro_wide.

(** ** Narrower expressions: reads of variables, and unsigned results which do not depend on the size of the context. *)
Theorem C47_macro_narrow G t w e :
  cast_text e = true -> (exists x, e = Var x /\ (1 <= v_width G x)%nat) \/ steady G e = true /\ vsigned G e = false ->
  exists d, vio_as_define w e = Some d /\ same_reads G t w e d.
Proof.
  intros C [(x & -> & W1)|[S V]].
  - exists (Cast w (Var x)). split; [reflexivity|]. apply same_cast. now apply signed_read_cast.
  - exists (Cast w e). split; [|apply same_cast; now apply steady_cast].
    destruct e as [k v|v|x|o u|o a b|c a b|a b|n a|a|a]; try reflexivity; try discriminate.
    destruct o; try reflexivity; discriminate S.
Qed.
Print Assumptions C47_macro_narrow.

(** ** The carry is lost: uint8 a, uint8 b, uint16 t = a + b. *)
Definition G_bytes (va vb : Z) : env := {| v_type := fun _ => UInt; v_width := fun _ => 8%nat; v_val := fun x => if Nat.eqb x 0 then va else vb |}.
Theorem C47_carry_lost_refuted va vb : 0 <= va < 256 -> 0 <= vb < 256 -> 256 <= va + vb ->
  let e := Bin Add (Var 0) (Var 1) in
  exists d, vio_as_define 16 e = Some d /\ read_var (G_bytes va vb) UInt 16 e false 16 = va + vb /\ read_macro (G_bytes va vb) UInt d false 16 = va + vb - 256.
Proof.
  intros A B C e. exists (Cast 16 e). split; [reflexivity|]. unfold e, read_var, read_macro, assigned, mvalue. cbn. unfold extend, pow2. cbn. split.
  - change (Z.pow_pos 2 8) with 256. change (Z.pow_pos 2 16) with 65536. rewrite !(Z.mod_small va), !(Z.mod_small vb) by lia. rewrite !(Z.mod_small (va + vb)) by lia. reflexivity.
  - change (Z.pow_pos 2 8) with 256. change (Z.pow_pos 2 16) with 65536. rewrite !(Z.mod_small va), !(Z.mod_small vb) by lia.
    assert (E : (va + vb) mod 256 = va + vb - 256) by (symmetry; apply (Z.mod_unique _ _ 1); lia). rewrite E. rewrite !(Z.mod_small (va + vb - 256)) by lia. reflexivity.
Qed.
Print Assumptions C47_carry_lost_refuted.

(** * Constants *)
Lemma jhp_power k : forall acc, jhp_loop (Pos.of_nat (2 ^ k)) acc true = (acc + k)%nat.
Proof.
  induction k as [|k IH]; intros acc; [cbn; lia|].
  replace (Pos.of_nat (2 ^ S k)) with (xO (Pos.of_nat (2 ^ k))); [cbn [jhp_loop]; rewrite IH; lia|].
  assert (2 ^ k <> 0)%nat by (apply Nat.pow_nonzero; lia). rewrite Nat.pow_succ_r'. rewrite Nat2Pos.inj_mul by lia. reflexivity.
Qed.
Lemma jhp_false p : forall acc, jhp_loop p acc false = (acc + Pos.size_nat p)%nat.
Proof. induction p as [p IH|p IH|]; intros acc; cbn [jhp_loop Pos.size_nat]; rewrite ?IH; lia. Qed.
Lemma jhp_size p : forall acc, (acc + Pos.size_nat p <= S (jhp_loop p acc true) <= S acc + Pos.size_nat p)%nat.
Proof. induction p as [p IH|p IH|]; intros acc; cbn [jhp_loop Pos.size_nat]; [rewrite jhp_false; lia| |lia]. specialize (IH (S acc)). lia. Qed.
Lemma size_range p : Zpos p < pow2 (Pos.size_nat p).
Proof.
  unfold pow2. induction p as [p IH|p IH|]; cbn [Pos.size_nat]; [| |reflexivity]; rewrite Nat2Z.inj_succ, Z.pow_succ_r by lia; lia.
Qed.
(** ** A positive constant fits the width it is given. *)
Theorem C47_constant_fits w p : Zpos p <= 2147483647 ->
  exists k, vio_as_define w (Num (Zpos p)) = Some (Plain (Sized k (Zpos p))) /\ Zpos p < 2 ^ Z.of_nat k.
Proof.
  intros H. exists (1 + just_higher_pow2 p)%nat. split.
  - cbn [vio_as_define]. destruct (Z.ltb_spec (Zpos p) 0); [lia|]. destruct (Z.ltb_spec 2147483647 (Zpos p)); [lia|reflexivity].
  - pose proof (jhp_size p 0) as B. unfold just_higher_pow2. pose proof (size_range p) as R. unfold pow2 in R.
    eapply Z.lt_le_trans; [exact R|]. apply Z.pow_le_mono_r; lia.
Qed.
Print Assumptions C47_constant_fits.

(** ** Reads of an unsigned constant which fits the variable, outside concatenations: the value of the variable. *)
Theorem C47_unsigned_constant_partial G w p : Zpos p <= 2147483647 -> Zpos p < 2 ^ Z.of_nat w ->
  exists d, vio_as_define w (Num (Zpos p)) = Some d /\ forall L, read_macro G UInt d false L = read_var G UInt w (Num (Zpos p)) false L.
Proof.
  intros H F. destruct (C47_constant_fits w p H) as (k & E & R). exists (Plain (Sized k (Zpos p))). split; [exact E|]. intros L.
  unfold read_macro, read_var, assigned, mvalue. cbn [veval vwidth vsigned]. unfold extend. fold (pow2 k) in R. fold (pow2 w) in F.
  rewrite !(Z.mod_small (Zpos p) (pow2 k)) by lia. f_equal.
  rewrite (Z.mod_small _ (pow2 32)) by (change (pow2 32) with 4294967296; lia). unfold to_signed. change (pow2 32) with 4294967296.
  destruct (Z.leb_spec 4294967296 (2 * Zpos p)); [lia|]. rewrite (mod_wider _ w (Nat.max w 32)) by lia. symmetry. apply Z.mod_small. lia.
Qed.
Print Assumptions C47_unsigned_constant_partial.

(** ** A signed variable set to a power of two is read as its opposite. *)
Theorem C47_signed_power_refuted G w k : (k <= 30)%nat -> (S k < w)%nat ->
  let e := Num (2 ^ Z.of_nat k) in
  exists d, vio_as_define w e = Some d /\ forall L, (w <= L)%nat ->
  to_signed L (read_var G Int w e true L) = 2 ^ Z.of_nat k /\ to_signed L (read_macro G Int d true L) = - 2 ^ Z.of_nat k.
Proof.
  intros K W e. unfold e. assert (P : 2 ^ Z.of_nat k = Zpos (Pos.of_nat (2 ^ k))).
  { rewrite <- (positive_nat_Z (Pos.of_nat (2 ^ k))). rewrite Nat2Pos.id by (apply Nat.pow_nonzero; lia). now rewrite Nat2Z.inj_pow. }
  assert (LE : 2 ^ Z.of_nat k <= 2 ^ 30) by (apply Z.pow_le_mono_r; lia). change (2 ^ 30) with 1073741824 in LE.
  assert (PP : 0 < 2 ^ Z.of_nat k) by (apply Z.pow_pos_nonneg; lia).
  exists (Plain (Sized (S k) (2 ^ Z.of_nat k))). split.
  - cbn [vio_as_define]. destruct (Z.ltb_spec (2 ^ Z.of_nat k) 0); [lia|]. destruct (Z.ltb_spec 2147483647 (2 ^ Z.of_nat k)); [lia|].
    rewrite P at 1. unfold just_higher_pow2. rewrite jhp_power. cbn [Nat.add]. now rewrite P.
  - intros L HL. assert (P2 : forall j, (S k < j)%nat -> 4 * 2 ^ Z.of_nat k <= pow2 j).
    { intros j J. unfold pow2. change 4 with (2 ^ 2). rewrite <- Z.pow_add_r by lia. apply Z.pow_le_mono_r; lia. }
    assert (PS : pow2 (S k) = 2 * 2 ^ Z.of_nat k) by (unfold pow2; rewrite Nat2Z.inj_succ, Z.pow_succ_r; lia).
    set (v := 2 ^ Z.of_nat k) in *. pose proof (P2 w W) as Pw. pose proof (P2 L ltac:(lia)) as PL. split.
    + unfold read_var, assigned. cbn [veval vwidth vsigned]. unfold extend, to_signed at 2 3. change (pow2 32) with 4294967296.
      rewrite (Z.mod_small v 4294967296) by lia. destruct (Z.leb_spec 4294967296 (2 * v)); [lia|].
      rewrite (mod_wider v w (Nat.max w 32)) by lia. rewrite (Z.mod_small v (pow2 w)) by lia.
      destruct (Z.leb_spec (pow2 w) (2 * v)); [lia|]. rewrite (Z.mod_small v (pow2 L)) by lia. unfold to_signed. destruct (Z.leb_spec (pow2 L) (2 * v)); lia.
    + unfold read_macro, mvalue. cbn [mwidth veval vwidth vsigned]. unfold extend, to_signed at 2. rewrite PS.
      rewrite !(Z.mod_small v (2 * v)) by lia. rewrite Z.leb_refl.
      assert (E : (v - 2 * v) mod pow2 L = pow2 L - v) by (symmetry; apply (Z.mod_unique _ _ (-1)); lia). rewrite E.
      unfold to_signed. destruct (Z.leb_spec (pow2 L) (2 * (pow2 L - v))); lia.
Qed.
Print Assumptions C47_signed_power_refuted.
(* int8 t = 4; read in an expression of 8 bits: -4. *)
Example ex_signed_power : exists d, vio_as_define 8 (Num 4) = Some d /\ read_macro (G_bytes 0 0) Int d true 8 = 252 /\ read_var (G_bytes 0 0) Int 8 (Num 4) true 8 = 4.
Proof. exists (Plain (Sized 3 4)). repeat split; vm_compute; reflexivity. Qed.

(** ** uint4 t = 3 in {4d1, t} shifts by three bits; uint4 t = 300 is not reduced; uint4 t = 8hff is read with eight bits;
    int8 t = 4b1111 is read -1. *)
Theorem C47_constant_width_refuted :
  (exists d, vio_as_define 4 (Num 3) = Some d /\ mwidth (G_bytes 0 0) d = 3%nat) /\
  (exists d, vio_as_define 4 (Num 300) = Some d /\ read_macro (G_bytes 0 0) UInt d false 16 = 300 /\ read_var (G_bytes 0 0) UInt 4 (Num 300) false 16 = 12) /\
  (exists d, vio_as_define 4 (Sized 8 255) = Some d /\ read_macro (G_bytes 0 0) UInt d false 16 = 255 /\ read_var (G_bytes 0 0) UInt 4 (Sized 8 255) false 16 = 15) /\
  (exists d, vio_as_define 8 (Sized 4 15) = Some d /\ read_macro (G_bytes 0 0) Int d true 8 = 255 /\ read_var (G_bytes 0 0) Int 8 (Sized 4 15) true 8 = 15).
Proof.
  split; [exists (Plain (Sized 3 3)); repeat split|]. split; [exists (Plain (Sized 10 300)); repeat split|].
  split; [exists (Plain (Sized 8 255)); repeat split|exists (Plain (Sized 4 15)); repeat split].
Qed.
Print Assumptions C47_constant_width_refuted.
(* The hypotheses of the positive statements: uint16 t = a + 1 has 32 bits; uint16 t = {a,b} has 16; uint16 t = a & b. *)
Example ex_wide : (16 <= vwidth (G_bytes 200 100) (Bin Add (Var 0) (Num 1)))%nat /\ steady (G_bytes 200 100) (Bin And (Var 0) (Var 1)) = true /\
  exists d, vio_as_define 16 (Bin Add (Var 0) (Num 100)) = Some d /\ read_macro (G_bytes 200 100) UInt d false 16 = 300.
Proof. split; [cbn; lia|]. split; [reflexivity|]. exists (Cast 16 (Bin Add (Var 0) (Num 100))). split; reflexivity. Qed.

(** * Accesses to parts of a macro *)
(** What can be accessed in a variable which is not a table: the whole, bits, a member of a bitfield, bits of a member (antlr/silice.g4 230-237). *)
Inductive access := Whole | Bits | Member | MemberBits.
(** [isPartialAccess], src/Algorithm.cpp 5246-5293, on an identifier: the variable is then kept out of the macros (7523-7529). *)
Definition is_partial (a : access) : bool := match a with Whole => false | Bits => true | Member => false | MemberBits => true end.
(** Texts read: names, macros, calls and selections. writeAccess 7510-7522, writePartSelect 7474-7498, writeBitfieldAccess 7434-7472 put the suffix after
    what rewriteIdentifier returns (1638-1652, 1503-1506). [int_member]: the member is declared int, which is an error (5231-5235). *)
Inductive rtext := RName | RMacro | RCall (t : rtext) | RSelect (t : rtext).
Definition read_text (is_define int_member : bool) (a : access) : rtext :=
  let id := if is_define then RCall RMacro else RName in
  match a with Whole => id | Bits => RSelect id | Member | MemberBits => if int_member then RCall (RSelect id) else RSelect id end.
(** Verilog selects bits of names only (IEEE 1364-2005, A.8.4). *)
Fixpoint select_ok (t : rtext) : bool := match t with RName | RMacro => true | RCall t => select_ok t | RSelect t => match t with RName => true | _ => false end end.

(** ** Reads which are not of a part are legal; reads of parts are legal when they keep the variable out of the macros. *)
Theorem C47_partial_access_legal a int_member is_define : (is_define = true -> is_partial a = false) -> a <> Member -> select_ok (read_text is_define int_member a) = true.
Proof. destruct a, is_define, int_member; intros H N; try reflexivity; try congruence; discriminate (H eq_refl). Qed.
Print Assumptions C47_partial_access_legal.
(** ** A member of a bitfield is read with a selection on a call, which is not Verilog. *)
Theorem C47_bitfield_member_refuted int_member : is_partial Member = false /\ select_ok (read_text true int_member Member) = false.
Proof. now destruct int_member. Qed.
Print Assumptions C47_bitfield_member_refuted.
