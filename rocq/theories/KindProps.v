(** C14, all kinds of variables and accesses. *)
From Coq Require Import List Bool Arith ZArith Lia.
From Verif Require Import KindModel KindProofs.
Import ListNotations.
Local Open Scope Z_scope.

(** What [current] is: the last write covering a bit gives it; a bit no write covers keeps its first value. *)
Theorem C14_last_write : forall first after e before x i k, covers e x i k = true -> Forall (fun a => covers a x i k = false) after ->
  current first (after ++ e :: before) x i k = Z.testbit (e_v e) (k - e_o e).
Proof. intros first after e before x i k C F. induction F as [|a after A F IH]; cbn [app current]; [rewrite C; reflexivity|]. rewrite A. exact IH. Qed.
Theorem C14_no_write : forall first evs x i k, Forall (fun a => covers a x i k = false) evs -> current first evs x i k = first x i k.
Proof. intros first evs x i k F. induction F as [|a evs A F IH]; cbn [current]; [reflexivity|]. rewrite A. exact IH. Qed.

(** The bits of a variable, and those of an entry for a table. *)
Definition bit_of (d : decl) (i k : Z) : Prop := (d_size d = 0 /\ i = 0 \/ d_size d <> 0 /\ 0 <= i < d_size d) /\ 0 <= k < d_width d.
Lemma inside_bit : forall decls x i k, inside decls x i k = true <-> bit_of (decls x) i k.
Proof.
  intros decls x i k. unfold inside, bit_of. rewrite !andb_true_iff, Z.leb_le, Z.ltb_lt. destruct (Z.eqb_spec (d_size (decls x)) 0) as [E|E].
  - rewrite Z.eqb_eq. tauto.
  - rewrite andb_true_iff, Z.leb_le, Z.ltb_lt. tauto.
Qed.

(** The code written for a block, from the start of a cycle: at the end the signals of every variable hold, bit by bit, the last write of the source;
    registers that are not written keep their value; inputs, constants and wires are not changed. *)
Theorem C14_block : forall decls unk q t0 inp cst wir l c d, writes decls [] l = Some (c, d) -> forallb (fine decls) l = true ->
  let first := first_of decls q t0 inp cst wir in
  exists s, vexecs decls unk (start q t0 inp cst wir) c = Some s /\ m_q s = q /\ m_i s = inp /\ m_c s = cst /\ m_w s = wir /\
    forall x i k, bit_of (decls x) i k ->
      (d_kind (decls x) = KFlip -> m_d s x i k = current first (execs decls unk first [] l) x i k) /\
      (d_kind (decls x) = KTemp -> m_t s x i k = current first (execs decls unk first [] l) x i k).
Proof.
  intros decls unk q t0 inp cst wir l c d W F first.
  destruct (proj2 (write_ok decls unk q t0 inp cst wir (list_sum (map stmt_size l))) l [] [] (start q t0 inp cst wir) c d (le_n _) (start_inv decls q t0 inp cst wir []) W F) as (s & E & I).
  exists s. split; [exact E|]. destruct I as [I1 I2 I3 I4 I5 I6]. split; [exact I1|]. split; [exact I2|]. split; [exact I3|]. split; [exact I4|].
  intros x i k X. apply inside_bit in X. specialize (I5 x i k X). unfold own in I5. split; intro K; rewrite K in I5; exact I5.
Qed.

(** Reads: after any beginning [l] of a block, including what always_before wrote, an expression is written so that it has the value it has in the source
    after the writes made so far. *)
Theorem C14_read : forall decls unk q t0 inp cst wir l c d e v, writes decls [] l = Some (c, d) -> forallb (fine decls) l = true -> rewrite decls d e = Some v ->
  let first := first_of decls q t0 inp cst wir in
  exists s, vexecs decls unk (start q t0 inp cst wir) c = Some s /\ veval decls unk s v = value decls unk first (execs decls unk first [] l) e.
Proof.
  intros decls unk q t0 inp cst wir l c d e v W F R first.
  destruct (proj2 (write_ok decls unk q t0 inp cst wir (list_sum (map stmt_size l))) l [] [] (start q t0 inp cst wir) c d (le_n _) (start_inv decls q t0 inp cst wir []) W F) as (s & E & I).
  exists s. split; [exact E|]. exact (proj1 (rewrite_ok decls unk q t0 inp cst wir _ d s I) e v R).
Qed.

(** The code of a block is that of its parts, one after the other: [C14_read] applies at each point of a block. *)
Theorem C14_parts : forall decls l1 l2 c d, writes decls [] (l1 ++ l2) = Some (c, d) ->
  exists c1 d1 c2, writes decls [] l1 = Some (c1, d1) /\ writes decls d1 l2 = Some (c2, d) /\ c = c1 ++ c2.
Proof.
  intros decls l1 l2 c d. generalize (@nil var) as deps. revert c. induction l1 as [|s l1 IH]; intros c deps H; cbn [app writes] in *.
  - exists [], deps, c. auto.
  - destruct (write decls deps s) as [[c0 d0]|]; [|discriminate]. destruct (writes decls d0 (l1 ++ l2)) as [[cs d']|] eqn:E; [|discriminate]. injection H as <- ->.
    destruct (IH cs d0 E) as (c1 & d1 & c2 & A & B & C). rewrite A. exists (c0 :: c1), d1, c2. subst cs. auto.
Qed.

(** An index is given to tables and only to them. *)
Definition indexed (decls : var -> decl) (x : var) (i : entry) : bool :=
  match i, d_size (decls x) with INone, Z0 => true | INone, _ => false | IAt _, Z0 => false | IAt _, _ => true end.
Lemma shape_indexed : forall decls x i, shape_ok decls x i = indexed decls x i.
Proof. intros decls x i. unfold shape_ok, indexed. destruct i, (d_size (decls x)); reflexivity. Qed.
(** Every block is written when it assigns no input, gives an index to tables and only to them, and uses no signed member of a bitfield. *)
Fixpoint expr_ok (decls : var -> decl) (e : expr) : bool :=
  match e with
  | EC _ => true | EU _ a => expr_ok decls a | EB _ a b => expr_ok decls a && expr_ok decls b
  | ERead x i s => indexed decls x i && entry_ok decls i && sel_ok decls s
  end
with entry_ok (decls : var -> decl) (i : entry) : bool := match i with INone => true | IAt e => expr_ok decls e end
with sel_ok (decls : var -> decl) (s : sel) : bool := match s with SAll => true | SPart e _ => expr_ok decls e | SField sg _ _ => negb sg | SFieldPart sg _ _ e _ => negb sg && expr_ok decls e end.
Fixpoint stmt_ok (decls : var -> decl) (s : stmt) : bool :=
  match s with
  | SAssign x i s e => match d_kind (decls x) with KInput => false | _ => true end && indexed decls x i && entry_ok decls i && sel_ok decls s && expr_ok decls e
  | SIf e a b => expr_ok decls e && forallb (stmt_ok decls) a && forallb (stmt_ok decls) b
  end.
Ltac fin := split;
  [ first [ discriminate | intros _; repeat match goal with |- _ /\ _ => split end; (discriminate || reflexivity) | let X := fresh in intro X; exfalso; apply X; reflexivity ]
  | first [ intros _; discriminate | let X := fresh in intro X; exfalso; repeat match goal with Y : _ /\ _ |- _ => destruct Y end; congruence ] ].
Lemma rewrite_total : forall decls deps,
  (forall e, (rewrite decls deps e <> None) <-> expr_ok decls e = true) /\ (forall i, (rewrite_entry decls deps i <> None) <-> entry_ok decls i = true) /\
  (forall s, (rewrite_sel decls deps s <> None) <-> sel_ok decls s = true).
Proof.
  intros decls deps. apply expr_mutind.
  - intro n. split; [intros _; reflexivity|intros _; discriminate].
  - intros f a IH. cbn [rewrite expr_ok]. rewrite <- IH. destruct (rewrite decls deps a); cbn [option_map]; fin.
  - intros f a IHa b IHb. cbn [rewrite expr_ok]. rewrite andb_true_iff, <- IHa, <- IHb. destruct (rewrite decls deps a), (rewrite decls deps b); fin.
  - intros x i IHi s IHs. rewrite rewrite_read. rewrite shape_indexed. change (expr_ok decls (ERead x i s)) with (indexed decls x i && entry_ok decls i && sel_ok decls s). rewrite !andb_true_iff, <- IHi, <- IHs.
    destruct (indexed decls x i), (rewrite_entry decls deps i), (rewrite_sel decls deps s) as [[p sg]|]; fin.
  - split; [intros _; reflexivity|intros _; discriminate].
  - intros e IH. rewrite rewrite_at. change (entry_ok decls (IAt e)) with (expr_ok decls e). rewrite <- IH. destruct (rewrite decls deps e); cbn [option_map]; fin.
  - split; [intros _; reflexivity|intros _; discriminate].
  - intros e IH n. rewrite rewrite_part. change (sel_ok decls (SPart e n)) with (expr_ok decls e). rewrite <- IH. destruct (rewrite decls deps e); cbn [option_map]; fin.
  - intros [|] o w; split; try (intros _; discriminate); try reflexivity; [intro X; exfalso; apply X; reflexivity|discriminate].
  - intros [|] o w e IH n; rewrite rewrite_fpart; [split; [intro X; exfalso; apply X; reflexivity|discriminate]|]. change (sel_ok decls (SFieldPart false o w e n)) with (expr_ok decls e). rewrite <- IH. destruct (rewrite decls deps e); cbn [option_map]; fin.
Qed.
Lemma assign_total : forall decls deps x i s e, write_assign decls deps x i s e <> None <-> stmt_ok decls (SAssign x i s e) = true.
Proof.
  intros decls deps x i s e. destruct (rewrite_total decls deps) as (RE & RI & RS). cbn [stmt_ok]. rewrite !andb_true_iff, <- RI, <- RS, <- RE. unfold write_assign. rewrite shape_indexed.
  destruct (d_kind (decls x)), (indexed decls x i), (rewrite_entry decls deps i), (rewrite_sel decls deps s) as [[p sg]|], (rewrite decls deps e); fin.
Qed.
Lemma write_total : forall decls n,
  (forall s deps, (stmt_size s <= n)%nat -> write decls deps s <> None <-> stmt_ok decls s = true) /\
  (forall l deps, (list_sum (map stmt_size l) <= n)%nat -> writes decls deps l <> None <-> forallb (stmt_ok decls) l = true).
Proof.
  intros decls. induction n as [|n [IHs IHl]].
  - split; [intros s deps L; pose proof (size_pos s); lia|]. intros [|s l] deps L; [|cbn in L; pose proof (size_pos s); lia]. split; [intros _; reflexivity|intros _; discriminate].
  - assert (P : forall s deps, (stmt_size s <= S n)%nat -> write decls deps s <> None <-> stmt_ok decls s = true).
    { intros [x i s e|e a b] deps L.
      - cbn [write]. rewrite <- (assign_total decls deps x i s e). destruct (write_assign decls deps x i s e); cbn [option_map]; fin.
      - cbn [stmt_size] in L.
        change (write decls deps (SIf e a b)) with (match rewrite decls deps e with Some e' => match write_all decls deps a with Some (ca, da) => match write_all decls deps b with Some (cb, db) => Some (VIf e' ca cb, deps ++ da ++ db) | None => None end | None => None end | None => None end).
        cbn [stmt_ok]. rewrite !andb_true_iff. rewrite <- (proj1 (rewrite_total decls deps) e), <- (IHl a deps) by lia. rewrite <- (IHl b deps) by lia. rewrite (write_all_eq decls a deps), (write_all_eq decls b deps).
        destruct (rewrite decls deps e), (writes decls deps a) as [[ca da]|], (writes decls deps b) as [[cb db]|]; fin. }
    split; [exact P|]. intros [|s l] deps L; [split; [intros _; reflexivity|intros _; discriminate]|]. cbn [map list_sum fold_right] in L. change (fold_right Init.Nat.add 0%nat (map stmt_size l)) with (list_sum (map stmt_size l)) in L. pose proof (size_pos s).
    cbn [writes forallb]. rewrite andb_true_iff, <- (P s deps) by lia. destruct (write decls deps s) as [[c d]|]; [|split; [congruence|tauto]].
    rewrite <- (IHl l d) by lia. destruct (writes decls d l) as [[cs d']|]; fin.
Qed.
Theorem C14_written : forall decls l, (exists c d, writes decls [] l = Some (c, d)) <-> forallb (stmt_ok decls) l = true.
Proof.
  intros decls l. rewrite <- (proj2 (write_total decls _) l [] (le_n _)). destruct (writes decls [] l) as [[c d]|]; split.
  - intros _. discriminate.
  - intros _. exists c, d. reflexivity.
  - intros (c & d & H). discriminate.
  - congruence.
Qed.

(** * Members of bitfields as whole assignments *)

(** The value [old] with [n] bits replaced from [o] on: an assignment to a member is the assignment of the whole variable with these bits replaced. The state
    machines of C01 to C13, whose assignments are to whole variables, hence apply to assignments of members. *)
Definition replaced (o n old v : Z) : Z := Z.lor (Z.ldiff old (Z.shiftl (Z.ones n) o)) (Z.shiftl (Z.land v (Z.ones n)) o).
Lemma replaced_bit : forall o n old v k, 0 <= o -> 0 <= n -> 0 <= k -> Z.testbit (replaced o n old v) k = if (o <=? k) && (k <? o + n) then Z.testbit v (k - o) else Z.testbit old k.
Proof.
  intros o n old v k O N K. unfold replaced. rewrite Z.lor_spec, Z.ldiff_spec, !Z.shiftl_spec by lia.
  destruct (Z.leb_spec o k).
  - rewrite Z.land_spec. destruct (Z.ltb_spec k (o + n)); cbn [andb].
    + rewrite Z.ones_spec_low by lia. cbn [negb]. rewrite andb_false_r, andb_true_r. reflexivity.
    + rewrite Z.ones_spec_high by lia. cbn [negb]. rewrite andb_true_r, andb_false_r. apply orb_false_r.
  - cbn [andb]. rewrite !(Z.testbit_neg_r _ (k - o)) by lia. cbn [negb]. rewrite andb_true_r. apply orb_false_r.
Qed.
Lemma bits_bit : forall n f k, 0 <= k < Z.of_nat n -> Z.testbit (bits f n) k = f k.
Proof.
  induction n as [|n IH]; intros f k K; [lia|]. cbn [bits]. destruct (Z.eq_dec k 0) as [->|N].
  - rewrite Z.bit0_odd, Z.odd_add, Z.odd_mul. cbn [Z.odd]. cbn [andb]. rewrite xorb_false_r. destruct (f 0); reflexivity.
  - replace k with (Z.succ (k - 1)) at 1 by lia. rewrite Z.add_comm. rewrite Z.testbit_succ_r by lia. rewrite (IH (fun k => f (k + 1)) (k - 1)) by lia. f_equal. lia.
Qed.
Lemma number_bit : forall sg f n k, 0 <= k < n -> Z.testbit (number sg f n) k = f k.
Proof.
  intros sg f n k K. unfold number. destruct (sg && (0 <? n) && f (n - 1)); [|apply bits_bit; lia].
  rewrite <- (Z.mod_pow2_bits_low _ n k) by lia.
  assert (E : (bits f (Z.to_nat n) - 2 ^ n) mod 2 ^ n = bits f (Z.to_nat n) mod 2 ^ n).
  { replace (bits f (Z.to_nat n) - 2 ^ n) with (bits f (Z.to_nat n) + (-1) * 2 ^ n) by lia. apply Z.mod_add. apply Z.pow_nonzero; lia. }
  rewrite E, Z.mod_pow2_bits_low by lia. apply bits_bit. lia.
Qed.
Theorem C14_member_as_whole : forall decls unk first evs x e o n i k y, d_size (decls x) = 0 -> 0 <= o -> 0 <= n -> inside decls y i k = true ->
  current first (exec decls unk first evs (SAssign x INone (SField false o n) e)) y i k =
  current first (exec decls unk first evs (SAssign x INone SAll (EB (replaced o n) (ERead x INone SAll) e))) y i k.
Proof.
  intros decls unk first evs x e o n i k y S O N E. cbn [exec sel_range entry_value]. 
  change (value decls unk first evs (EB (replaced o n) (ERead x INone SAll) e)) with (replaced o n (value decls unk first evs (ERead x INone SAll)) (value decls unk first evs e)).
  change (value decls unk first evs (ERead x INone SAll)) with (number (d_signed (decls x)) (seen decls unk first evs x 0) (d_width (decls x))). cbn [current]. unfold covers. cbn [e_x e_i e_o e_n e_v]. destruct (Nat.eqb_spec y x) as [->|]; [|reflexivity]. cbn [andb].
  pose proof E as E0. unfold inside in E0. rewrite S in E0. cbn [Z.eqb] in E0. apply andb_true_iff in E0. destruct E0 as [E0 W]. apply andb_true_iff in E0. destruct E0 as [I K]. rewrite I. apply Z.eqb_eq in I. subst i.
  apply Z.leb_le in K. apply Z.ltb_lt in W. cbn [andb]. assert (K' : (0 <=? k) = true) by (apply Z.leb_le; lia). assert (W' : (k <? 0 + d_width (decls x)) = true) by (apply Z.ltb_lt; lia). rewrite K', W'. cbn [andb].
  rewrite Z.sub_0_r. rewrite (replaced_bit o n _ _ k O N K). destruct ((o <=? k) && (k <? o + n)); [reflexivity|]. rewrite number_bit by lia. unfold seen. rewrite E. reflexivity.
Qed.

Print Assumptions C14_last_write.
Print Assumptions C14_no_write.
Print Assumptions C14_block.
Print Assumptions C14_read.
Print Assumptions C14_parts.
Print Assumptions C14_written.
Print Assumptions C14_member_as_whole.

(** * Examples *)

(** 0: flip-flop of 8 bits; 1: table of 4 entries of 4 bits; 2: temporary; 3: input; 4: constant. *)
Definition dx (x : var) : decl :=
  match x with
  | 0%nat => {| d_kind := KFlip; d_signed := false; d_width := 8; d_size := 0 |}
  | 1%nat => {| d_kind := KFlip; d_signed := false; d_width := 4; d_size := 4 |}
  | 2%nat => {| d_kind := KTemp; d_signed := false; d_width := 8; d_size := 0 |}
  | 3%nat => {| d_kind := KInput; d_signed := false; d_width := 4; d_size := 0 |}
  | _ => {| d_kind := KConst; d_signed := true; d_width := 4; d_size := 0 |}
  end.
Definition rd (x : var) : expr := ERead x INone SAll.
(** t = a[4,4]; a[0,2] = in; if (a) { tab[in] = t; tab[1][2,2] = a } else { t = tab[0] }; a.field(2,3) = tab[1]; t = a + tab[3] *)
Definition px : list stmt :=
  [ SAssign 2%nat INone SAll (ERead 0%nat INone (SPart (EC 4) 4));
    SAssign 0%nat INone (SPart (EC 0) 2) (rd 3%nat);
    SIf (rd 0%nat) [ SAssign 1%nat (IAt (rd 3%nat)) SAll (rd 2%nat); SAssign 1%nat (IAt (EC 1)) (SPart (EC 2) 2) (rd 0%nat) ] [ SAssign 2%nat INone SAll (ERead 1%nat (IAt (EC 0)) SAll) ];
    SAssign 0%nat INone (SField false 2 3) (ERead 1%nat (IAt (EC 1)) SAll);
    SAssign 2%nat INone SAll (EB Z.add (rd 0%nat) (ERead 1%nat (IAt (EC 3)) SAll)) ].
Example C14_block_ex : forallb (fine dx) px = true /\ forallb (stmt_ok dx) px = true /\
  writes dx [] px = Some
    ([ VSet CT 2%nat VNone VAll false (VRead CQ 0%nat VNone (VPart (VC 4) 4) false);
       VSet CD 0%nat VNone (VPart (VC 0) 2) false (VRead CI 3%nat VNone VAll false);
       VIf (VRead CD 0%nat VNone VAll false)
         [ VSet CD 1%nat (VAt (VRead CI 3%nat VNone VAll false)) VAll false (VRead CT 2%nat VNone VAll false); VSet CD 1%nat (VAt (VC 1)) (VPart (VC 2) 2) false (VRead CD 0%nat VNone VAll false) ]
         [ VSet CT 2%nat VNone VAll false (VRead CQ 1%nat (VAt (VC 0)) VAll false) ];
       VSet CD 0%nat VNone (VPart (VC 2) 3) false (VRead CD 1%nat (VAt (VC 1)) VAll false);
       VSet CT 2%nat VNone VAll false (VB Z.add (VRead CD 0%nat VNone VAll false) (VRead CD 1%nat (VAt (VC 3)) VAll false)) ], [2; 0; 0; 2; 1; 1; 0; 2; 2; 0; 2]%nat).
Proof. split; [reflexivity|split; reflexivity]. Qed.
(** With a = 0xA5, in = 3 and a table of 9: the register ends as 0xB7, entry 3 as 0xA, entry 1 as 0xD, entry 0 is unchanged. *)
Definition mx (n : Z) : Z -> Z -> bool := fun _ k => Z.testbit n k.
Definition qx : mem := fun x => match x with 0%nat => mx 0xA5 | 1%nat => mx 9 | 3%nat => mx 3 | _ => mx 0 end.
Example C14_run_ex :
  match writes dx [] px with
  | Some (c, _) => match vexecs dx (fun _ _ _ => true) (start qx qx qx qx qx) c with
                   | Some s => map (fun p => number false (m_d s (fst p) (snd p)) (d_width (dx (fst p)))) [(0%nat, 0); (1%nat, 3); (1%nat, 1); (1%nat, 0)]
                   | None => []
                   end
  | None => []
  end = [0xB7; 0xA; 0xD; 9].
Proof. reflexivity. Qed.

(** * Signed members *)

(** Only an access in $signed( ) would not be accepted on the left of an assignment, and none is written there: a signed member is refused, read or assigned,
    whatever is accessed, and the code of every block written assigns signals, entries and ranges of them only. *)
Theorem C14_signed_member_refused : forall decls deps x i o w e,
  write_assign decls deps x i (SField true o w) e = None /\ (forall a n, write_assign decls deps x i (SFieldPart true o w a n) e = None) /\
  rewrite decls deps (ERead x i (SField true o w)) = None /\ (forall a n, rewrite decls deps (ERead x i (SFieldPart true o w a n)) = None).
Proof.
  intros decls deps x i o w e. split; [|split; [intros a n|split; [|intros a n]]]; unfold write_assign; rewrite ?rewrite_read;
    try (destruct (d_kind (decls x)); [reflexivity| | | |]); destruct (shape_ok decls x i); try reflexivity; destruct (rewrite_entry decls deps i); reflexivity.
Qed.
Fixpoint plain_left (c : vstmt) : bool :=
  match c with VSet _ _ _ _ sg _ => negb sg | VIf _ a b => forallb plain_left a && forallb plain_left b end.
Lemma plain_writes : forall decls n,
  (forall s deps c d, (stmt_size s <= n)%nat -> write decls deps s = Some (c, d) -> plain_left c = true) /\
  (forall l deps c d, (list_sum (map stmt_size l) <= n)%nat -> writes decls deps l = Some (c, d) -> forallb plain_left c = true).
Proof.
  intros decls. induction n as [|n [IHs IHl]].
  - split; [intros s deps c d L; pose proof (size_pos s); lia|]. intros [|s l] deps c d L W; [|cbn in L; pose proof (size_pos s); lia]. injection W as <- _. reflexivity.
  - assert (P : forall s deps c d, (stmt_size s <= S n)%nat -> write decls deps s = Some (c, d) -> plain_left c = true).
    { intros [x i s e|e a b] deps c d L W.
      - cbn [write] in W. destruct (write_assign decls deps x i s e) as [c0|] eqn:E; [|discriminate]. cbn [option_map] in W. injection W as <- _. unfold write_assign in E.
        assert (N : forall p sg, rewrite_sel decls deps s = Some (p, sg) -> sg = false).
        { intros p sg R. destruct s as [|e0 m|[|] o w|[|] o w e0 m]; rewrite ?rewrite_part, ?rewrite_fpart in R; try discriminate R; try (cbn [rewrite_sel] in R; congruence);
          destruct (rewrite decls deps e0); cbn [option_map] in R; congruence. }
        destruct (rewrite_sel decls deps s) as [[p sg]|].
        + rewrite (N p sg eq_refl) in E. destruct (d_kind (decls x)), (shape_ok decls x i), (rewrite_entry decls deps i), (rewrite decls deps e); try discriminate E; injection E as <-; reflexivity.
        + destruct (d_kind (decls x)), (shape_ok decls x i), (rewrite_entry decls deps i); discriminate E.
      - cbn [stmt_size] in L.
        change (write decls deps (SIf e a b)) with (match rewrite decls deps e with Some e' => match write_all decls deps a with Some (ca, da) => match write_all decls deps b with Some (cb, db) => Some (VIf e' ca cb, deps ++ da ++ db) | None => None end | None => None end | None => None end) in W.
        rewrite (write_all_eq decls a deps), (write_all_eq decls b deps) in W.
        destruct (rewrite decls deps e); [|discriminate]. destruct (writes decls deps a) as [[ca da]|] eqn:EA; [|discriminate]. destruct (writes decls deps b) as [[cb db]|] eqn:EB; [|discriminate].
        injection W as <- _. cbn [plain_left]. rewrite (IHl a deps ca da) by (lia || exact EA). rewrite (IHl b deps cb db) by (lia || exact EB). reflexivity. }
    split; [exact P|]. intros [|s l] deps c d L W; [injection W as <- _; reflexivity|]. cbn [map list_sum fold_right] in L. change (fold_right Init.Nat.add 0%nat (map stmt_size l)) with (list_sum (map stmt_size l)) in L. pose proof (size_pos s).
    cbn [writes] in W. destruct (write decls deps s) as [[c0 d0]|] eqn:E0; [|discriminate]. destruct (writes decls d0 l) as [[cs d']|] eqn:E1; [|discriminate]. injection W as <- _.
    cbn [forallb]. rewrite (P s deps c0 d0) by (lia || exact E0). exact (IHl l d0 cs d' ltac:(lia) E1).
Qed.
Theorem C14_left_sides : forall decls l c d, writes decls [] l = Some (c, d) -> forallb plain_left c = true.
Proof. intros decls l c d W. exact (proj2 (plain_writes decls _) l [] c d (le_n _) W). Qed.
Example C14_left_sides_ex : writes dx [] [SAssign 0%nat INone (SField true 0 4) (EC 1)] = None /\
  writes dx [] [SAssign 0%nat INone (SField false 0 4) (EC 1)] = Some ([VSet CD 0%nat VNone (VPart (VC 0) 4) false (VC 1)], [0%nat]).
Proof. split; reflexivity. Qed.

Print Assumptions C14_signed_member_refused.
Print Assumptions C14_left_sides.
