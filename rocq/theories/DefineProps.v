(** C47: temporaries which become Verilog macros keep their values. *)
From Coq Require Import List Bool Arith ZArith Lia.
Import ListNotations.
From Verif Require Import FsmModel FsmRun FsmEmit FsmRegion FsmBig FsmProps UseModel UseProofs UseSound UseTwo UseCycle UseProps UseFsm UseFsmProps DefineModel DefineProofs DefineSim DefineCycle DefineExpand DefineMacros DefineMixed.

(** Units considered: at most [n] variables; the registers [raw] which the compiler assigns itself (KRaw of UseModel) are not assigned by the source. *)
Definition shaped (n : nat) (raw : var -> bool) (m : kmod) : bool :=
  shapes n raw (k_pre m) && forallb (fun st => shapes n raw (snd st)) (k_states m) && shapes n raw (k_post m).
(** The second writing, temporaries being known, and its macros. *)
Definition second (vars : var -> bool) (m : kmod) : kout := module_use (made_temporary vars m) m.

Lemma shaped_parts n raw m : shaped n raw m = true -> shapes n raw (k_pre m) = true /\ (forall st, In st (k_states m) -> shapes n raw (snd st) = true) /\ shapes n raw (k_post m) = true.
Proof. unfold shaped. intros H. apply andb_true_iff in H as [H C]. apply andb_true_iff in H as [A B]. rewrite forallb_forall in B. auto. Qed.
Lemma define_temp n vars part m x : made_define n vars part m x = true -> made_temporary vars m x = true.
Proof. unfold made_define. intros H. apply andb_true_iff in H as [H _]. now apply andb_true_iff in H as [H _]. Qed.
Lemma define_stable n vars part m s x : module_stable n m = Some s -> made_define n vars part m x = true -> t_st s x = Some true.
Proof. unfold made_define. intros ->. intros H. apply andb_true_iff in H as [_ H]. destruct (t_st s x) as [[|]|]; [reflexivity|discriminate|discriminate]. Qed.
Lemma define_some n vars part m x : made_define n vars part m x = true -> exists s, module_stable n m = Some s.
Proof. unfold made_define. intros H. apply andb_true_iff in H as [_ H]. destruct (module_stable n m); [eauto|discriminate]. Qed.
Lemma noq_define n vars part m : noq (made_define n vars part m) (o_use (module_use tmp0 m)).
Proof. intros x X. apply define_temp in X. now apply temp_noq in X. Qed.

Lemma macros_second def vars m idx : unit_ok m idx = true -> macros def (second vars m) = macros def (module_use tmp0 m).
Proof. intros OK. destruct (C12_same_code vars m idx OK) as (A & B & C). unfold macros, second. now rewrite A, B, C. Qed.
Lemma with_second def vars m idx : unit_ok m idx = true ->
  match with_macros def (second vars m), with_macros def (module_use tmp0 m) with
  | Some o, Some o' => o_pre o = o_pre o' /\ o_arms o = o_arms o' /\ o_post o = o_post o'
  | None, None => True
  | _, _ => False
  end.
Proof.
  intros OK. unfold with_macros. rewrite (macros_second def vars m idx OK). destruct (C12_same_code vars m idx OK) as (A & B & C). unfold second. rewrite A, B, C.
  destruct (exputs def _ (o_pre _)); [|exact I]. cbn [obind]. destruct (exput_arms def _ (o_arms _)); [|exact I]. cbn [obind].
  destruct (exputs def _ (o_post _)); [|exact I]. cbn [obind]. auto.
Qed.

(** ** Each macro is defined exactly once. *)
Theorem C47_one_definition n raw vars part m idx x :
  shaped n raw m = true -> unit_ok m idx = true -> made_define n vars part m x = true ->
  exists t, filter (fun d => Nat.eqb (fst d) x) (macros (made_define n vars part m) (second vars m)) = [(x, t)].
Proof.
  intros SH OK X. destruct (shaped_parts _ _ _ SH) as (S1 & S2 & S3). destruct (define_some _ _ _ _ _ X) as [s ST].
  rewrite (macros_second _ vars m idx OK).
  pose proof (macros_once n raw m (made_define n vars part m) s ST (fun y => define_stable n vars part m s y ST) (noq_define n vars part m) S1 S2 S3 idx OK x X) as O.
  revert O. unfold occ. induction (macros (made_define n vars part m) (module_use tmp0 m)) as [|[y t] r IH]; [discriminate|]. cbn [map fst count_occ filter].
  destruct (Nat.eq_dec y x) as [->|N].
  - rewrite Nat.eqb_refl. intros [= Z]. exists t. f_equal. clear IH. apply (count_occ_not_In Nat.eq_dec) in Z.
    induction r as [|[z v] r IH]; [reflexivity|]. cbn [map fst In filter] in *. destruct (Nat.eqb_spec z x) as [->|_]; [exfalso; apply Z; now left|]. apply IH. intros I. apply Z. now right.
  - destruct (Nat.eqb_spec y x); [congruence|exact IH].
Qed.
Print Assumptions C47_one_definition.

(** ** Expansion ends: every macro named is defined, no macro names itself through others. *)
Theorem C47_expansion_ends n raw vars part m idx :
  shaped n raw m = true -> unit_ok m idx = true -> module_stable n m <> None ->
  with_macros (made_define n vars part m) (second vars m) <> None.
Proof.
  intros SH OK NS. destruct (shaped_parts _ _ _ SH) as (S1 & S2 & S3). destruct (module_stable n m) as [s|] eqn:ST; [|congruence].
  pose proof (with_second (made_define n vars part m) vars m idx OK) as W.
  rewrite (with_macros_ok n raw m (made_define n vars part m) s ST (fun y => define_stable n vars part m s y ST) (noq_define n vars part m) S1 S2 S3 idx OK) in W.
  destruct (with_macros (made_define n vars part m) (second vars m)); [discriminate|destruct W].
Qed.
Print Assumptions C47_expansion_ends.

(** ** Runs: with macros, registers and the index are those of the unit whose variables are all registers. *)
Definition same_with_macros (n : nat) (vars part : var -> bool) (m : kmod) : Prop :=
  exists o, with_macros (made_define n vars part m) (second vars m) = Some o /\
  forall ini edge reidx Q1 Q2 i, (forall x, made_temporary vars m x = false -> Q1 x = Q2 x) -> forall k,
  match krun (module_use tmp0 m) tmp0 ini edge reidx k Q1 i, krun o (made_temporary vars m) ini edge reidx k Q2 i with
  | Some (R1, i1), Some (R2, i2) => i1 = i2 /\ forall x, made_temporary vars m x = false -> R1 x = R2 x
  | None, None => True
  | _, _ => False
  end.

Section Main.
  Variables (n : nat) (raw vars part : var -> bool) (m : kmod) (s : sst).
  Hypothesis SH : shaped n raw m = true.
  Hypothesis OK : forall idx, unit_ok m idx = true.
  Hypothesis ST : module_stable n m = Some s.
  Hypothesis KEPT : forall x, made_define n vars part m x = true -> t_kept s x = false.
  Let def := made_define n vars part m.
  Let stable := fun y => define_stable n vars part m s y ST.
  Let M := MM m def.

  Lemma fine_main : fine def s.
  Proof. intros x X [B|B]; [rewrite (stable x X) in B; discriminate|rewrite (KEPT x X) in B; discriminate]. Qed.
  Lemma cycle_main Q (T D : store) idx : (forall x, def x = false -> T x = D x) ->
    match kcycle (module_use tmp0 m) Q T idx, kcycle (put_out def M (module_use tmp0 m)) Q D idx with
    | Some (E1, i1), Some (E2, i2) => i1 = i2 /\ rel def M Q (settled m idx) (fst (snd (s_post tmp0 m))) (u3 tmp0 m) E1 E2
    | None, None => True
    | _, _ => False
    end.
  Proof.
    destruct (shaped_parts _ _ _ SH) as (S1 & S2 & S3).
    apply (cycle_sim n raw m def M Q s ST fine_main (noq_define n vars part m) S1 S2 S3); [| | |apply OK].
    - apply (texts_pre n raw m def s ST stable (noq_define n vars part m) S1 S2 S3 idx (OK idx)).
    - apply (texts_st n raw m def s ST stable (noq_define n vars part m) S1 S2 S3 idx (OK idx)).
    - apply (texts_post n raw m def s ST stable (noq_define n vars part m) S1 S2 S3 idx (OK idx)).
  Qed.
  Lemma second_main : exists o, with_macros def (second vars m) = Some o /\ forall Q D i, kcycle o Q D i = kcycle (put_out def M (module_use tmp0 m)) Q D i.
  Proof.
    destruct (shaped_parts _ _ _ SH) as (S1 & S2 & S3). pose proof (with_second def vars m 0 (OK 0)) as W.
    rewrite (with_macros_ok n raw m def s ST stable (noq_define n vars part m) S1 S2 S3 0 (OK 0)) in W.
    destruct (with_macros def (second vars m)) as [o|]; [|destruct W]. exists o. split; [reflexivity|]. destruct W as (A & B & C). now apply kcycle_code.
  Qed.

  Lemma step_main Q1 Q2 ini i : (forall x, made_temporary vars m x = false -> Q1 x = Q2 x) ->
    match kcycle (module_use tmp0 m) Q1 (d_start tmp0 ini Q1) i, kcycle (put_out def M (module_use tmp0 m)) Q2 (d_start (made_temporary vars m) ini Q2) i with
    | Some (E1, i1), Some (E2, i2) => i1 = i2 /\ (forall x, made_temporary vars m x = false -> E1 x = E2 x) /\
        forall x, settled m i x = true -> In x (k_d m) -> assigned m x -> E1 x = (if def x then veval Q2 E2 (M x) else E2 x)
    | None, None => True
    | _, _ => False
    end.
  Proof.
    intros H. destruct (start_agr vars m ini Q1 Q2 H) as [A S]. pose proof (cycle_sound m Q1 Q2 _ _ i (OK i) A) as CS.
    pose proof (cycle_main Q2 (d_start (made_temporary vars m) ini Q2) (d_start (made_temporary vars m) ini Q2) i (fun _ _ => eq_refl)) as CM.
    destruct (kcycle (module_use tmp0 m) Q1 (d_start tmp0 ini Q1) i) as [[E1 i1]|];
      destruct (kcycle (module_use tmp0 m) Q2 (d_start (made_temporary vars m) ini Q2) i) as [[E2 i2]|]; try contradiction;
      destruct (kcycle (put_out def M (module_use tmp0 m)) Q2 (d_start (made_temporary vars m) ini Q2) i) as [[E3 i3]|]; try contradiction; [|exact I].
    destruct CS as (-> & K & IV). destruct CM as (-> & R). split; [reflexivity|]. split.
    - intros x T. rewrite (K x (S x T)). apply R. destruct (def x) eqn:X; [|reflexivity]. apply define_temp in X. congruence.
    - intros x SE KD AS. assert (E12 : E1 x = E2 x).
      { destruct (made_temporary vars m x) eqn:T; [|apply K; now apply S]. eapply after_d; [exact IV|exact SE|now apply memb_In|now apply assigned_d|now apply temp_noq in T]. }
      rewrite E12. destruct (def x) eqn:X; [|apply R; exact X].
      apply (after_define m def M Q2 (noq_define n vars part m) x E2 E3 i R SE KD AS X).
  Qed.

  Lemma run_main o : (forall Q D i, kcycle o Q D i = kcycle (put_out def M (module_use tmp0 m)) Q D i) ->
    forall ini edge reidx Q1 Q2 i, (forall x, made_temporary vars m x = false -> Q1 x = Q2 x) -> forall k,
    match krun (module_use tmp0 m) tmp0 ini edge reidx k Q1 i, krun o (made_temporary vars m) ini edge reidx k Q2 i with
    | Some (R1, i1), Some (R2, i2) => i1 = i2 /\ forall x, made_temporary vars m x = false -> R1 x = R2 x
    | None, None => True
    | _, _ => False
    end.
  Proof.
    intros EO ini edge reidx Q1 Q2 i H. induction k as [|k IH]; [cbn [krun]; now split|]. cbn [krun].
    destruct (krun (module_use tmp0 m) tmp0 ini edge reidx k Q1 i) as [[R1 i1]|];
      destruct (krun o (made_temporary vars m) ini edge reidx k Q2 i) as [[R2 i2]|]; try contradiction; [|exact I].
    destruct IH as [-> IH]. cbn [obind]. rewrite EO. pose proof (step_main R1 R2 (ini k) i2 IH) as SM.
    destruct (kcycle (module_use tmp0 m) R1 (d_start tmp0 (ini k) R1) i2) as [[D1 j1]|];
      destruct (kcycle (put_out def M (module_use tmp0 m)) R2 (d_start (made_temporary vars m) (ini k) R2) i2) as [[D2 j2]|]; try contradiction; [|exact I].
    destruct SM as (-> & K & _). cbn [obind]. split; [reflexivity|]. intros x T. f_equal. now apply K.
  Qed.

  Lemma seen_main o Q D x : o_pre o = o_pre (second vars m) -> o_arms o = o_arms (second vars m) -> o_post o = o_post (second vars m) ->
    seen def o Q D x = Some (if def x then veval Q D (M x) else D x).
  Proof.
    intros A B C. destruct (shaped_parts _ _ _ SH) as (S1 & S2 & S3). destruct (C12_same_code vars m 0 (OK 0)) as (A' & B' & C'). unfold second in *.
    unfold seen, macros. rewrite A, B, C, A', B', C'.
    change (seen def (module_use tmp0 m) Q D x = Some (if def x then veval Q D (M x) else D x)). destruct (def x) eqn:X.
    - apply (seen_ok n raw m def s ST stable (noq_define n vars part m) S1 S2 S3 0 (OK 0) Q D x X).
    - now apply seen_plain.
  Qed.
End Main.

Lemma once_unmixed n raw vars part m : shaped n raw m = true -> (forall x, made_temporary vars m x = false -> count_occ Nat.eq_dec (assignments m) x <= 1) ->
  forall s, module_stable n m = Some s -> forall x, made_define n vars part m x = true -> t_kept s x = false.
Proof.
  intros SH H1 s ST x _. destruct (shaped_parts _ _ _ SH) as (S1 & S2 & S3). eapply (unit_clean n raw m s ST S1 S2 S3).
  intros y Y. apply H1. destruct (made_temporary vars m y) eqn:T; [|reflexivity]. apply temp_noq in T. congruence.
Qed.

(** ** Registers are each assigned at one place of the text at most; temporaries at any number of places. *)
Theorem C47_same_behaviour n raw vars part m :
  shaped n raw m = true -> (forall idx, unit_ok m idx = true) -> module_stable n m <> None ->
  (forall x, made_temporary vars m x = false -> count_occ Nat.eq_dec (assignments m) x <= 1) ->
  same_with_macros n vars part m.
Proof.
  intros SH OK NS H1. destruct (module_stable n m) as [s|] eqn:ST; [|congruence].
  pose proof (once_unmixed n raw vars part m SH H1 s ST) as KEPT.
  destruct (second_main n raw vars part m s SH OK ST) as (o & W & E). exists o. split; [exact W|].
  apply (run_main n raw vars part m s SH OK ST KEPT o E).
Qed.
Print Assumptions C47_same_behaviour.

(** ** The same when registers are assigned several times, if the analysis met no row with both sides of a variable assigned again. *)
Theorem C47_same_behaviour_unmixed n raw vars part m :
  shaped n raw m = true -> (forall idx, unit_ok m idx = true) -> module_stable n m <> None ->
  (forall x, made_define n vars part m x = true -> mixed n m x = false) ->
  same_with_macros n vars part m.
Proof.
  intros SH OK NS HM. destruct (module_stable n m) as [s|] eqn:ST; [|congruence].
  assert (KEPT : forall x, made_define n vars part m x = true -> t_kept s x = false) by (intros x X; specialize (HM x X); unfold mixed in HM; now rewrite ST in HM).
  destruct (second_main n raw vars part m s SH OK ST) as (o & W & E). exists o. split; [exact W|].
  apply (run_main n raw vars part m s SH OK ST KEPT o E).
Qed.
Print Assumptions C47_same_behaviour_unmixed.

(** ** Combinational outputs and bound inputs. *)
Theorem C47_same_outputs n raw vars part m :
  shaped n raw m = true -> (forall idx, unit_ok m idx = true) -> module_stable n m <> None ->
  (forall x, made_define n vars part m x = true -> mixed n m x = false) ->
  exists o, with_macros (made_define n vars part m) (second vars m) = Some o /\
  forall ini edge reidx Q1 Q2 i, (forall x, made_temporary vars m x = false -> Q1 x = Q2 x) -> forall k x,
  In x (k_d m) -> assigned m x ->
  match krun (module_use tmp0 m) tmp0 ini edge reidx k Q1 i with Some (_, i1) => settled m i1 x = true | None => True end ->
  match kend (module_use tmp0 m) tmp0 ini edge reidx k Q1 i, krun o (made_temporary vars m) ini edge reidx k Q2 i, kend o (made_temporary vars m) ini edge reidx k Q2 i with
  | Some (E1, _), Some (R2, _), Some (E2, _) => seen (made_define n vars part m) (second vars m) R2 E2 x = Some (E1 x)
  | None, _, None => True
  | _, _, _ => False
  end.
Proof.
  intros SH OK NS HM. destruct (module_stable n m) as [s|] eqn:ST; [|congruence].
  assert (KEPT : forall x, made_define n vars part m x = true -> t_kept s x = false) by (intros x X; specialize (HM x X); unfold mixed in HM; now rewrite ST in HM).
  destruct (second_main n raw vars part m s SH OK ST) as (o & W & E). exists o. split; [exact W|].
  intros ini edge reidx Q1 Q2 i H k x KD AS SE. unfold kend. pose proof (run_main n raw vars part m s SH OK ST KEPT o E ini edge reidx Q1 Q2 i H k) as B.
  destruct (krun (module_use tmp0 m) tmp0 ini edge reidx k Q1 i) as [[R1 i1]|];
    destruct (krun o (made_temporary vars m) ini edge reidx k Q2 i) as [[R2 i2]|]; try contradiction; [|exact I].
  destruct B as [-> B]. cbn [obind]. rewrite E. pose proof (step_main n raw vars part m s SH OK ST KEPT R1 R2 (ini k) i2 B) as SM.
  destruct (kcycle (module_use tmp0 m) R1 (d_start tmp0 (ini k) R1) i2) as [[D1 j1]|];
    destruct (kcycle (put_out _ _ (module_use tmp0 m)) R2 (d_start (made_temporary vars m) (ini k) R2) i2) as [[D2 j2]|]; try contradiction; [|exact I].
  destruct SM as (_ & _ & K). rewrite (K x SE KD AS). apply (seen_main n raw vars part m s SH OK ST (second vars m) R2 D2 x); reflexivity.
Qed.
Print Assumptions C47_same_outputs.

(** ** Programs of C01, without always blocks: registers hold at the end what the source computes, macros being used in the states. *)
Theorem C47_source_result fuel unit p F sts n raw : compile fuel unit [] p = Some F -> program_chains fuel unit [] p = Some sts ->
  structureds false p = true -> covereds p = true -> (forall x, In x (jdones p) -> False) ->
  forall q kd vars part,
  let m := unit_of [] sts [] q kd in
  let tmp := made_temporary vars m in
  shaped n raw m = true -> module_stable n m <> None -> (forall x, tmp x = false -> count_occ Nat.eq_dec (assignments m) x <= 1) ->
  exists o, with_macros (made_define n vars part m) (second vars m) = Some o /\
  forall ini s s2 s', exec false p s Normal s' -> (forall x, tmp x = false -> s2 x = s x) ->
  exists n0, forall k, n0 <= k -> exists R, krun o tmp ini (fun _ _ v => v) (fun _ i => i) k s2 (f_entry F) = Some (R, 0) /\
    forall x, tmp x = false -> R x = s' x.
Proof.
  intros CP EC STR CV J q kd vars part m tmp SH NS H1.
  destruct (program_chains_ok _ _ _ _ _ CP) as (sts' & EC' & EA & OKS). rewrite EC in EC'. injection EC' as <-.
  assert (OK : forall idx, unit_ok m idx = true).
  { intros idx. unfold unit_ok. cbn [m unit_of k_pre k_states k_post k_q]. rewrite (OKS q) by (intros x Ix; destruct (J x Ix)). reflexivity. }
  assert (AR : o_arms (module_use tmp0 m) = f_arms F).
  { rewrite module_use_eq. cbn [m o_arms unit_of k_states]. rewrite <- (EA (u1 tmp0 m)). reflexivity. }
  destruct (C47_same_behaviour n raw vars part m SH OK NS H1) as (o & W & SB). exists o. split; [exact W|]. intros ini s s2 s' EX AG.
  destruct (C01_structured_partial fuel unit [] p F s s' CP STR CV) as [_ R]. destruct (R EX) as [n0 R0]. exists n0. intros k L. specialize (R0 k L).
  specialize (SB ini (fun _ _ v => v) (fun _ i => i) s s2 (f_entry F) (fun x T => eq_sym (AG x T)) k).
  rewrite (krun_runs fuel unit p F m ini k s CP AR eq_refl eq_refl), R0 in SB. fold tmp in SB.
  destruct (krun o tmp ini (fun _ _ v => v) (fun _ i => i) k s2 (f_entry F)) as [[R2 i2]|]; [|destruct SB].
  destruct SB as [<- SB]. exists R2. split; [reflexivity|]. intros x T. symmetry. now apply SB.
Qed.
Print Assumptions C47_source_result.
(* i 0, t 1, acc 2: [while (i < 3) { t = i + i; acc = acc + t; i = i + 1; }], t is a macro. *)
Definition p_macro : list stmt := [ SWhile (lt 0 3) [ SAssign 1 (EB Z.add (EV 0) (EV 0)); SAssign 2 (EB Z.add (EV 2) (EV 1)); inc 0 ] ].
Example ex_program : exists F sts, compile 100 true [] p_macro = Some F /\ program_chains 100 true [] p_macro = Some sts /\
  structureds false p_macro = true /\ covereds p_macro = true /\ jdones p_macro = [] /\
  let m := unit_of [] sts [] (fun x => Nat.eqb x 2) [] in
  shaped 3 (fun _ => false) m = true /\ module_stable 3 m <> None /\
  (forall x, made_temporary (fun _ => true) m x = false -> count_occ Nat.eq_dec (assignments m) x <= 1) /\
  map (made_define 3 (fun _ => true) (fun _ => false) m) [0; 1; 2] = [false; true; false].
Proof.
  do 2 eexists. split; [vm_compute; reflexivity|]. split; [vm_compute; reflexivity|]. repeat (split; [reflexivity|]).
  split; [vm_compute; discriminate|]. split; [|vm_compute; reflexivity].
  intros x T. destruct x as [|[|[|x]]]; vm_compute in T |- *; try discriminate; lia.
Qed.

(** ** Example. a 0 (input), t 1 and u 3 (macros, the second names the first), c 2 (counter), o 4 (output), w 5 (temporary assigned twice, not a macro).
    always: t = a + 1; u = t * t;   state 1: c = c + u; if (c) { o = c + t; } goto 2   state 2: w = a; w = 2 + a; goto 1. *)
Module Ex47.
  Definition pre := [KSet 1 (EB Z.add (EV 0) (EC 1)); KSet 3 (EB Z.mul (EV 1) (EV 1))].
  Definition st1 := [KSet 2 (EB Z.add (EV 2) (EV 3)); KIf (EV 2) [KSet 4 (EB Z.add (EV 2) (EV 1))] []; KIdx 2].
  Definition st2 := [KSet 5 (EV 0); KSet 5 (EB Z.add (EC 2) (EV 0)); KIdx 1].
  Definition m := {| k_pre := pre; k_states := [(1, st1); (2, st2)]; k_post := []; k_q := fun x => Nat.eqb x 0 || Nat.eqb x 4; k_d := [3] |}.
  Example ex_hyps : shaped 6 (fun _ => false) m = true /\ (forall idx, unit_ok m idx = true) /\ module_stable 6 m <> None /\
    (forall x, made_temporary (fun _ => true) m x = false -> count_occ Nat.eq_dec (assignments m) x <= 1).
  Proof.
    split; [reflexivity|]. split; [reflexivity|]. split; [vm_compute; discriminate|].
    intros x T. destruct x as [|[|[|[|[|[|x]]]]]]; vm_compute in T |- *; try discriminate; lia.
  Qed.
  Example ex_defines : map (made_temporary (fun _ => true) m) [0; 1; 2; 3; 4; 5] = [false; true; false; true; false; true] /\
    map (made_define 6 (fun _ => true) (fun _ => false) m) [0; 1; 2; 3; 4; 5] = [false; true; false; true; false; false].
  Proof. split; vm_compute; reflexivity. Qed.
  (* The two macros, the second names the first. *)
  Example ex_macros : macros (made_define 6 (fun _ => true) (fun _ => false) m) (second (fun _ => true) m) =
    [(1, VB Z.add (VQ 0) (VC 1)); (3, VB Z.mul (VD 1) (VD 1))].
  Proof. vm_compute. reflexivity. Qed.
  (* o is (3 + 1) * (3 + 1) + (3 + 1), read through the macros. *)
  Example ex_run : match with_macros (made_define 6 (fun _ => true) (fun _ => false) m) (second (fun _ => true) m) with
    | Some o => match krun o (made_temporary (fun _ => true) m) (fun k _ => Z.of_nat k + 77)%Z (fun _ _ v => v) (fun _ i => i) 1 (fun x => if Nat.eqb x 0 then 3%Z else 0%Z) 1 with
                | Some (R, i) => R 4 = 20%Z /\ R 2 = 16%Z /\ i = 2
                | None => False end
    | None => False end.
  Proof. vm_compute. auto. Qed.
  Example ex_assigned : In 3 (k_d m) /\ assigned m 3 /\ settled m 1 3 = true.
  Proof. split; [now left|]. split; [|reflexivity]; left; cbn; auto. Qed.
End Ex47.

(** * Where the macro reads another value *)
(** ** a = a + 1; t = a; a = 0; x = t;
    The row of t has e_D at a (read after its assignment) and, through a = a + 1, e_Q: the write of a leaves t stable (4949-4956), although the macro
    names _d_a. x receives 0 instead of the incremented a. *)
Definition m_mixed := {| k_pre := [KSet 0 (EB Z.add (EV 0) (EC 1)); KSet 1 (EV 0); KSet 0 (EC 0); KSet 2 (EV 1)]; k_states := []; k_post := [];
                         k_q := fun x => Nat.eqb x 2; k_d := [] |}.
Theorem C47_reassigned_register_refuted :
  shaped 3 (fun _ => false) m_mixed = true /\ (forall idx, unit_ok m_mixed idx = true) /\
  made_define 3 (fun _ => true) (fun _ => false) m_mixed 1 = true /\
  (forall Q : store, exists D i, kcycle (module_use tmp0 m_mixed) Q Q 0 = Some (D, i) /\ D 2 = (Q 0%nat + 1)%Z) /\
  (exists o, with_macros (made_define 3 (fun _ => true) (fun _ => false) m_mixed) (second (fun _ => true) m_mixed) = Some o /\
     forall Q D0 : store, exists D i, kcycle o Q D0 0 = Some (D, i) /\ D 2 = 0%Z) /\
  ~ same_with_macros 3 (fun _ => true) (fun _ => false) m_mixed.
Proof.
  assert (W : with_macros (made_define 3 (fun _ => true) (fun _ => false) m_mixed) (second (fun _ => true) m_mixed) =
    Some {| o_pre := [VSet 0 (VB Z.add (VQ 0) (VC 1)); VSet 0 (VC 0); VSet 2 (VD 0)]; o_arms := []; o_post := []; o_use := o_use (second (fun _ => true) m_mixed) |}).
  { assert (F : forall x, made_define 3 (fun _ => true) (fun _ => false) m_mixed x = Nat.eqb x 1) by (intros [|[|[|x]]]; vm_compute; reflexivity).
    vm_compute. reflexivity. }
  split; [reflexivity|]. split; [reflexivity|]. split; [vm_compute; reflexivity|]. split; [|split].
  - intros Q. do 2 eexists. split; [reflexivity|]. reflexivity.
  - eexists. split; [exact W|]. intros Q D0. do 2 eexists. split; reflexivity.
  - intros (o & E & H). rewrite W in E. injection E as <-.
    specialize (H (fun _ _ => 0%Z) (fun _ _ v => v) (fun _ i => i) (fun _ => 5%Z) (fun _ => 5%Z) 0 (fun _ _ => eq_refl) 1).
    vm_compute in H. destruct H as [_ H]. specialize (H 2 eq_refl). discriminate H.
Qed.
Print Assumptions C47_reassigned_register_refuted.
