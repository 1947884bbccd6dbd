(** Loops of states: temporaries carry nothing when variables are assigned as a whole, tables by element, and bitfields are read in variables. *)
From Coq Require Import List Bool Arith ZArith Lia.
Import ListNotations.
From Verif Require Import FsmModel FsmEmit AccModel AccBfs AccPart.

Section Loop.
  Variable table : var -> bool.
  (** Indices are used on tables, bitfields are read in whole variables. *)
  Fixpoint fine (e : aexp) : bool :=
    match e with XC _ => true | XU _ a => fine a | XB _ a b => fine a && fine b | XAcc a => fine_acc a end
  with fine_acc (a : acc) : bool :=
    match a with
    | AVar _ => true
    | ATab x i => table x && fine i
    | APart a off _ => fine_acc a && fine off
    | ABit a _ _ => match a with AVar _ => true | _ => false end
    end.
  Definition fine_lhs (a : acc) : bool := match a with AVar x => true | ATab x i => table x && fine i | _ => false end.
  Definition fine_asg (c : asg) : bool := fine_lhs (fst c) && fine (snd c).

  Definition eqv (s s2 : vals) (y : var) : Prop := if table y then forall i, s y i = s2 y i else s y 0%Z = s2 y 0%Z.
  Lemma eqv0 s s2 y : eqv s s2 y -> s y 0%Z = s2 y 0%Z.
  Proof. unfold eqv. destruct (table y); auto. Qed.

  Scheme aexp_mut := Induction for aexp Sort Prop
  with acc_mut := Induction for acc Sort Prop.
  Combined Scheme aexp_mutind from aexp_mut, acc_mut.
  Lemma aeval_eqv s s2 :
    (forall e, fine e = true -> (forall y, In y (reads e) -> eqv s s2 y) -> aeval s e = aeval s2 e) /\
    (forall a, fine_acc a = true -> (forall y, In y (reads_acc a) -> eqv s s2 y) -> acc_val s a = acc_val s2 a).
  Proof.
    apply aexp_mutind; cbn [fine fine_acc reads reads_acc aeval acc_val].
    - reflexivity.
    - intros f a IH F H. now rewrite IH.
    - intros f a IHa b IHb F H. apply andb_true_iff in F. destruct F as [F1 F2]. rewrite IHa, IHb; auto; intros y Hy; apply H, in_or_app; auto.
    - intros a IH F H. auto.
    - intros x F H. apply eqv0, H. now left.
    - intros x i IH F H. apply andb_true_iff in F. destruct F as [F1 F2]. rewrite IH; [|exact F2|intros y Hy; apply H; now right].
      specialize (H x (or_introl eq_refl)). unfold eqv in H. rewrite F1 in H. apply H.
    - intros a IHa off IHo w F H. apply andb_true_iff in F. destruct F as [F1 F2]. rewrite IHa, IHo; auto; intros y Hy; apply H, in_or_app; auto.
    - intros a IH off w F H. destruct a; try discriminate. cbn [acc_val]. f_equal. apply eqv0, H. now left.
  Qed.

  Variable T : var -> bool.
  Hypothesis TT : forall x, T x = true -> table x = false.

  Lemma asgs_eqv l : forall (P : var -> Prop) s s2,
    forallb fine_asg l = true ->
    (forall y, T y = true -> P y -> ~ early y (map asg_access l)) ->
    (forall y, eqv s s2 y \/ (T y = true /\ P y)) ->
    forall y, T y = false -> eqv (asgs l s) (asgs l s2) y.
  Proof.
    induction l as [|[a e] l IH]; intros P s s2 F H E y Ty; cbn [asgs].
    - destruct (E y) as [K|[K _]]; [exact K|congruence].
    - cbn [forallb] in F. apply andb_true_iff in F. destruct F as [F0 F]. unfold fine_asg in F0. cbn [fst snd] in F0. apply andb_true_iff in F0. destruct F0 as [Fa Fe].
      assert (R : forall z, In z (reads e ++ lhs_reads a) -> eqv s s2 z).
      { intros z Hz. destruct (E z) as [K|[K1 K2]]; [exact K|]. destruct (H z K1 K2). cbn [map]. apply early_here. exact Hz. }
      assert (V : aeval s e = aeval s2 e) by (apply (proj1 (aeval_eqv s s2)); [exact Fe|intros z Hz; apply R, in_or_app; now left]).
      rewrite V. set (v := aeval s2 e).
      apply (IH (fun z => P z /\ z <> accessed a)); [exact F| | |exact Ty].
      + intros z Tz [Pz Nz] K. apply (H z Tz Pz). cbn [map]. apply early_next; [|exact K]. unfold asg_access. cbn [fst snd]. intros [ <-|[]]. congruence.
      + intros z. destruct a as [x|x i|a off w|a off w]; try discriminate; cbn [acc_set accessed].
        * destruct (Nat.eq_dec z x) as [ ->|Nz].
          -- left. destruct (E x) as [K|[K _]].
             ++ unfold eqv, aupd in *. rewrite Nat.eqb_refl. destruct (table x); [intros j|]; cbn [andb]; [destruct (Z.eqb j 0); auto|reflexivity].
             ++ unfold eqv. rewrite (TT x K). unfold aupd. now rewrite Nat.eqb_refl.
          -- destruct (E z) as [K|[K1 K2]]; [left|right; auto].
             unfold eqv, aupd in *. replace (Nat.eqb z x) with false by (symmetry; now apply Nat.eqb_neq). exact K.
        * cbn [fine_lhs] in Fa. apply andb_true_iff in Fa. destruct Fa as [Tx Fi].
          assert (VI : aeval s i = aeval s2 i) by (apply (proj1 (aeval_eqv s s2)); [exact Fi|intros u Hu; apply R, in_or_app; now right]). rewrite VI.
          destruct (Nat.eq_dec z x) as [ ->|Nz].
          -- left. destruct (E x) as [K|[K _]]; [|rewrite (TT x K) in Tx; discriminate].
             unfold eqv, aupd in *. rewrite Tx in *. intros j. rewrite Nat.eqb_refl. cbn [andb]. destruct (Z.eqb j (aeval s2 i)); auto.
          -- destruct (E z) as [K|[K1 K2]]; [left|right; auto].
             unfold eqv, aupd in *. replace (Nat.eqb z x) with false by (symmetry; now apply Nat.eqb_neq). exact K.
  Qed.
End Loop.

Lemma loop_head_in p b f t t' x : access_head (loop_graph (length p)) (fun b => map asg_access (nth b p [])) f b t = Some t' ->
  early x (map asg_access (nth b p [])) -> In x (a_in t').
Proof.
  unfold access_head. intros H E. pose proof (scan_early x _ E [] t (fun K => K)) as S. destruct (scan _ [] t) as [aw t1]. cbn [snd] in S.
  cbn [loop_graph b_end children map] in H. destruct f; cbn [explore] in H; [discriminate|]. cbn [loop_graph b_state] in H. destruct f; cbn in H; injection H as <-; exact S.
Qed.
Lemma loop_in p t b x : loop_access p = Some t -> b < length p -> early x (map asg_access (nth b p [])) -> In x (a_in t).
Proof.
  unfold loop_access. intros H Hb E. destruct (access_heads_in _ _ _ _ _ _ b H) as [t1 [t2 [A B]]]; [apply in_seq; lia|].
  apply B. eapply loop_head_in; eassumption.
Qed.
Lemma loop_total p : exists t, loop_access p = Some t.
Proof.
  unfold loop_access. generalize acct0 as t. generalize (seq 0 (length p)) as hs. induction hs as [|h hs IH]; intros t; cbn [access_heads]; [now exists t|].
  unfold access_head. destruct (scan _ [] t) as [aw t1]. cbn. apply IH.
Qed.
