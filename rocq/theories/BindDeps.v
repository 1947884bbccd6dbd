(** The dependencies recorded for instances and for the block cover what values are computed from, and an accepted unit has no combinational loop. *)
From Coq Require Import List Bool Arith ZArith Lia.
Import ListNotations.
From Verif Require Import FsmModel FsmRun DepModel DepProofs TrackDeps.
From Verif Require Import BindModel.

Definition var := nat.

(** * One update, from dependencies that are not closed. *)
Definition base (n : nat) (d : deps) : Prop :=
  inside n d /\ (forall x r, present (dep d x r) = true -> written d x = true) /\ (forall x, written d x = true -> x < n).

Lemma update_base n d rs ws d1 : update n d {| i_read := rs; i_written := ws |} = Some d1 -> base n d -> (forall r, In r rs -> r < n) -> (forall w, In w ws -> w < n) ->
  G n d1 /\ (forall x, written d1 x = written d x || mem x ws) /\
  (forall x r, ~ In x ws -> present (dep d x r) = true -> present (dep d1 x r) = true) /\
  (forall w r, In w ws -> In r rs -> present (dep d1 w r) = true) /\
  (forall w, In w ws -> In w rs -> written d w = true -> False).
Proof.
  intros H (I & O & RW) RR RWs. unfold update in H. cbn [i_read i_written] in H.
  set (d0 := {| dep := _; written := _ |}) in H.
  assert (W0 : forall x, written d0 x = written d x || mem x ws) by reflexivity.
  assert (I0 : inside n d0).
  { intros x r Hr. unfold d0. cbn [dep]. destruct (mem x ws); [|now apply I].
    destruct (mem r rs) eqn:E; [|reflexivity]. apply mem_In in E. apply RR in E. lia. }
  destruct (closure_ok n (fuel_for n) d0 I0) as (d1' & CL' & [L1 L2] & I1 & CO). { unfold fuel_for. lia. }
  rewrite CL' in H. destruct (existsb _ _) eqn:EX; [discriminate|]. injection H as ->.
  assert (FR : from d0 d1). { eapply closure_from; [exact I0| |exact CL']. split; [intros x r P; now apply rch1|reflexivity]. }
  destruct FR as [FR _].
  assert (RW0 : forall x, written d0 x = true -> x < n).
  { intros x Hx. rewrite W0 in Hx. apply orb_prop in Hx. destruct Hx as [Hx|Hx]; [now apply RW|]. apply mem_In in Hx. now apply RWs. }
  assert (O0 : forall x r, present (dep d0 x r) = true -> written d0 x = true).
  { intros x r P. rewrite W0. unfold d0 in P. cbn [dep] in P. destruct (mem x ws); [apply orb_true_r|]. rewrite orb_false_r. eapply O; eauto. }
  assert (O1 : forall x r, present (dep d1 x r) = true -> written d0 x = true).
  { intros x r P. apply FR in P. destruct P as [x r P|x k r P _ _]; eapply O0; eauto. }
  assert (IN : forall x r, present (dep d1 x r) = true -> r < n).
  { intros x r P. destruct (Nat.lt_ge_cases r n) as [L|L]; [exact L|]. rewrite (I1 x r L) in P. discriminate. }
  split.
  { split; [exact I1|]. split; [intros x r P; rewrite <- L2; eapply O1; eauto|]. split; [intros x Hx; rewrite <- L2 in Hx; now apply RW0|].
    intros x k r P1 Wk P2. eapply fle_present; [|exact P2]. apply CO; auto; [|eapply IN; eauto].
    apply filter_In. pose proof (O1 _ _ P1) as Wx. split; [apply in_seq; pose proof (RW0 _ Wx); lia|exact Wx]. }
  split; [intros x; rewrite <- L2; apply W0|].
  split.
  { intros x r N P. eapply fle_present; [apply L1|]. unfold d0. cbn [dep]. destruct (mem x ws) eqn:E; [apply mem_In in E; contradiction|exact P]. }
  assert (RD : forall w r, In w ws -> In r rs -> dep d0 w r = if written d r then {| fD := true; fQ := false |} else {| fD := false; fQ := true |}).
  { intros w r Iw Ir. unfold d0. cbn [dep]. apply mem_In in Iw, Ir. now rewrite Iw, Ir. }
  split; [intros w r Iw Ir; eapply fle_present; [apply L1|]; rewrite RD by assumption; now destruct (written d r)|].
  intros w Iw Ir Ww. destruct (L1 w w) as [L _]. rewrite RD in L by assumption. rewrite Ww in L. cbn [fD] in L.
  apply not_true_iff_false in EX. apply EX. apply existsb_exists. exists w. split; [exact Iw|now apply L].
Qed.

Lemma G_base n d : G n d -> base n d.
Proof. intros (A & B & C & _). now repeat split. Qed.

(** * Induction on commands. *)
Section CmdInd.
  Variable P : cmd -> Prop.
  Hypothesis HP : forall x e, P (Put x e).
  Hypothesis HC : forall e a b, Forall P a -> Forall P b -> P (Cond e a b).
  Fixpoint cmd_ind2 (c : cmd) : P c :=
    let all := fix all (l : list cmd) : Forall P l := match l with [] => Forall_nil P | c :: r => Forall_cons c (cmd_ind2 c) (all r) end in
    match c with Put x e => HP x e | Cond e a b => HC e a b (all a) (all b) end.
End CmdInd.

(** Variables assigned, read, and read by tests. *)
Fixpoint asg (c : cmd) : list var := match c with Put x _ => [x] | Cond _ a b => flat_map asg a ++ flat_map asg b end.
Fixpoint rds (c : cmd) : list var := match c with Put _ e => evars e | Cond _ a b => flat_map rds a ++ flat_map rds b end.
Fixpoint tst (c : cmd) : list var := match c with Put _ _ => [] | Cond e a b => evars e ++ flat_map tst a ++ flat_map tst b end.
Definition asgs (l : list cmd) : list var := flat_map asg l.
Definition rdss (l : list cmd) : list var := flat_map rds l.
Definition tsts (l : list cmd) : list var := flat_map tst l.

(** A variable assigned in a branch is neither assigned before the conditional nor in the other branch. *)
Definition apart (a b : list var) : bool := forallb (fun x => negb (mem x b)) a.
Fixpoint separate (prev : list var) (c : cmd) : bool :=
  match c with
  | Put _ _ => true
  | Cond _ a b =>
      let seps := fix seps (prev : list var) (l : list cmd) : bool :=
        match l with [] => true | x :: r => separate prev x && seps (prev ++ asg x) r end in
      apart (asgs a) prev && apart (asgs b) (prev ++ asgs a) && seps prev a && seps prev b
  end.
Fixpoint separates (prev : list var) (l : list cmd) : bool :=
  match l with [] => true | x :: r => separate prev x && separates (prev ++ asg x) r end.

Lemma separate_cond prev e a b : separate prev (Cond e a b) = apart (asgs a) prev && apart (asgs b) (prev ++ asgs a) && separates prev a && separates prev b.
Proof. reflexivity. Qed.
Lemma apart_spec a b x : apart a b = true -> In x a -> In x b -> False.
Proof.
  unfold apart. rewrite forallb_forall. intros H H1 H2. specialize (H x H1). apply negb_true_iff in H. apply mem_In in H2. congruence.
Qed.
Lemma exec_cond e a b s : exec1 (Cond e a b) s = if truth (eval s e) then exec a s else exec b s.
Proof.
  cbn [exec1]. assert (E : forall l s, (fix all (l : list cmd) (s : store) {struct l} : store := match l with [] => s | c :: r => all r (exec1 c s) end) l s = exec l s).
  { induction l as [|x l IH]; intros z; [reflexivity|]. cbn [exec]. apply IH. }
  now rewrite !E.
Qed.
Lemma deps_cond ks n e a b d : cmd_deps ks n (Cond e a b) d =
  match cmds_deps ks n a d, cmds_deps ks n b d with Some d1, Some d2 => Some (merge d2 (merge d1 d)) | _, _ => None end.
Proof.
  cbn [cmd_deps]. assert (E : forall l d, (fix all (l : list cmd) (d : deps) {struct l} : option deps :=
      match l with [] => Some d | c :: r => match cmd_deps ks n c d with Some d1 => all r d1 | None => None end end) l d = cmds_deps ks n l d).
  { induction l as [|x l IH]; intros z; [reflexivity|]. cbn [cmds_deps]. destruct (cmd_deps ks n x z); [apply IH|reflexivity]. }
  now rewrite !E.
Qed.

(** * Paths: the assignments made when tests are decided by [s], the last one first. *)
Fixpoint walk1 (s : store) (c : cmd) (p : list (var * expr)) : list (var * expr) :=
  let all := fix all (l : list cmd) (p : list (var * expr)) : list (var * expr) := match l with [] => p | c :: r => all r (walk1 s c p) end in
  match c with Put x e => (x, e) :: p | Cond e a b => if truth (eval s e) then all a p else all b p end.
Fixpoint walk (s : store) (l : list cmd) (p : list (var * expr)) : list (var * expr) := match l with [] => p | c :: r => walk s r (walk1 s c p) end.
Lemma walk_cond s e a b p : walk1 s (Cond e a b) p = if truth (eval s e) then walk s a p else walk s b p.
Proof.
  cbn [walk1]. assert (E : forall l p, (fix all (l : list cmd) (p : list (var * expr)) {struct l} : list (var * expr) := match l with [] => p | c :: r => all r (walk1 s c p) end) l p = walk s l p).
  { induction l as [|x l IH]; intros z; [reflexivity|]. cbn [walk]. apply IH. }
  now rewrite !E.
Qed.

Fixpoint play (p : list (var * expr)) (s : store) : store :=
  match p with [] => s | (w, e) :: r => upd (play r s) w (eval (play r s) e) end.
(** What the last value of a variable is computed from. *)
Fixpoint srcs (p : list (var * expr)) (x : var) : list var :=
  match p with [] => [x] | (w, e) :: r => if Nat.eqb x w then flat_map (srcs r) (evars e) else srcs r x end.

Lemma eval_ext s s' e : (forall x, In x (evars e) -> s x = s' x) -> eval s e = eval s' e.
Proof.
  induction e as [z|x|f a IH|f a IHa b IHb]; cbn [evars eval]; intros H; [reflexivity|apply H; now left|now rewrite IH|].
  rewrite IHa, IHb; [reflexivity| |]; intros x Hx; apply H; apply in_or_app; [now right|now left].
Qed.
Lemma play_srcs p s s' : forall x, (forall y, In y (srcs p x) -> s y = s' y) -> play p s x = play p s' x.
Proof.
  induction p as [|[w e] p IH]; intros x H; cbn [play srcs] in *; [apply H; now left|]. unfold upd. destruct (Nat.eqb x w); [|now apply IH].
  apply eval_ext. intros y Hy. apply IH. intros z Hz. apply H. apply in_flat_map. eauto.
Qed.

Lemma walk1_other s c : forall p x, ~ In x (asg c) -> srcs (walk1 s c p) x = srcs p x.
Proof.
  induction c as [y e|e a b Fa Fb] using cmd_ind2; intros p x N.
  - cbn [walk1 srcs]. cbn [asg] in N. destruct (Nat.eqb_spec x y); [subst; destruct N; now left|reflexivity].
  - rewrite walk_cond. cbn [asg] in N.
    assert (E : forall l p, Forall (fun c => forall p x, ~ In x (asg c) -> srcs (walk1 s c p) x = srcs p x) l -> ~ In x (flat_map asg l) -> srcs (walk s l p) x = srcs p x).
    { induction l as [|c l IH]; intros q F M; [reflexivity|]. inversion F as [|c' l' F1 F2]; subst. cbn [walk flat_map] in *.
      rewrite IH by (auto; intros K; apply M; apply in_or_app; now right). apply F1. intros K. apply M. apply in_or_app. now left. }
    destruct (truth _); apply E; auto; intros K; apply N; apply in_or_app; [now left|now right].
Qed.
Lemma walk_other s l : forall p x, ~ In x (asgs l) -> srcs (walk s l p) x = srcs p x.
Proof.
  induction l as [|c l IH]; intros p x N; [reflexivity|]. cbn [walk]. unfold asgs in *. cbn [flat_map] in N.
  rewrite IH by (intros K; apply N; apply in_or_app; now right). apply walk1_other. intros K. apply N. apply in_or_app. now left.
Qed.

Lemma exec1_other c : forall s x, ~ In x (asg c) -> exec1 c s x = s x.
Proof.
  induction c as [y e|e a b Fa Fb] using cmd_ind2; intros s x N.
  - cbn [exec1]. unfold upd. cbn [asg] in N. destruct (Nat.eqb_spec x y); [subst; destruct N; now left|reflexivity].
  - rewrite exec_cond. cbn [asg] in N.
    assert (E : forall l s, Forall (fun c => forall s x, ~ In x (asg c) -> exec1 c s x = s x) l -> ~ In x (flat_map asg l) -> exec l s x = s x).
    { induction l as [|c l IH]; intros q F M; [reflexivity|]. inversion F as [|c' l' F1 F2]; subst. cbn [exec flat_map] in *.
      rewrite IH by (auto; intros K; apply M; apply in_or_app; now right). apply F1. intros K. apply M. apply in_or_app. now left. }
    destruct (truth _); apply E; auto; intros K; apply N; apply in_or_app; [now left|now right].
Qed.
Lemma exec_other l : forall s x, ~ In x (asgs l) -> exec l s x = s x.
Proof.
  induction l as [|c l IH]; intros s x N; [reflexivity|]. cbn [exec]. unfold asgs in *. cbn [flat_map] in N.
  rewrite IH by (intros K; apply N; apply in_or_app; now right). apply exec1_other. intros K. apply N. apply in_or_app. now left.
Qed.

(** When tests read variables that are not assigned, the block makes the assignments of the path. *)
Lemma exec_walk_all s0 : 
  (forall c p s s1, (forall x, s x = play p s1 x) -> (forall y, In y (tst c) -> s y = s0 y /\ ~ In y (asg c)) -> forall x, exec1 c s x = play (walk1 s0 c p) s1 x).
Proof.
  intros c. induction c as [y e|e a b Fa Fb] using cmd_ind2; intros p s s1 H T x.
  - cbn [exec1 walk1 play]. unfold upd. destruct (Nat.eqb x y); [apply eval_ext; intros; apply H|apply H].
  - rewrite exec_cond, walk_cond. cbn [tst asg] in T. rewrite (eval_ext s s0) by (intros y Hy; apply T; apply in_or_app; now left).
    assert (E : forall l, Forall (fun c => forall p s s1, (forall x, s x = play p s1 x) -> (forall y, In y (tst c) -> s y = s0 y /\ ~ In y (asg c)) -> forall x, exec1 c s x = play (walk1 s0 c p) s1 x) l ->
              forall p s, (forall x, s x = play p s1 x) -> (forall y, In y (flat_map tst l) -> s y = s0 y /\ ~ In y (flat_map asg l)) -> forall x, exec l s x = play (walk s0 l p) s1 x).
    { clear. induction l as [|c l IH]; intros F p s H T x; [apply H|]. inversion F as [|c' l' F1 F2]; subst. cbn [exec walk flat_map] in *.
      apply IH; auto.
      - intros y. apply F1; auto. intros z Hz. destruct (T z) as [T1 T2]; [apply in_or_app; now left|]. split; [exact T1|]. intros K. apply T2. apply in_or_app. now left.
      - intros y Hy. destruct (T y) as [T1 T2]; [apply in_or_app; now right|]. split; [|intros K; apply T2; apply in_or_app; now right].
        rewrite exec1_other; [exact T1|]. intros K. apply T2. apply in_or_app. now left. }
    destruct (truth _); apply E; auto; intros y Hy.
    + destruct (T y) as [T1 T2]; [apply in_or_app; right; apply in_or_app; now left|]. split; [exact T1|]. intros K. apply T2. apply in_or_app. now left.
    + destruct (T y) as [T1 T2]; [apply in_or_app; right; apply in_or_app; now right|]. split; [exact T1|]. intros K. apply T2. apply in_or_app. now right.
Qed.
Lemma exec_walk s0 l : forall p s s1, (forall x, s x = play p s1 x) -> (forall y, In y (tsts l) -> s y = s0 y /\ ~ In y (asgs l)) -> forall x, exec l s x = play (walk s0 l p) s1 x.
Proof.
  induction l as [|c l IH]; intros p s s1 H T x; [apply H|]. cbn [exec walk]. unfold tsts, asgs in *. cbn [flat_map] in T. apply IH.
  - intros y. apply exec_walk_all; auto. intros z Hz. destruct (T z) as [T1 T2]; [apply in_or_app; now left|]. split; [exact T1|]. intros K. apply T2. apply in_or_app. now left.
  - intros y Hy. destruct (T y) as [T1 T2]; [apply in_or_app; now right|]. split; [|intros K; apply T2; apply in_or_app; now right].
    rewrite exec1_other; [exact T1|]. intros K. apply T2. apply in_or_app. now left.
Qed.

(** * The invariant. *)
Section Inv.
  Variable ks : list inst.
  Variable n : nat.
  Hypothesis Dist : NoDup (wires ks).
  Hypothesis Chk : forall k o, In k ks -> In o (n_outs k) -> out_nocheck o = false.
  Hypothesis RangeI : forall k p, In k ks -> In p (n_ins k) -> in_own p < n /\ match in_bnd p with Some (CL x) | Some (CQ x) => x < n | None => True end.
  Hypothesis RangeW : forall x, In x (wires ks) -> x < n.
  Variable pin : var -> bool.
  Hypothesis Late : late_ok ks pin = true.

  (** Wires followed by the search. *)
  Definition driver (k : inst) (o : var) : Prop := In k ks /\ skipped k = false /\ In o (comb_outs k).
  Definition key (o : var) : Prop := exists k, driver k o.

  (** A wire is computed from another one. *)
  Definition link (p : list (var * expr)) (o o' : var) : Prop := exists k x, driver k o /\ In x (comb_ins k) /\ In o' (srcs p x) /\ key o'.
  Inductive chain (p : list (var * expr)) : var -> var -> Prop :=
  | ch1 a b : link p a b -> chain p a b
  | chS a b c : link p a b -> chain p b c -> chain p a c.

  Lemma comb_outs_spec k o : In o (comb_outs k) <-> exists u, In u (n_outs k) /\ checked u = true /\ In o (out_names u).
  Proof.
    unfold comb_outs. rewrite in_app_iff, !in_flat_map. split.
    - intros [(u & I & H)|(u & I & H)]; exists u; (split; [exact I|]); destruct (checked u); try contradiction; (split; [reflexivity|]); unfold out_names; [now right|].
      destruct H as [H|[]]. now left.
    - intros (u & I & C & H). destruct H as [H|H]; [right|left]; exists u; (split; [exact I|]); rewrite C; [now left|exact H].
  Qed.
  Lemma key_wire o : key o -> In o (wires ks).
  Proof.
    intros (k & Ik & _ & H). apply comb_outs_spec in H. destruct H as (u & I & _ & J). apply in_flat_map. exists k. split; [exact Ik|]. apply in_flat_map. eauto.
  Qed.
  Lemma iswire_In x : iswire ks x = true <-> In x (wires ks).
  Proof. unfold iswire. rewrite existsb_exists. split; [intros (y & I & E); apply Nat.eqb_eq in E; now subst|intros I; exists x; split; [exact I|apply Nat.eqb_refl]]. Qed.

  (** Two outputs with a common wire are the same. *)
  Lemma nodup_app_inv {A} (l l' : list A) : NoDup (l ++ l') -> NoDup l /\ NoDup l' /\ forall x, In x l -> In x l' -> False.
  Proof.
    induction l as [|a l IH]; cbn [app]; intros H; [split; [constructor|split; [exact H|intros x []]]|].
    inversion H as [|a' l'' N D]; subst. destruct (IH D) as (A1 & A2 & A3). split; [constructor; [intros K; apply N; apply in_or_app; now left|exact A1]|]. split; [exact A2|].
    intros x [<-|I] J; [apply N; apply in_or_app; now right|eauto].
  Qed.
  Lemma nodup_flat {A B} (f : A -> list B) l : NoDup (flat_map f l) -> forall i j a b x, nth_error l i = Some a -> nth_error l j = Some b -> In x (f a) -> In x (f b) -> i = j.
  Proof.
    induction l as [|c l IH]; intros H i j a b x Hi Hj Ha Hb; [destruct i; discriminate|]. cbn [flat_map] in H. apply nodup_app_inv in H. destruct H as (_ & D & X).
    assert (Y : forall m z, nth_error l m = Some z -> In x (f z) -> In x (flat_map f l)) by (intros m z Hm Hz; apply in_flat_map; exists z; split; [eapply nth_error_In; eauto|exact Hz]).
    destruct i as [|i], j as [|j]; cbn [nth_error] in Hi, Hj; [reflexivity| | |].
    - injection Hi as ->. exfalso. eapply X; eauto.
    - injection Hj as ->. exfalso. eapply X; eauto.
    - f_equal. eapply IH; eauto.
  Qed.
  Lemma nodup_part {A B} (f : A -> list B) l a : NoDup (flat_map f l) -> In a l -> NoDup (f a).
  Proof.
    induction l as [|c l IH]; intros H I; [destruct I|]. cbn [flat_map] in H. apply nodup_app_inv in H. destruct H as (D1 & D2 & _). destruct I as [<-|I]; auto.
  Qed.
  Lemma same_out k u k' u' x : In k ks -> In k' ks -> In u (n_outs k) -> In u' (n_outs k') -> In x (out_names u) -> In x (out_names u') -> k = k' /\ u = u'.
  Proof.
    intros Ik Ik' Iu Iu' X X'. apply In_nth_error in Ik, Ik'. destruct Ik as [i Hi], Ik' as [j Hj].
    assert (E : i = j). { eapply (nodup_flat wires_of ks Dist); [exact Hi|exact Hj| |]; apply in_flat_map; eauto. }
    subst j. rewrite Hi in Hj. injection Hj as <-. split; [reflexivity|].
    pose proof (nodup_part wires_of ks k Dist (nth_error_In _ _ Hi)) as Dk. unfold wires_of in Dk.
    apply In_nth_error in Iu, Iu'. destruct Iu as [a Ha], Iu' as [b Hb].
    assert (E : a = b) by (eapply (nodup_flat out_names _ Dk); eauto). subst b. rewrite Ha in Hb. now injection Hb.
  Qed.

  Definition Cov (p : list (var * expr)) (d : deps) : Prop := forall x o, key o -> In o (srcs p x) -> x = o \/ present (dep d x o) = true.
  Definition KR (d : deps) : Prop := forall k o, driver k o -> written d o = true /\ forall r, In r (comb_ins k) -> present (dep d o r) = true.
  Definition acyclic (p : list (var * expr)) : Prop := forall o, ~ chain p o o.
  Record Inv (p : list (var * expr)) (d : deps) (prev : list var) : Prop := {
    v_base : base n d;
    v_wrote : forall x, written d x = true -> key x \/ In x prev;
    v_kr : KR d;
    v_cov : Cov p d;
    v_acyc : acyclic p;
    v_asg : forall w e, In (w, e) p -> iswire ks w = false }.

  Lemma comb_ins_range k x : In k ks -> In x (comb_ins k) -> x < n.
  Proof.
    intros Ik H. unfold comb_ins in H. apply in_app_or in H. destruct H as [H|H].
    - apply in_flat_map in H. destruct H as (p & Ip & H). destruct (RangeI k p Ik Ip) as [_ R]. destruct (in_bnd p) as [[y|y]|]; try contradiction.
      destruct H as [<-|[]]. exact R.
    - apply in_map_iff in H. destruct H as (p & <- & Ip). now apply (RangeI k p Ik Ip).
  Qed.
  Lemma chain_end p a b : chain p a b -> key b /\ exists k, driver k a.
  Proof. induction 1 as [a b (k & x & D & _ & _ & K)|a b c (k & x & D & _ & _ & K) _ [IH1 IH2]]; split; eauto. Qed.
  Lemma link_present p d a b : G n d -> KR d -> Cov p d -> link p a b -> present (dep d a b) = true.
  Proof.
    intros (_ & O & _ & C) K V (k & x & D & I & S & Kb). destruct (K k a D) as [_ R]. specialize (R x I).
    destruct (V x b Kb S) as [->|P]; [exact R|]. eapply C; [exact R|eapply O; eauto|exact P].
  Qed.
  Lemma chain_present p d a b : G n d -> KR d -> Cov p d -> chain p a b -> present (dep d a b) = true.
  Proof.
    intros HG K V H. induction H as [a b L|a b c L _ IH]; [eapply link_present; eauto|].
    pose proof (link_present p d a b HG K V L) as P. destruct HG as (_ & _ & _ & C). eapply C; [exact P| |exact IH].
    destruct L as (_ & _ & _ & _ & _ & (k' & D')). apply (K k' b D').
  Qed.

  Lemma srcs_wire p x : (forall w e, In (w, e) p -> iswire ks w = false) -> iswire ks x = true -> srcs p x = [x].
  Proof.
    induction p as [|[w e] p IH]; intros H X; [reflexivity|]. cbn [srcs]. destruct (Nat.eqb_spec x w) as [->|].
    - rewrite (H w e) in X by now left. discriminate.
    - apply IH; auto. intros v f I. apply (H v f). now right.
  Qed.

  (** The error is raised on a variable reached from a wire it reaches. *)
  Lemma iloop_raised p d w y : acyclic p -> (forall w e, In (w, e) p -> iswire ks w = false) -> key y -> y <> w ->
    present (dep d w w) = true -> present (dep d w y) = true -> written d y = true -> present (dep d y w) = true -> iloop ks n d w = true.
  Proof.
    intros AC AS Ky N P1 P2 P3 P4. unfold iloop. rewrite P1. cbn [andb]. apply existsb_exists. exists y.
    pose proof (key_wire y Ky) as Wy. split; [apply in_seq; specialize (RangeW y Wy); lia|].
    rewrite P2. destruct (Nat.eqb_spec y w); [contradiction|]. cbn [negb andb].
    destruct Ky as (k & Ik & Sk & Hk). pose proof Hk as Hk'. apply comb_outs_spec in Hk. destruct Hk as (u & Iu & Cu & Yu). destruct Yu as [Yu|Yu].
    - apply orb_true_iff. left. apply existsb_exists. exists k. split; [exact Ik|]. apply existsb_exists. exists u. split; [exact Iu|].
      rewrite Cu, Yu, Nat.eqb_refl, P3, P4. reflexivity.
    - apply orb_true_iff. right. apply existsb_exists. exists k. split; [exact Ik|]. unfold bound_right.
      assert (Rk : reads k y = false).
      { apply not_true_iff_false. intros R. unfold reads in R. apply existsb_exists in R. destruct R as (q & Iq & R).
        destruct (in_bnd q) as [[z|z]|] eqn:B; try discriminate; apply Nat.eqb_eq in R; subst z.
        - apply (AC y). apply ch1. exists k, y. split; [now repeat split|]. split; [|split; [|exists k; now repeat split]].
          + unfold comb_ins. apply in_or_app. left. apply in_flat_map. exists q. split; [exact Iq|]. rewrite B. now left.
          + rewrite srcs_wire; [now left|exact AS|now apply iswire_In].
        - unfold late_ok in Late. rewrite forallb_forall in Late. specialize (Late k Ik). rewrite forallb_forall in Late. specialize (Late q Iq). rewrite B in Late.
          apply andb_prop in Late. destruct Late as [_ L]. apply iswire_In in Wy. rewrite Wy in L. discriminate. }
      rewrite Rk. destruct (find (drives y) (n_outs k)) as [u'|] eqn:F.
      + apply find_some in F. destruct F as [Iu' Du]. unfold drives in Du.
        assert (E : u' = u). { eapply (same_out k u' k u y); auto; [|now right]. unfold out_names. right. destruct (out_bnd u') as [z|]; [|discriminate]. apply Nat.eqb_eq in Du. now left. }
        now subst.
      + exfalso. apply (find_none _ _ F u) in Iu. unfold drives in Iu. destruct (out_bnd u) as [z|]; [|destruct Yu]. destruct Yu as [<-|[]]. rewrite Nat.eqb_refl in Iu. discriminate.
  Qed.

  (** Links after an assignment. *)
  Lemma link_put p w e a b : link ((w, e) :: p) a b -> link p a b \/ (exists k, driver k a /\ In w (comb_ins k) /\ In b (srcs ((w, e) :: p) w) /\ key b).
  Proof.
    intros (k & x & D & I & S & K). destruct (Nat.eq_dec x w) as [->|N]; [right; eauto 8|left]. exists k, x. cbn [srcs] in S.
    destruct (Nat.eqb_spec x w); [contradiction|]. auto.
  Qed.
  Lemma chain_put p w e a b : chain ((w, e) :: p) a b -> chain p a b \/
    (exists c k o, (a = c \/ chain ((w, e) :: p) a c) /\ driver k c /\ In w (comb_ins k) /\ In o (srcs ((w, e) :: p) w) /\ key o /\ (o = b \/ chain ((w, e) :: p) o b)).
  Proof.
    induction 1 as [a b L|a b c L Hc IH].
    - destruct (link_put _ _ _ _ _ L) as [L'|(k & D & I & S & K)]; [left; now apply ch1|right]. exists a, k, b. auto 10.
    - destruct (link_put _ _ _ _ _ L) as [L'|(k & D & I & S & K)].
      + destruct IH as [IH|(c' & k & o & A & R)]; [left; eapply chS; eauto|right]. exists c', k, o. split; [|exact R]. right. destruct A as [<-|A]; [now apply ch1|eapply chS; eauto].
      + right. exists a, k, b. auto 10.
  Qed.

  Lemma inv_put p d prev w e d1 : Inv p d prev -> (forall r, In r (evars e) -> r < n) -> w < n ->
    cmd_deps ks n (Put w e) d = Some d1 -> Inv ((w, e) :: p) d1 (prev ++ [w]) /\ G n d1.
  Proof.
    intros [B WR K V AC AS] RR Lw H. cbn [cmd_deps] in H. destruct (iswire ks w) eqn:Ww; [discriminate|]. unfold iupdate in H.
    match type of H with context [update n d ?i] => destruct (update n d i) as [d2|] eqn:U end; [|discriminate H].
    cbn [i_written existsb] in H. rewrite orb_false_r in H. destruct (iloop ks n d2 w) eqn:IL; [discriminate H|]. injection H as ->.
    assert (NW : forall o, key o -> o <> w) by (intros o Ko ->; apply key_wire in Ko; apply iswire_In in Ko; congruence).
    destruct (update_base n d (evars e) [w] d1 U B RR) as (HG & WR1 & MO & RD & SE). { intros z [<-|[]]. exact Lw. }
    assert (MO' : forall x r, x <> w -> present (dep d x r) = true -> present (dep d1 x r) = true) by (intros x r N; apply MO; intros [E|[]]; now apply N).
    assert (K1 : KR d1).
    { intros k o D. destruct (K k o D) as [A1 A2]. split; [rewrite WR1, A1; reflexivity|]. intros r Ir. apply MO'; [apply NW; now exists k|now apply A2]. }
    assert (V1 : Cov ((w, e) :: p) d1).
    { intros x o Ko S. cbn [srcs] in S. destruct (Nat.eqb_spec x w) as [->|N].
      - right. apply in_flat_map in S. destruct S as (r & Ir & S). pose proof (RD w r (or_introl eq_refl) Ir) as Pr.
        destruct (V r o Ko S) as [->|P]; [exact Pr|]. destruct HG as (_ & O1 & _ & C).
        destruct (Nat.eq_dec r w) as [->|Nr].
        + exfalso. apply (SE w); [now left|exact Ir|]. destruct B as (_ & O & _). eapply O; eauto.
        + apply (C w r o Pr); [|now apply MO']. apply (O1 r o). now apply MO'.
      - destruct (V x o Ko S) as [E|P]; [now left|right]. now apply MO'. }
    assert (AS1 : forall v f, In (v, f) ((w, e) :: p) -> iswire ks v = false) by (intros v f [J|J]; [injection J as <- _; exact Ww|eauto]).
    split; [|exact HG]. constructor; auto.
    - now apply G_base.
    - intros x Hx. rewrite WR1 in Hx. apply orb_prop in Hx. destruct Hx as [Hx|Hx].
      + destruct (WR x Hx) as [J|J]; [now left|right; apply in_or_app; now left].
      + right. apply in_or_app. right. now apply mem_In.
    - intros o Ho. apply chain_put in Ho. destruct Ho as [Ho|(c & k & b & A & D & I & S & Kb & Bo)]; [now apply (AC o)|].
      assert (Pcw : present (dep d1 c w) = true) by (apply (K1 k c D); exact I).
      assert (Pwb : present (dep d1 w b) = true). { destruct (V1 w b Kb S) as [E|P]; [|exact P]. exfalso. apply (NW b Kb). now symmetry. }
      pose proof HG as (_ & _ & _ & C).
      assert (Wc : written d1 c = true) by (apply (K1 k c D)).
      assert (Wb : written d1 b = true) by (destruct Kb as [kb Db]; apply (K1 kb b Db)).
      assert (Pbc : b = c \/ present (dep d1 b c) = true).
      { destruct A as [->|A].
        - destruct Bo as [->|Bo]; [now left|right]. eapply chain_present; eauto.
        - right. destruct Bo as [->|Bo]; [eapply chain_present; eauto|].
          pose proof (chain_present _ _ _ _ HG K1 V1 A) as PA. pose proof (chain_present _ _ _ _ HG K1 V1 Bo) as PB.
          eapply C; [exact PB| |exact PA]. apply chain_end in Bo. destruct Bo as [(ko & Do) _]. apply (K1 ko o Do). }
      assert (Pbw : present (dep d1 b w) = true) by (destruct Pbc as [->|P]; [exact Pcw|eapply C; eauto]).
      assert (Pww : present (dep d1 w w) = true) by (eapply C; eauto).
      rewrite (iloop_raised p d1 w b) in IL; auto; discriminate.
  Qed.

  Definition range (c : cmd) : Prop := (forall x, In x (asg c) -> x < n) /\ (forall x, In x (rds c) -> x < n).
  Definition ranges (l : list cmd) : Prop := (forall x, In x (asgs l) -> x < n) /\ (forall x, In x (rdss l) -> x < n).

  Lemma asg_nowire c : forall d d1, cmd_deps ks n c d = Some d1 -> forall x, In x (asg c) -> iswire ks x = false.
  Proof.
    induction c as [y e|e a b Fa Fb] using cmd_ind2; intros d d1 H x I.
    - cbn [cmd_deps] in H. cbn [asg] in I. destruct I as [<-|[]]. now destruct (iswire ks y).
    - rewrite deps_cond in H. destruct (cmds_deps ks n a d) as [da|] eqn:Ea; [|discriminate]. destruct (cmds_deps ks n b d) as [db|] eqn:Eb; [|discriminate]. cbn [asg] in I.
      assert (E : forall l, Forall (fun c => forall d d1, cmd_deps ks n c d = Some d1 -> forall x, In x (asg c) -> iswire ks x = false) l ->
                forall d d1, cmds_deps ks n l d = Some d1 -> In x (flat_map asg l) -> iswire ks x = false).
      { induction l as [|c l IH]; intros F z z1 Hz J; [destruct J|]. inversion F as [|c' l' F1 F2]; subst. cbn [cmds_deps flat_map] in *.
        destruct (cmd_deps ks n c z) as [z2|] eqn:Ez; [|discriminate]. apply in_app_or in J. destruct J as [J|J]; eauto. }
      apply in_app_or in I. destruct I as [I|I]; [eapply (E a)|eapply (E b)]; eauto.
  Qed.
  Lemma asgs_nowire l : forall d d1, cmds_deps ks n l d = Some d1 -> forall x, In x (asgs l) -> iswire ks x = false.
  Proof.
    induction l as [|c l IH]; intros d d1 H x I; [destruct I|]. cbn [cmds_deps] in H. destruct (cmd_deps ks n c d) as [d2|] eqn:E; [|discriminate].
    unfold asgs in *. cbn [flat_map] in I. apply in_app_or in I. destruct I as [I|I]; [eapply asg_nowire; eauto|eauto].
  Qed.

  Lemma inv_cmd s0 c : forall p d prev d1, Inv p d prev -> range c -> separate prev c = true -> cmd_deps ks n c d = Some d1 -> Inv (walk1 s0 c p) d1 (prev ++ asg c).
  Proof.
    induction c as [x e|e a b Fa Fb] using cmd_ind2; intros p d prev d1 HI [R1 R2] SP H.
    - cbn [walk1 asg]. eapply inv_put; eauto. apply R1. now left.
    - rewrite separate_cond in SP. apply andb_prop in SP. destruct SP as [SP S2]. apply andb_prop in SP. destruct SP as [SP S1]. apply andb_prop in SP. destruct SP as [D1 D2].
      rewrite deps_cond in H. destruct (cmds_deps ks n a d) as [da|] eqn:Ea; [|discriminate]. destruct (cmds_deps ks n b d) as [db|] eqn:Eb; [|discriminate]. injection H as <-.
      assert (E : forall l, Forall (fun c => forall p d prev d1, Inv p d prev -> range c -> separate prev c = true -> cmd_deps ks n c d = Some d1 -> Inv (walk1 s0 c p) d1 (prev ++ asg c)) l ->
                forall p d prev d1, Inv p d prev -> ranges l -> separates prev l = true -> cmds_deps ks n l d = Some d1 -> Inv (walk s0 l p) d1 (prev ++ asgs l)).
      { clear. induction l as [|c l IH]; intros F p d prev d1 HI [R1 R2] SP H.
        - cbn [cmds_deps] in H. injection H as <-. unfold asgs. cbn [flat_map walk]. now rewrite app_nil_r.
        - inversion F as [|c' l' F1 F2]; subst. cbn [cmds_deps walk separates] in *. unfold asgs, rdss in *. cbn [flat_map] in *.
          apply andb_prop in SP. destruct SP as [SP1 SP2]. destruct (cmd_deps ks n c d) as [d2|] eqn:E; [|discriminate]. rewrite app_assoc.
          eapply IH; eauto.
          + eapply F1; eauto. split; intros x I; [apply R1|apply R2]; apply in_or_app; now left.
          + split; intros x I; [apply R1|apply R2]; apply in_or_app; now right. }
      cbn [asg rds] in *.
      assert (Ra : ranges a) by (split; intros x I; [apply R1|apply R2]; apply in_or_app; now left).
      assert (Rb : ranges b) by (split; intros x I; [apply R1|apply R2]; apply in_or_app; now right).
      pose proof (E a Fa p d prev da HI Ra S1 Ea) as IA. pose proof (E b Fb p d prev db HI Rb S2 Eb) as IB. clear E Fa Fb.
      pose proof (asgs_nowire _ _ _ Ea) as NWa. pose proof (asgs_nowire _ _ _ Eb) as NWb.
      assert (Bm : base n (merge db (merge da d))).
      { destruct (v_base _ _ _ HI) as (I0 & O0 & W0), (v_base _ _ _ IA) as (I1 & O1 & W1), (v_base _ _ _ IB) as (I2 & O2 & W2). repeat split.
        - intros x r L. cbn [merge dep written]. destruct (written d x); cbn [orb]; [now apply I0|]. destruct (written da x); [now apply I1|now apply I2].
        - intros x r P. cbn [merge dep written] in *. destruct (written d x) eqn:X; cbn [orb] in *; [reflexivity|]. destruct (written da x) eqn:Y; cbn [orb] in *; [reflexivity|]. now apply (O2 x r).
        - intros x P. cbn [merge written] in P. apply orb_prop in P. destruct P as [P|P]; [|now apply W2]. apply orb_prop in P. destruct P; [now apply W0|now apply W1]. }
      assert (Km : KR (merge db (merge da d))).
      { intros k o D. destruct (v_kr _ _ _ HI k o D) as [A1 A2]. cbn [merge dep written]. rewrite A1. cbn [orb]. split; [reflexivity|exact A2]. }
      assert (Wm : forall x, written (merge db (merge da d)) x = true -> key x \/ In x (prev ++ asgs a ++ asgs b)).
      { intros x P. cbn [merge written] in P. apply orb_prop in P. destruct P as [P|P]; [apply orb_prop in P; destruct P as [P|P]|].
        - destruct (v_wrote _ _ _ HI x P) as [J|J]; [now left|right; apply in_or_app; now left].
        - destruct (v_wrote _ _ _ IA x P) as [J|J]; [now left|right]. rewrite app_assoc. apply in_or_app. now left.
        - destruct (v_wrote _ _ _ IB x P) as [J|J]; [now left|right]. apply in_app_or in J. apply in_or_app. destruct J; [now left|right; apply in_or_app; now right]. }
      assert (NA : forall x, written d x = true -> ~ In x (asgs a)).
      { intros x Hx I. destruct (v_wrote _ _ _ HI x Hx) as [J|J].
        - apply key_wire in J. apply iswire_In in J. rewrite (NWa x I) in J. discriminate.
        - eapply apart_spec; [exact D1|exact I|exact J]. }
      assert (NB : forall x, written d x = true -> ~ In x (asgs b)).
      { intros x Hx I. destruct (v_wrote _ _ _ HI x Hx) as [J|J].
        - apply key_wire in J. apply iswire_In in J. rewrite (NWb x I) in J. discriminate.
        - eapply apart_spec; [exact D2|exact I|apply in_or_app; now left]. }
      rewrite walk_cond. destruct (truth (eval s0 e)).
      + constructor; auto; [|apply (v_acyc _ _ _ IA)|apply (v_asg _ _ _ IA)].
        intros x o Ko S. destruct (written d x) eqn:X.
        * rewrite (walk_other s0 a p x (NA x X)) in S. destruct (v_cov _ _ _ HI x o Ko S) as [->|J]; [now left|right]. cbn [merge dep written]. now rewrite X.
        * destruct (v_cov _ _ _ IA x o Ko S) as [J|J]; [now left|right]. cbn [merge dep written]. rewrite X. cbn [orb].
          destruct (v_base _ _ _ IA) as (_ & O1 & _). now rewrite (O1 x o J).
      + constructor; auto; [|apply (v_acyc _ _ _ IB)|apply (v_asg _ _ _ IB)].
        intros x o Ko S. destruct (written d x) eqn:X.
        * rewrite (walk_other s0 b p x (NB x X)) in S. destruct (v_cov _ _ _ HI x o Ko S) as [->|J]; [now left|right]. cbn [merge dep written]. now rewrite X.
        * destruct (v_cov _ _ _ IB x o Ko S) as [J|J]; [now left|]. destruct (in_dec Nat.eq_dec x (asgs b)) as [I|I].
          -- right. cbn [merge dep written]. rewrite X. cbn [orb]. assert (Y : written da x = false); [|now rewrite Y].
             apply not_true_iff_false. intros Y. destruct (v_wrote _ _ _ IA x Y) as [J'|J'].
             ++ destruct J' as [kx Dx]. destruct (v_kr _ _ _ HI kx x Dx) as [A1 _]. congruence.
             ++ eapply apart_spec; [exact D2|exact I|exact J'].
          -- rewrite (walk_other s0 b p x I) in S. destruct (v_cov _ _ _ HI x o Ko S) as [->|J']; [now left|]. exfalso.
             destruct (v_base _ _ _ HI) as (_ & O0 & _). specialize (O0 x o J'). congruence.
  Qed.

  Lemma inv_cmds s0 l : forall p d prev d1, Inv p d prev -> ranges l -> separates prev l = true -> cmds_deps ks n l d = Some d1 -> Inv (walk s0 l p) d1 (prev ++ asgs l).
  Proof.
    induction l as [|c l IH]; intros p d prev d1 HI [R1 R2] SP H.
    - cbn [cmds_deps] in H. injection H as <-. unfold asgs. cbn [flat_map walk]. now rewrite app_nil_r.
    - cbn [cmds_deps walk separates] in *. unfold asgs, rdss in *. cbn [flat_map] in *.
      apply andb_prop in SP. destruct SP as [SP1 SP2]. destruct (cmd_deps ks n c d) as [d2|] eqn:E; [|discriminate]. rewrite app_assoc.
      eapply IH; eauto.
      + eapply inv_cmd; eauto. split; intros x I; [apply R1|apply R2]; apply in_or_app; now left.
      + split; intros x I; [apply R1|apply R2]; apply in_or_app; now right.
  Qed.

  (** * The instances. *)
  Definition part (l : list inst) (o : var) : Prop := exists k, In k l /\ skipped k = false /\ In o (comb_outs k).
  Definition KRl (l : list inst) (d : deps) : Prop := forall k o, In k l -> skipped k = false -> In o (comb_outs k) ->
    written d o = true /\ forall r, In r (comb_ins k) -> present (dep d o r) = true.
  Definition clean (d : deps) : Prop := forall x, present (dep d x x) = false.

  Lemma outs_wire k o : In k ks -> In o (comb_outs k) -> In o (wires ks).
  Proof. intros Ik H. apply comb_outs_spec in H. destruct H as (u & I & _ & J). apply in_flat_map. exists k. split; [exact Ik|]. apply in_flat_map. eauto. Qed.
  Lemma outs_same k k' o : In k ks -> In k' ks -> In o (comb_outs k) -> In o (comb_outs k') -> k = k'.
  Proof. intros Ik Ik' H H'. apply comb_outs_spec in H, H'. destruct H as (u & I & _ & J), H' as (u' & I' & _ & J'). eapply same_out; [exact Ik|exact Ik'|exact I|exact I'|exact J|exact J']. Qed.

  Lemma insts_ok l : forall pre d d1, ks = pre ++ l -> G n d -> KRl pre d -> clean d -> (forall x, written d x = true -> part pre x) -> insts_deps ks n l d = Some d1 ->
    G n d1 /\ KRl ks d1 /\ clean d1 /\ forall x, written d1 x = true -> part ks x.
  Proof.
    induction l as [|k l IH]; intros pre d d1 E HG K C WR H.
    - cbn [insts_deps] in H. injection H as <-. rewrite app_nil_r in E. subst pre. auto.
    - cbn [insts_deps] in H. destruct (inst_deps ks n d k) as [d2|] eqn:U; [|discriminate].
      assert (Ik : In k ks) by (rewrite E; apply in_or_app; right; now left).
      assert (Ip : forall k', In k' pre -> In k' ks) by (intros k' J; rewrite E; apply in_or_app; now left).
      assert (N : G n d2 /\ KRl (pre ++ [k]) d2 /\ clean d2 /\ forall x, written d2 x = true -> part (pre ++ [k]) x).
      { unfold inst_deps in U. destruct (skipped k) eqn:Sk.
        - injection U as <-. split; [exact HG|]. split; [|split; [exact C|]].
          + intros k' o I S. apply in_app_or in I. destruct I as [I|[<-|[]]]; [now apply K|congruence].
          + intros x Hx. destruct (WR x Hx) as (k' & A1 & A2). exists k'. split; [apply in_or_app; now left|exact A2].
        - unfold iupdate in U. match type of U with context [update n d ?i] => destruct (update n d i) as [d3|] eqn:U' end; [|discriminate U]. destruct (existsb _ _) eqn:EX in U; [discriminate|].
          destruct (selfloop n d3) eqn:SL; [discriminate|]. injection U as <-.
          destruct (update_base n d (comb_ins k) (comb_outs k) d3 U' (G_base _ _ HG)) as (HG3 & WR3 & MO & RD & _).
          { intros r Ir. eapply comb_ins_range; eauto. }
          { intros w Iw. apply RangeW. eapply outs_wire; eauto. }
          split; [exact HG3|]. split; [|split].
          + intros k' o I S Io. assert (Ik' : In k' ks) by (apply in_app_or in I; destruct I as [I|[<-|[]]]; auto).
            destruct (in_dec Nat.eq_dec o (comb_outs k)) as [J|J].
            * assert (k' = k) by (eapply outs_same; eauto). subst k'. split; [rewrite WR3; apply mem_In in J; rewrite J; apply orb_true_r|]. intros r Ir. now apply RD.
            * apply in_app_or in I. destruct I as [I|[<-|[]]]; [|contradiction]. destruct (K k' o I S Io) as [A1 A2].
              split; [now rewrite WR3, A1|]. intros r Ir. apply MO; auto.
          + intros x. apply not_true_iff_false. intros P. apply not_true_iff_false in SL. apply SL. unfold selfloop. apply existsb_exists.
            destruct HG3 as (_ & O & RW & _). pose proof (O x x P) as Wx. exists x. split; [apply in_seq; specialize (RW x Wx); lia|now rewrite Wx, P].
          + intros x Hx. rewrite WR3 in Hx. apply orb_prop in Hx. destruct Hx as [Hx|Hx].
            * destruct (WR x Hx) as (k' & A1 & A2). exists k'. split; [apply in_or_app; now left|exact A2].
            * apply mem_In in Hx. exists k. split; [apply in_or_app; right; now left|]. auto. }
      destruct N as (N1 & N2 & N3 & N4). apply (IH (pre ++ [k]) d2 d1); auto. now rewrite <- app_assoc.
  Qed.

  Lemma inv_start d : insts_deps ks n ks no_deps = Some d -> Inv [] d [].
  Proof.
    intros H. destruct (insts_ok ks [] no_deps d eq_refl (G_none n)) as (HG & K & C & WR); auto; try (intros ? ? []); try discriminate.
    { intros x. reflexivity. }
    assert (K' : KR d) by (intros k o (I & S & J); now apply K).
    assert (V : Cov [] d) by (intros x o _ S; destruct S as [S|[]]; now left).
    constructor; auto.
    - now apply G_base.
    - intros x Hx. left. exact (WR x Hx).
    - intros o Ho. pose proof (chain_present [] d o o HG K' V Ho) as P. rewrite C in P. discriminate.
    - intros w e [].
  Qed.

  (** Accepted: for every path, values are computed from wires without loop. *)
  Lemma accepted_acyclic s0 body d d1 : insts_deps ks n ks no_deps = Some d -> cmds_deps ks n body d = Some d1 -> ranges body -> separates [] body = true ->
    acyclic (walk s0 body []) /\ (forall w e, In (w, e) (walk s0 body []) -> iswire ks w = false).
  Proof.
    intros H1 H2 R S. pose proof (inv_cmds s0 body [] d [] d1 (inv_start d H1) R S H2) as V. split; [apply (v_acyc _ _ _ V)|apply (v_asg _ _ _ V)].
  Qed.
End Inv.
