(** The result of the compilation does not depend on the fuel. *)
From Coq Require Import List Bool Arith ZArith Lia.
Import ListNotations.
From Verif Require Import FsmModel FsmEmit FsmLayout FsmGather FsmBody FsmRenum FsmStates FsmArms.

(** [ext a b]: [b] is defined wherever [a] is, with the same value. *)
Definition ext {A} (a b : option A) : Prop := forall x, a = Some x -> b = Some x.
Lemma ext_refl {A} (a : option A) : ext a a.
Proof. intros x H. exact H. Qed.
Lemma ext_none {A} (b : option A) : ext None b.
Proof. intros x H. discriminate. Qed.
Lemma ext_bind {A B} (a a' : option A) (k k' : A -> option B) : ext a a' -> (forall x, ext (k x) (k' x)) -> ext (obind a k) (obind a' k').
Proof. intros H K x E. destruct a as [v|]; cbn in E; [|discriminate]. rewrite (H v eq_refl). cbn. now apply K. Qed.
#[global] Hint Resolve ext_refl ext_none : ext.

Lemma stateless_fuel g : forall f f' vis q, f <= f' -> ext (stateless f g vis q) (stateless f' g vis q).
Proof.
  induction f as [|f IH]; intros f' vis [|c q] L; try (destruct f'; apply ext_refl); [apply ext_none|]. destruct f' as [|f']; [lia|]. cbn [stateless].
  destruct (b_state (g c)); [apply ext_refl|]. destruct (is_call (b_end (g c))); [apply ext_refl|]. destruct (somes (children (b_end (g c)))); [|apply ext_refl].
  apply IH. lia.
Qed.

Section GFuel.
  Variables f f' : nat.
  Hypothesis L : f <= f'.
  Definition stmt_fuel (st : stmt) : Prop := forall brk cur s, ext (gather f brk st cur s) (gather f' brk st cur s).
  Lemma list_fuel l : Forall stmt_fuel l -> forall brk cur s, ext (gather_list f brk l cur s) (gather_list f' brk l cur s).
  Proof.
    induction 1 as [|x r Hx Hr IH]; intros brk cur s; [apply ext_refl|]. rewrite !gather_list_cons. apply ext_bind; [apply Hx|]. intros [c s']. apply IH.
  Qed.
  Lemma block_fuel l : Forall stmt_fuel l -> forall brk cur s, ext (gblock f brk l cur s) (gblock f' brk l cur s).
  Proof. intros H brk cur s. unfold gblock. apply ext_bind; [now apply list_fuel|]. intros [a s3]. apply ext_refl. Qed.
  Lemma gflags_fuel g : forall bs, ext (gflags f g bs) (gflags f' g bs).
  Proof.
    induction bs as [|[v b] bs IH]; cbn [gflags]; [apply ext_refl|]. apply ext_bind; [now apply stateless_fuel|]. intros f1. apply ext_bind; [exact IH|]. intros f2. apply ext_refl.
  Qed.
  Lemma gather_fuel st : stmt_fuel st.
  Proof.
    induction st using stmt_ind'; intros brk cur s; try apply ext_refl.
    - rewrite !gather_block. now apply block_fuel.
    - rewrite !gather_if. apply ext_bind; [now apply block_fuel|]. intros [ia s3]. apply ext_bind; [now apply stateless_fuel|]. intros fl. apply ext_refl.
    - rewrite !gather_ifelse. apply ext_bind; [now apply block_fuel|]. intros [ia s3]. apply ext_bind; [now apply block_fuel|]. intros [ea s4].
      apply ext_bind; [now apply stateless_fuel|]. intros fi. apply ext_bind; [now apply stateless_fuel|]. intros fe. apply ext_refl.
    - rewrite !gather_switch. apply ext_bind.
      + generalize (g_next s) as af. intros af. generalize (addb s) as s1. induction H as [|[v l] cs Hl Hc IH]; intros s1; cbn [gcases]; [apply ext_refl|].
        apply ext_bind; [now apply block_fuel|]. intros [ca s2]. apply ext_bind; [apply IH|]. intros [bs s3]. apply ext_refl.
      + intros [bs s2]. apply ext_bind; [apply gflags_fuel|]. intros fl. apply ext_refl.
    - rewrite !gather_while. apply ext_bind; [now apply block_fuel|]. intros [il s5]. apply ext_refl.
  Qed.
  Lemma gather_list_fuel l brk cur s : ext (gather_list f brk l cur s) (gather_list f' brk l cur s).
  Proof. apply list_fuel. apply Forall_forall. intros x _. apply gather_fuel. Qed.

  Lemma gather_body_fuel unit p : ext (gather_body f unit p) (gather_body f' unit p).
  Proof. unfold gather_body. rewrite !body_gather. apply ext_bind; [apply gather_list_fuel|]. intros [c s]. apply ext_refl. Qed.
End GFuel.

Lemma push_fuel g : forall ff ff' p cs q r, ff <= ff' -> ext (push_children ff g p cs q r) (push_children ff' g p cs q r).
Proof.
  intros ff ff' p cs. induction cs as [|[c|] cs IH]; intros q r L; cbn [push_children]; try apply ext_refl.
  apply ext_bind.
  - destruct (b_state (g c)); [|apply ext_refl]. intros y H. now apply fast_forward_fuel with ff.
  - intros c'. destruct (memb c' (r_vis r)); [now apply IH|]. destruct p; [now apply IH|apply ext_refl].
Qed.
Lemma renumber_loop_fuel g : forall f f' ff ff' q r, f <= f' -> ff <= ff' -> ext (renumber_loop f ff g q r) (renumber_loop f' ff' g q r).
Proof.
  induction f as [|f IH]; intros f' ff ff' [|[b p] q] r L L2; try (destruct f'; apply ext_refl); [apply ext_none|]. destruct f' as [|f']; [lia|]. cbn [renumber_loop].
  destruct (b_state (g b)).
  - destruct (r_sid r b); [apply ext_refl|]. apply ext_bind; [now apply push_fuel|]. intros [q2 r2]. apply IH; lia.
  - apply ext_bind; [now apply push_fuel|]. intros [q2 r2]. apply IH; lia.
Qed.
Lemma renumber_fuel g f f' : f <= f' -> ext (renumber f g) (renumber f' g).
Proof. intros L. now apply renumber_loop_fuel. Qed.
Lemma generate_fuel s f f' : f <= f' -> ext (generate_states f s) (generate_states f' s).
Proof.
  intros L. unfold generate_states. apply ext_bind; [now apply renumber_fuel|]. intros r1. apply ext_bind; [apply ext_refl|]. intros [g2 [|]]; [|apply ext_refl].
  apply ext_bind; [now apply renumber_fuel|]. intros r2. apply ext_refl.
Qed.

Section EFuel.
  Variable g : graph.
  Variable r : rst.
  Variables ffi ffi' : nat -> option nat.
  Hypothesis HF : forall x, ext (ffi x) (ffi' x).
  Lemma goto_fuel x deps : ext (goto_state ffi x deps) (goto_state ffi' x deps).
  Proof. unfold goto_state. apply ext_bind; [apply HF|]. intros i. apply ext_refl. Qed.
  Lemma emit_fuel : forall f f' entry stop b deps, f <= f' -> ext (emit g r ffi f entry stop b deps) (emit g r ffi' f' entry stop b deps).
  Proof.
    induction f as [|f IH]; intros f' entry stop b deps L; [apply ext_none|]. destruct f' as [|f']; [lia|]. assert (L' : f <= f') by lia. cbn [emit].
    destruct (entry && _ && b_state (g b)); [apply goto_fuel|]. destruct (write_ins (b_ins (g b)) deps) as [c1 d1].
    assert (FO : forall x d, ext (if b_state (g x) then goto_state ffi x d else if match stop with Some t => Nat.eqb x t | None => false end then Some ([], d, []) else emit g r ffi f false stop x d)
      (if b_state (g x) then goto_state ffi' x d else if match stop with Some t => Nat.eqb x t | None => false end then Some ([], d, []) else emit g r ffi' f' false stop x d)).
    { intros x d. destruct (b_state (g x)); [apply goto_fuel|]. destruct (match stop with Some t => Nat.eqb x t | None => false end); [apply ext_refl|]. now apply IH. }
    destruct (b_end (g b)) as [|[n|]|e ib fi it eb fe et af|e cs af|e it af|e w n|c sv cid go rt|c rets]; try apply ext_refl.
    - apply ext_bind; [apply FO|]. intros [[? ?] ?]. apply ext_refl.
    - apply ext_bind; [now apply IH|]. intros [[ci di] qi]. apply ext_bind.
      { destruct (dead r et && negb (dead r it) && negb (b_state (g af))); [|apply ext_refl]. apply ext_bind; [now apply IH|]. intros [[? ?] ?]. apply ext_refl. }
      intros [[ci' di'] qi']. apply ext_bind; [now apply IH|]. intros [[ce de] qe]. apply ext_bind.
      { destruct (dead r it && negb (dead r et) && negb (b_state (g af))); [|apply ext_refl]. apply ext_bind; [now apply IH|]. intros [[? ?] ?]. apply ext_refl. }
      intros [[ce' de'] qe']. destruct (b_state (g af)) eqn:Sa; [apply ext_refl|].
      destruct ((dead r et && negb (dead r it)) || (dead r it && negb (dead r et))); [apply ext_refl|]. apply ext_bind.
      { specialize (FO af (d1 ++ di' ++ de')). now rewrite Sa in FO. }
      intros [[? ?] ?]. apply ext_refl.
    - apply ext_bind.
      { induction cs as [|[v cb] cs IHc]; [apply ext_refl|]. apply ext_bind; [now apply IH|]. intros [[? ?] ?]. apply ext_bind; [exact IHc|]. intros [[? ?] ?]. apply ext_refl. }
      intros [[bs d] q]. destruct (b_state (g af)) eqn:Sa; [apply ext_refl|]. apply ext_bind; [specialize (FO af (d1 ++ d)); now rewrite Sa in FO|]. intros [[? ?] ?]. apply ext_refl.
    - apply ext_bind; [now apply IH|]. intros [[ci di] qi]. apply ext_bind.
      { destruct (b_state (g af)); [apply goto_fuel|now apply IH]. }
      intros [[? ?] ?]. apply ext_refl.
    - apply ext_bind; [apply HF|]. intros iw. apply ext_bind; [apply HF|]. intros i_n. apply ext_refl.
    - apply ext_bind; [apply HF|]. intros i. apply ext_refl.
    - apply ext_bind; [|intros cs; apply ext_refl].
      induction rets as [|[[cid b'] sv] rs IHr]; [apply ext_refl|]. apply ext_bind; [apply HF|]. intros i. apply ext_bind; [exact IHr|]. intros cs. apply ext_refl.
  Qed.
End EFuel.

Lemma somes_fuel g f f' : f <= f' -> forall l, ext (somes (map (fast_forward f g) l)) (somes (map (fast_forward f' g) l)).
Proof.
  intros L. induction l as [|x l IH]; cbn [map somes]; [apply ext_refl|]. destruct (fast_forward f g x) as [y|] eqn:E; [|apply ext_none].
  rewrite (fast_forward_fuel g f f' x y E L). destruct (somes (map (fast_forward f g) l)) as [l'|] eqn:E2; [|apply ext_none]. rewrite (IH l' eq_refl). apply ext_refl.
Qed.
Lemma write_states_fuel g r last deps0 : forall f f' q pr, f <= f' -> ext (write_states f g r last deps0 q pr) (write_states f' g r last deps0 q pr).
Proof.
  induction f as [|f IH]; intros f' [|b q] pr L; try (destruct f'; apply ext_refl); [apply ext_none|]. destruct f' as [|f']; [lia|]. assert (L' : f <= f') by lia. cbn [write_states].
  destruct (r_sid r b); [|apply ext_refl]. destruct (memb b pr); [now apply IH|]. apply ext_bind.
  - apply emit_fuel; [|exact L']. intros x y H. now apply ff_index_fuel with f.
  - intros [[c d] ps]. apply ext_bind; [now apply somes_fuel|]. intros ps'. apply ext_bind; [now apply IH|]. intros arms. apply ext_refl.
Qed.

Theorem compile_fuel unit deps0 p f f' : f <= f' -> ext (compile f unit deps0 p) (compile f' unit deps0 p).
Proof.
  intros L. unfold compile. apply ext_bind; [now apply gather_body_fuel|]. intros s. apply ext_bind; [now apply generate_fuel|]. intros [g r].
  apply ext_bind; [now apply write_states_fuel|]. intros arms. apply ext_refl.
Qed.
