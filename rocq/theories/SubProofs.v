(** Subroutines: executions with caller registers and executions with a stack. *)
From Coq Require Import List Bool Arith ZArith Lia.
Import ListNotations.
From Verif Require Import FsmModel FsmEmit FsmLayout FsmRenum FsmRun FsmSkip SubModel.

(** * Executions with a stack. Same as [walk], but calls push the block to return to and returns pop it; there are no caller registers. *)
Section Stack.
  Variable g : graph.
  Variable J : nat -> nat -> Prop.
  Variable Q : store.

  Inductive swalk : nat -> store * nat -> list nat -> store * nat -> list nat -> Prop :=
  | sw_none b s k : b_end (g b) = ENone -> swalk b s k (fst (exec_ins (b_ins (g b)) s), 0) k
  | sw_next b x s k s' k' : b_end (g b) = ENext (Some x) -> sgo x (exec_ins (b_ins (g b)) s) k s' k' -> swalk b s k s' k'
  | sw_if b e ib fi it eb fe et af s k s' k' : b_end (g b) = EIf e ib fi it eb fe et af ->
      sgo (if truth (eval (fst (exec_ins (b_ins (g b)) s)) e) then ib else eb) (exec_ins (b_ins (g b)) s) k s' k' -> swalk b s k s' k'
  | sw_switch b e cs af s k s' k' : b_end (g b) = ESwitch e cs af ->
      sgo (match pick (eval (fst (exec_ins (b_ins (g b)) s)) e) cs with Some x => x | None => af end)
         (exec_ins (b_ins (g b)) s) k s' k' -> swalk b s k s' k'
  | sw_while b e it af s k s' k' : b_end (g b) = EWhile e it af ->
      sgo (if truth (eval (fst (exec_ins (b_ins (g b)) s)) e) then it else af) (exec_ins (b_ins (g b)) s) k s' k' -> swalk b s k s' k'
  | sw_wait b e w n s k i : b_end (g b) = EWait e w n -> J (if truth (eval Q e) then n else w) i ->
      swalk b s k (fst (exec_ins (b_ins (g b)) s), i) k
  | sw_call b c sv cid x rt s k i : b_end (g b) = ECall c sv cid x rt -> J x i ->
      swalk b s k (fst (exec_ins (b_ins (g b)) s), i) (rt :: k)
  | sw_ret b c rets x s k i : b_end (g b) = ERet c rets -> J x i ->
      swalk b s (x :: k) (fst (exec_ins (b_ins (g b)) s), i) k
  with sgo : nat -> store * nat -> list nat -> store * nat -> list nat -> Prop :=
  | sgo_state x s k i : b_state (g x) = true -> J x i -> sgo x s k (fst s, i) k
  | sgo_block x s k s' k' : b_state (g x) = false -> swalk x s k s' k' -> sgo x s k s' k'.
End Stack.

(** Expressions of an end action. *)
Definition tests (e : endact) : list expr :=
  match e with
  | EIf t _ _ _ _ _ _ _ | ESwitch t _ _ | EWhile t _ _ | EWait t _ _ => [t]
  | _ => []
  end.
Definition jumps (e : endact) : list nat :=
  match e with
  | ENext (Some n) => [n]
  | EIf _ i _ _ l _ _ a => [i; l; a]
  | ESwitch _ cs a => a :: map snd cs
  | EWhile _ i a => [i; a]
  | EWait _ w n => [w; n]
  | _ => []
  end.

Section Regs.
  Variable caller : var.
  Variable save : nat -> var.
  Definition reg (x : var) : Prop := x = caller \/ exists s, x = save s.
  Definition eqv (a b : store) : Prop := forall x, ~ reg x -> a x = b x.

  (** Graphs with subroutines; [sub]: subroutine of a block, [rank]: subroutines call subroutines of smaller ranks. *)
  Record Subs (g : graph) (sub : nat -> option nat) (rank : nat -> nat) : Prop := {
    u_flow : forall b x, In x (jumps (b_end (g b))) -> sub x = sub b;
    u_call : forall b c sv cid go rt, b_end (g b) = ECall c sv cid go rt -> c = caller /\ sv = option_map save (sub b) /\ sub rt = sub b /\
      exists t, sub go = Some t /\ forall s, sub b = Some s -> rank t < rank s;
    u_ret : forall b c rets, b_end (g b) = ERet c rets -> c = caller /\ exists t, sub b = Some t /\ NoDup (map (fun r => fst (fst r)) rets) /\
      forall cid rt sv, In (cid, rt, sv) rets <-> sv = option_map save (sub rt) /\ exists b' c' sv' go, b_end (g b') = ECall c' sv' cid go rt /\ sub go = Some t;
    u_id : forall b b' c c' sv sv' cid go go' rt rt', b_end (g b) = ECall c sv cid go rt -> b_end (g b') = ECall c' sv' cid go' rt' -> b = b';
    u_ins : forall b x e, In (IAssign x e) (b_ins (g b)) -> ~ reg x /\ forall y, In y (evars e) -> ~ reg y;
    u_test : forall b e y, In e (tests (b_end (g b))) -> In y (evars e) -> ~ reg y
  }.
  Hypothesis save_inj : forall s t, save s = save t -> s = t.
  Hypothesis save_caller : forall s, save s <> caller.

  Variables (g : graph) (sub : nat -> option nat) (rank : nat -> nat).
  Hypothesis WF : Subs g sub rank.

  (** The stack as it is found in the registers: [v] is the id of the call that started the current subroutine. *)
  Inductive frames (D : store) : option nat -> Z -> list nat -> Prop :=
  | fr_main v : frames D None v []
  | fr_call t cid b c sv go rt k : b_end (g b) = ECall c sv cid go rt -> sub go = Some t ->
      frames D (sub b) (match sub b with Some s => D (save s) | None => 0%Z end) k -> frames D (Some t) cid (rt :: k).

  Definition above (l : option nat) (s : nat) : Prop := match l with Some t => rank t < rank s | None => True end.
  (** Only the registers of the subroutines that are waiting matter. *)
  Lemma frames_ext D D' l v k : frames D l v k -> (forall s, above l s -> l <> None -> D' (save s) = D (save s)) -> frames D' l v k.
  Proof.
    induction 1 as [v|t cid b c sv go rt k E S F IH]; intros A; [constructor|].
    destruct (u_call _ _ _ WF _ _ _ _ _ _ E) as [_ [_ [_ [t' [T1 T2]]]]]. rewrite S in T1. injection T1 as <-.
    eapply fr_call; [exact E|exact S|]. destruct (sub b) as [s|] eqn:Sb.
    - rewrite (A s); [|cbn; now apply T2|discriminate]. apply IH. intros u Hu _. apply A; [|discriminate]. cbn in *. specialize (T2 s eq_refl). lia.
    - inversion F; subst. constructor.
  Qed.

  Lemma upd_same (s : store) x v : upd s x v x = v.
  Proof. unfold upd. now rewrite Nat.eqb_refl. Qed.
  Lemma upd_other (s : store) x v y : y <> x -> upd s x v y = s y.
  Proof. intros H. unfold upd. now destruct (Nat.eqb_spec y x). Qed.
  Definition stack_of (D : store) (b : nat) (k : list nat) : Prop := frames D (sub b) (D caller) k.

  Lemma exec_reg l s x : reg x -> (forall y e, In (IAssign y e) l -> ~ reg y) -> fst (exec_ins l s) x = fst s x.
  Proof.
    revert s. induction l as [|[y e|] l IH]; intros s R H; cbn [exec_ins]; [reflexivity| |].
    - rewrite IH; [|exact R|intros z f Hz; apply (H z f); now right]. cbn. unfold upd. destruct (Nat.eqb_spec x y) as [ ->|_]; [|reflexivity].
      exfalso. apply (H y e); [now left|exact R].
    - rewrite IH; [reflexivity|exact R|]. intros z f Hz. apply (H z f). now right.
  Qed.
  Lemma eval_eqv a b e : eqv a b -> (forall y, In y (evars e) -> ~ reg y) -> eval a e = eval b e.
  Proof. intros H R. apply eval_agree. intros x Hx. apply H. now apply R. Qed.
  Lemma exec_eqv l : forall s s', (forall x e, In (IAssign x e) l -> ~ reg x /\ forall y, In y (evars e) -> ~ reg y) -> eqv (fst s) (fst s') ->
    eqv (fst (exec_ins l s)) (fst (exec_ins l s')).
  Proof.
    induction l as [|[y e|] l IH]; intros s s' H E; cbn [exec_ins]; [exact E| |].
    - apply IH; [intros x f Hx; apply H; now right|]. cbn. destruct (H y e (or_introl eq_refl)) as [_ R]. rewrite (eval_eqv (fst s) (fst s') e E R).
      intros x Hx. unfold upd. destruct (Nat.eqb x y); [reflexivity|now apply E].
    - apply IH; [intros x f Hx; apply H; now right|exact E].
  Qed.

  Variable J : nat -> nat -> Prop.
  Variables Q QS : store.
  Hypothesis EQ : eqv Q QS.
  (** In a cycle: the registers have the values they have at its beginning, until a call or a return. *)
  Definition kept (D : store) : Prop := forall x, reg x -> D x = Q x.
  Lemma kept_ins b s : kept (fst s) -> kept (fst (exec_ins (b_ins (g b)) s)).
  Proof. intros H x Hx. rewrite exec_reg; [now apply H|exact Hx|]. intros y e Hy. exact (proj1 (u_ins _ _ _ WF b y e Hy)). Qed.

  Definition after_ok (s' : store * nat) (k' : list nat) : Prop := snd s' = 0 \/ exists x, J x (snd s') /\ stack_of (fst s') x k'.

  Lemma pick_case_in {A} v (cs : list (option Z * A)) a : pick_case v cs = Some a -> In (Some v, a) cs.
  Proof.
    induction cs as [|[[z|] b] cs IH]; cbn; [discriminate| |]; intros H.
    - destruct (Z.eqb_spec z v) as [ ->|_]; [injection H as <-; now left|right; auto].
    - right. auto.
  Qed.
  Lemma in_pick_case {A} v (cs : list (option Z * A)) a : In (Some v, a) cs -> pick_case v cs <> None.
  Proof.
    induction cs as [|[[z|] b] cs IH]; cbn; [tauto| |]; intros [H|H].
    - injection H as -> ->. rewrite Z.eqb_refl. discriminate.
    - destruct (Z.eqb z v); [discriminate|auto].
    - discriminate.
    - auto.
  Qed.

  (** The return state selected is the one of the call on the top of the stack. *)
  Lemma ret_target b c rets t k : b_end (g b) = ERet c rets -> sub b = Some t -> frames Q (Some t) (Q caller) k ->
    exists rt k', k = rt :: k' /\ pick_ret (Q caller) rets = Some (rt, option_map save (sub rt)) /\
      frames Q (sub rt) (match sub rt with Some s => Q (save s) | None => 0%Z end) k'.
  Proof.
    intros E Sb F. destruct (u_ret _ _ _ WF _ _ _ E) as [ -> [t' [T1 [ND IN]]]]. rewrite Sb in T1. injection T1 as <-.
    inversion F as [|? cid bc cc sv go rt k' Ec Sg F' Q1 Q2 Q3]; subst. exists rt, k'. split; [reflexivity|].
    destruct (u_call _ _ _ WF _ _ _ _ _ _ Ec) as [_ [_ [Srt _]]].
    assert (HIN : In (Q caller, rt, option_map save (sub rt)) rets) by (apply IN; split; [reflexivity|]; exists bc, cc, sv, go; auto).
    rewrite Srt in *. split; [|exact F'].
    assert (P : forall x sv', In (Q caller, x, sv') rets -> (x, sv') = (rt, option_map save (sub bc))).
    { intros x sv' Hx. apply IN in Hx. destruct Hx as [ -> [b' [c' [sv2 [go' [E2 S2]]]]]]. pose proof (u_id _ _ _ WF _ _ _ _ _ _ _ _ _ _ _ Ec E2). subst b'.
      assert (x = rt) by congruence. subst x. now rewrite Srt. }
    unfold pick_ret. assert (PC : pick_case (Q caller) (map (fun r => (Some (fst (fst r)), (snd (fst r), snd r))) rets) = Some (rt, option_map save (sub bc))).
    { destruct (pick_case (Q caller) (map (fun r => (Some (fst (fst r)), (snd (fst r), snd r))) rets)) as [[x sv']|] eqn:PE.
      - apply pick_case_in in PE. apply in_map_iff in PE. destruct PE as [[[cid x'] sv2] [X1 X2]]. cbn in X1. injection X1 as -> -> ->. now rewrite (P _ _ X2).
      - exfalso. revert PE. eapply in_pick_case. apply in_map_iff. exists (Q caller, rt, option_map save (sub bc)). split; [reflexivity|exact HIN]. }
    destruct rets as [|[[cid x] sv'] [|r2 rets]]; [destruct HIN| |exact PC]. destruct HIN as [HIN|[]]. injection HIN as -> -> ->. reflexivity.
  Qed.

  Scheme walk_mut := Minimality for walk Sort Prop with go_mut := Minimality for go Sort Prop.
  Combined Scheme walk_mutind from walk_mut, go_mut.

  Lemma sim :
    (forall b s s', walk g J Q b s s' -> forall S k, kept (fst s) -> eqv (fst s) (fst S) -> frames Q (sub b) (Q caller) k ->
       exists S' k', swalk g J QS b S k S' k' /\ snd S' = snd s' /\ eqv (fst s') (fst S') /\ after_ok s' k') /\
    (forall x s s', go g J Q x s s' -> forall S k, kept (fst s) -> eqv (fst s) (fst S) -> frames Q (sub x) (Q caller) k ->
       exists S' k', sgo g J QS x S k S' k' /\ snd S' = snd s' /\ eqv (fst s') (fst S') /\ after_ok s' k').
  Proof.
    assert (KF : forall D l k, kept D -> frames Q l (Q caller) k -> frames D l (D caller) k).
    { intros D l k K F. rewrite (K caller) by (now left). eapply frames_ext; [exact F|]. intros s _ _. apply K. right. now exists s. }
    assert (XE : forall b s S, eqv (fst s) (fst S) -> eqv (fst (exec_ins (b_ins (g b)) s)) (fst (exec_ins (b_ins (g b)) S))) by (intros b s S H; apply exec_eqv; [apply (u_ins _ _ _ WF b)|exact H]).
    apply (walk_mutind g J Q
      (fun b s s' => forall S k, kept (fst s) -> eqv (fst s) (fst S) -> frames Q (sub b) (Q caller) k ->
         exists S' k', swalk g J QS b S k S' k' /\ snd S' = snd s' /\ eqv (fst s') (fst S') /\ after_ok s' k')
      (fun x s s' => forall S k, kept (fst s) -> eqv (fst s) (fst S) -> frames Q (sub x) (Q caller) k ->
         exists S' k', sgo g J QS x S k S' k' /\ snd S' = snd s' /\ eqv (fst s') (fst S') /\ after_ok s' k')).
    - intros b s E S k K V F. eexists. eexists. split; [apply sw_none; exact E|]. split; [reflexivity|]. split; [now apply XE|now left].
    - intros b x s s' E _ IH S k K V F. destruct (IH (exec_ins (b_ins (g b)) S) k) as [S' [k' [H1 H2]]]; [now apply kept_ins|now apply XE| |].
      + rewrite (u_flow _ _ _ WF b x); [exact F|rewrite E; now left].
      + exists S', k'. split; [eapply sw_next; eassumption|exact H2].
    - intros b e ib fi it eb fe et af s s' E _ IH S k K V F. destruct (IH (exec_ins (b_ins (g b)) S) k) as [S' [k' [H1 H2]]]; [now apply kept_ins|now apply XE| |].
      + rewrite (u_flow _ _ _ WF b); [exact F|rewrite E]. destruct (truth _); cbn; auto.
      + exists S', k'. split; [|exact H2]. eapply sw_if; [exact E|]. rewrite <- (eval_eqv (fst (exec_ins (b_ins (g b)) s)) _ e); [exact H1|now apply XE|].
        intros y. apply (u_test _ _ _ WF b). rewrite E. now left.
    - intros b e cs af s s' E _ IH S k K V F. destruct (IH (exec_ins (b_ins (g b)) S) k) as [S' [k' [H1 H2]]]; [now apply kept_ins|now apply XE| |].
      + rewrite (u_flow _ _ _ WF b); [exact F|rewrite E]. cbn [jumps]. destruct (pick _ cs) as [x|] eqn:PK; [right|now left]. clear - PK. revert PK. unfold pick.
        destruct (pick_case _ cs) as [y|] eqn:PC; [intros [= <-]; apply pick_case_in in PC; apply in_map_iff; now exists (Some (eval (fst (exec_ins (b_ins (g b)) s)) e), y)|].
        intros PD. induction cs as [|[[z|] y] cs IHc]; cbn in *; [discriminate| |].
        * destruct (Z.eqb _ _); [discriminate|]. right. auto.
        * injection PD as ->. now left.
      + exists S', k'. split; [|exact H2]. eapply sw_switch; [exact E|]. rewrite <- (eval_eqv (fst (exec_ins (b_ins (g b)) s)) _ e); [exact H1|now apply XE|].
        intros y. apply (u_test _ _ _ WF b). rewrite E. now left.
    - intros b e it af s s' E _ IH S k K V F. destruct (IH (exec_ins (b_ins (g b)) S) k) as [S' [k' [H1 H2]]]; [now apply kept_ins|now apply XE| |].
      + rewrite (u_flow _ _ _ WF b); [exact F|rewrite E]. destruct (truth _); cbn; auto.
      + exists S', k'. split; [|exact H2]. eapply sw_while; [exact E|]. rewrite <- (eval_eqv (fst (exec_ins (b_ins (g b)) s)) _ e); [exact H1|now apply XE|].
        intros y. apply (u_test _ _ _ WF b). rewrite E. now left.
    - intros b e w n s i E Hj S k K V F. eexists. eexists. split; [eapply sw_wait; [exact E|]; rewrite <- (eval_eqv Q QS e EQ); [exact Hj|intros y; apply (u_test _ _ _ WF b); rewrite E; now left]|]. split; [reflexivity|]. split; [now apply XE|]. right.
      eexists. split; [exact Hj|]. unfold stack_of. cbn [fst]. apply KF; [now apply kept_ins|]. rewrite (u_flow _ _ _ WF b); [exact F|rewrite E]. destruct (truth _); cbn; auto.
    - intros b c sv cid x rt s i E Hj S k K V F. destruct (u_call _ _ _ WF _ _ _ _ _ _ E) as [ -> [ -> [Srt [t [St Rk]]]]].
      pose proof (kept_ins b s K) as K'. eexists. eexists. split; [eapply sw_call; eassumption|]. split; [reflexivity|]. split.
      + cbn [fst]. intros y Hy. unfold upd. destruct (Nat.eqb_spec y caller) as [ ->|Ny]; [exfalso; apply Hy; now left|].
        unfold save_to. destruct (sub b) as [s0|]; cbn; [|now apply XE]. unfold upd. destruct (Nat.eqb_spec y (save s0)) as [ ->|_]; [exfalso; apply Hy; right; now exists s0|now apply XE].
      + right. exists x. split; [exact Hj|]. unfold stack_of. cbn [fst]. rewrite St, upd_same. eapply fr_call; [exact E|exact St|].
        destruct (sub b) as [s0|] eqn:Sb.
        * cbn [option_map save_to]. rewrite (upd_other _ caller _ (save s0)) by apply save_caller. rewrite upd_same.
          eapply frames_ext; [exact F|]. intros u Hu _. rewrite upd_other by apply save_caller.
          rewrite upd_other; [|intros X; apply save_inj in X; subst u; cbn in Hu; lia]. apply K'. right. now exists u.
        * inversion F; subst. constructor.
    - intros b c rets x sv s i E P Hj S k K V F. destruct (u_ret _ _ _ WF _ _ _ E) as [ -> [t [St _]]]. rewrite St in F.
      destruct (ret_target _ _ _ _ _ E St F) as [rt [k' [ -> [P' F']]]]. rewrite P in P'. injection P' as -> ->.
      pose proof (kept_ins b s K) as K'. eexists. eexists. split; [eapply sw_ret; eassumption|]. split; [reflexivity|]. split.
      + cbn [fst]. destruct (sub rt) as [s0|]; cbn; [|now apply XE]. intros y Hy. unfold upd. destruct (Nat.eqb_spec y caller) as [ ->|_]; [exfalso; apply Hy; now left|now apply XE].
      + right. exists rt. split; [exact Hj|]. unfold stack_of. cbn [fst]. destruct (sub rt) as [s0|] eqn:Sr; cbn [option_map].
        * rewrite upd_same. eapply frames_ext; [exact F'|]. intros u _ _. rewrite upd_other by apply save_caller.
          apply K'. right. now exists u.
        * inversion F'; subst. constructor.
    - intros b c rets s E P S k K V F. exfalso. destruct (u_ret _ _ _ WF _ _ _ E) as [ -> [t [St _]]]. rewrite St in F.
      destruct (ret_target _ _ _ _ _ E St F) as [rt [k' [ -> [P' F']]]]. congruence.
    - intros x s i Sx Hj S k K V F. eexists. eexists. split; [apply sgo_state; [exact Sx|exact Hj]|]. split; [reflexivity|]. split; [exact V|]. right.
      exists x. split; [exact Hj|]. now apply KF.
    - intros x s s' Sx _ IH S k K V F. destruct (IH S k K V F) as [S' [k' [H1 H2]]]. exists S', k'. split; [now apply sgo_block|exact H2].
  Qed.
End Regs.

(** * Executions over several cycles. [at_ i b]: index [i] selects block [b]. *)
Section Runs.
  Variables (g : graph) (J : nat -> nat -> Prop) (at_ : nat -> nat -> Prop) (inp : nat -> store -> store).
  Inductive mrun (s0 : store) (i0 : nat) : nat -> store * nat -> Prop :=
  | mr_0 : mrun s0 i0 0 (s0, i0)
  | mr_S n D i b s' : mrun s0 i0 n (D, i) -> i <> 0 -> at_ i b -> walk g J (inp n D) b (inp n D, i) s' -> mrun s0 i0 (S n) s'.
  Inductive srun (s0 : store) (i0 : nat) : nat -> store * nat -> list nat -> Prop :=
  | sr_0 : srun s0 i0 0 (s0, i0) []
  | sr_S n D i b k s' k' : srun s0 i0 n (D, i) k -> i <> 0 -> at_ i b -> swalk g J (inp n D) b (inp n D, i) k s' k' -> srun s0 i0 (S n) s' k'.
End Runs.

Theorem stack_run (caller : var) (save : nat -> var) (g : graph) (sub : nat -> option nat) (rank : nat -> nat) (J at_ : nat -> nat -> Prop) (inp : nat -> store -> store) :
  (forall s t, save s = save t -> s = t) -> (forall s, save s <> caller) -> Subs caller save g sub rank ->
  (forall t s x, reg caller save x -> inp t s x = s x) -> (forall t s s', eqv caller save s s' -> eqv caller save (inp t s) (inp t s')) ->
  (forall i b b', at_ i b -> at_ i b' -> b = b') -> (forall x i, J x i -> i <> 0 -> exists y, at_ i y /\ skips g x y) ->
  forall s0 i0, i0 <> 0 -> at_ i0 0 -> sub 0 = None ->
  forall n D i, mrun g J at_ inp s0 i0 n (D, i) -> exists S k, srun g J at_ inp s0 i0 n (S, i) k /\ eqv caller save D S.
Proof.
  intros SI SC WF IR IE AF JA s0 i0 N0 A0 S0 n.
  assert (SK : forall x y, skips g x y -> sub y = sub x).
  { induction 1 as [|b m c _ E _ _ IH]; [reflexivity|]. rewrite IH. apply (u_flow _ _ _ _ _ WF). rewrite E. now left. }
  assert (INV : forall D i, mrun g J at_ inp s0 i0 n (D, i) -> exists S k, srun g J at_ inp s0 i0 n (S, i) k /\ eqv caller save D S /\
     (i <> 0 -> exists b, at_ i b /\ stack_of caller save g sub D b k)).
  { induction n as [|n IH]; intros D i H.
    - inversion H; subst. exists D, []. split; [constructor|]. split; [intros x _; reflexivity|]. intros _. exists 0. split; [exact A0|].
      unfold stack_of. rewrite S0. constructor.
    - inversion H as [|n' D1 i1 b s' R N A W]; subst. destruct (IH _ _ R) as [S1 [k [R1 [E1 I1]]]]. destruct (I1 N) as [b' [A' F]].
      pose proof (AF _ _ _ A A'). subst b'.
      assert (F' : frames save g sub (inp n D1) (sub b) (inp n D1 caller) k).
      { rewrite IR by (now left). eapply frames_ext; [exact WF|exact F|]. intros u _ _. apply IR. right. now exists u. }
      destruct (sim caller save SI SC g sub rank WF J (inp n D1) (inp n S1) (IE _ _ _ E1)) as [SM _].
      destruct (SM _ _ _ W (inp n S1, i1) k) as [[S' j] [k' [W1 [W2 [W3 W4]]]]]; [intros x Hx; reflexivity|now apply IE|exact F'|]. cbn in W2, W3. subst j.
      exists S', k'. split; [eapply sr_S; eassumption|]. split; [exact W3|]. intros Ni. destruct W4 as [W4|[x [Jx Fx]]]; [now cbn in W4|]. cbn in Jx, Fx.
      destruct (JA _ _ Jx Ni) as [y [Ay Ky]]. exists y. split; [exact Ay|]. unfold stack_of in *. now rewrite (SK _ _ Ky). }
  intros D i H. destruct (INV D i H) as [S [k [H1 [H2 _]]]]. now exists S, k.
Qed.
