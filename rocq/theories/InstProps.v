(** C17: calls to algorithms. *)
From Coq Require Import List Bool Arith ZArith Lia.
Import ListNotations.
From Verif Require Import FsmModel FsmEmit FsmLayout FsmRegion FsmStates FsmArms FsmSource FsmRun FsmBig FsmStep RegModel RegProps InstModel InstProofs InstSim.

(** A program without goto has no jumps. *)
Lemma caller_jumps w pc : forallb (every (caller_ok w)) pc = true -> nojumps (gotoss pc) pc = true.
Proof.
  intros OK. assert (G : gotoss pc = []); [|rewrite G; apply nojumps_nil].
  assert (FL : forall (A : Type) (f : A -> list nat) l, (forall x, In x l -> f x = []) -> flat_map f l = []).
  { intros A f l. induction l as [|x l IH]; intros H; cbn; [reflexivity|]. rewrite (H x (or_introl eq_refl)), IH; [reflexivity|]. intros y Hy. apply H. now right. }
  assert (H : forall st, every (caller_ok w) st = true -> gotos st = []).
  { assert (L : forall l, Forall (fun st => every (caller_ok w) st = true -> gotos st = []) l -> forallb (every (caller_ok w)) l = true -> flat_map gotos l = []).
    { intros l F E. rewrite Forall_forall in F. rewrite forallb_forall in E. apply FL. auto. }
    induction st using stmt_ind'; intros E; pose proof (every_here _ _ E) as HP; cbn [gotos]; try reflexivity; cbn [every] in E; rewrite ?andb_true_iff in E; try discriminate.
    - apply L; tauto.
    - apply L; tauto.
    - rewrite !L; tauto.
    - destruct E as [_ E]. rewrite forallb_forall in E. rewrite Forall_forall in H. apply FL. intros c Hc. apply L; [now apply H|now apply E].
    - apply L; tauto. }
  unfold gotoss. apply FL. rewrite forallb_forall in OK. auto.
Qed.

(** The caller is started while the callee is idle, then neither is reset or started again from outside. Whatever the caller does in the middle - calls in loops and conditionals,
    work between an asynchronous call and its join - when its program understood with procedure calls ends, the two modules end with the same values:
    every call has executed the program of the callee once, from initialized registers and the inputs given, and every join has seen its final outputs.
    The callee and the caller then stay as they are. *)
Theorem C17_function_call : forall w vk fk uk pk mk fc uc pc mc ac vc reset crun t s k k0 s' K',
  inst_ok w = true ->
  compile fk uk [] pk = Some mk -> forallb (every (callee_ok w)) pk = true -> covereds pk = true ->
  compile fc uc [] pc = Some mc -> forallb (every (caller_ok w)) pc = true -> covereds pc = true ->
  (forall n, t <= n -> reset n = false /\ crun n = true) ->
  m_idx k0 = 0 -> (forall x, ~ In x (map fst (i_ins w)) -> m_q k0 x = k x) ->
  calls w vk pk pc (s, Idle k) Normal (s', K') ->
  exists n0, forall n, n0 <= n -> exists y,
    sys_run w ac mc mk vc vk reset crun t n {| y_c := {| m_q := s; m_idx := f_entry mc; m_auto := true |}; y_k := k0 |} = Some y /\
    m_idx (y_c y) = 0 /\ (forall x, ~ In x (signals w) -> m_q (y_c y) x = s' x) /\
    (forall k', K' = Idle k' -> m_idx (y_k y) = 0 /\ forall x, ~ In x (map fst (i_ins w)) -> m_q (y_k y) x = k' x).
Proof.
  intros w vk fk uk pk mk fc uc pc mc ac vc reset crun t s k k0 s' K' WK CPk OKk CVk CPc OKc CVc QT I0 AK X.
  destruct (follow_step _ _ _ _ _ CPc (caller_jumps _ _ OKc) CVc) as [I FO].
  destruct (calls_small w vk pk uc pc) as [_ SM].
  assert (X2 : calls w vk pk (SStep :: body uc pc) (s, Idle k) Normal (s', K')).
  { eapply c_cons; [apply c_step|]. unfold body. destruct uc; [|exact X]. eapply c_cons; [apply c_block; exact X|apply c_nil]. }
  destruct (SM _ _ _ _ X2 KStop) as [L XS]. cbn [fst snd] in XS.
  destruct (fo_entry _ _ _ _ _ FO) as [IE NE].
  assert (B : Bnd w mk false (Run (SStep :: body uc pc) KStop) s k0 (SStep :: body uc pc, KStop, s, Idle k)).
  { split; [|split; [|split; [reflexivity|intros x _; reflexivity]]].
    - split; [|split; exact Logic.I]. cbn [forallb]. unfold body. destruct uc; cbn [forallb every andb caller_ok]; [now rewrite OKc|exact OKc].
    - split; [exact I0|exact AK]. }
  destruct (sys_main w vk fk uk pk mk uc pc mc ac vc WK CPk OKk CVk reset crun I FO (S (mu Plain L (Run (SStep :: body uc pc) KStop))) t
    {| y_c := {| m_q := s; m_idx := f_entry mc; m_auto := true |}; y_k := k0 |} ([], KStop, s', K') QT) as [n0 [y [R [D [kh [s1 [K1 [ -> [E [A [KK X1]]]]]]]]]]].
  - now exists s', K'.
  - exists false, (Run (SStep :: body uc pc) KStop), s, (f_entry mc), k0, (SStep :: body uc pc, KStop, s, Idle k), L. repeat (split; [assumption || reflexivity|]). lia.
  - injection E as <- <-. exists n0. intros n Hn.
    destruct (holds w vk fk uk pk mk mc ac vc WK CPk OKk CVk reset crun (t + n0) D kh s' K' ltac:(intros; apply QT; lia) A KK X1 (n - n0)) as [D' [kh' [R' [A' K2]]]].
    eexists. split; [replace n with (n0 + (n - n0)) by lia; rewrite (run_app _ _ _ _ _ _ _ _ _ _ _ _ _ R); exact R'|]. split; [reflexivity|]. split; [exact A'|].
    intros k' ->. exact K2.
Qed.
Print Assumptions C17_function_call.

(** Examples. Callee: input 100, output 101: multiplies the input by the number of iterations of a loop; 102: counter, 103: number of executions (not initialized).
    Caller: 10: run, 11: done, 12: input register, 13: output wire. *)
Definition w_ex : inst := {| i_run := 10; i_done := 11; i_ins := [(100, 12)]; i_outs := [(13, 101)] |}.
Definition vk_ex (x : var) : option upd_rhs := if Nat.eqb x 101 then Some (Mux OnResetOrNotRun 0%Z) else if Nat.eqb x 102 then Some (Mux OnResetOrNotRun 0%Z) else if Nat.eqb x 103 then Some Keep else None.
Definition pk_ex : list stmt :=
  [ SWhile (EB (fun a b => if Z.ltb a b then 1 else 0)%Z (EV 102) (EC 3))
      [ SAssign 101 (EB Z.add (EV 101) (EV 100)); SAssign 102 (EB Z.add (EV 102) (EC 1)) ];
    SAssign 103 (EB Z.add (EV 103) (EC 1)) ].
(** i = 0; s = 0; while (i < 4) { (r) <- a <- (i + 1); s = s + r; i = i + 1; } a <- (10); ++: s = s + 1; (r) <- a; *)
Definition pc_ex : list stmt :=
  [ SAssign 0 (EC 0); SAssign 1 (EC 0);
    SWhile (EB (fun a b => if Z.ltb a b then 1 else 0)%Z (EV 0) (EC 4))
      (sync_call w_ex [(12, EB Z.add (EV 0) (EC 1))] [(2, EV 13)] ++ [ SAssign 1 (EB Z.add (EV 1) (EV 2)); SAssign 0 (EB Z.add (EV 0) (EC 1)) ]) ] ++
  start_call w_ex [(12, EC 10)] ++ [ SStep; SAssign 1 (EB Z.add (EV 1) (EC 1)); join_call w_ex [(2, EV 13)] ].
Definition sys_ex (pc pk : list stmt) (n : nat) : option (list Z) :=
  do mc <- compile 200 false [] pc;
  do mk <- compile 200 false [] pk;
  do y <- sys_run w_ex {| a_fsm := true; a_auto := true |} mc mk (fun _ => Some Keep) vk_ex (fun _ => false) (fun _ => true) 0 n
            {| y_c := {| m_q := fun _ => 0%Z; m_idx := f_entry mc; m_auto := true |}; y_k := {| m_q := fun _ => 0%Z; m_idx := 0; m_auto := true |} |};
  Some [ Z.of_nat (m_idx (y_c y)); m_q (y_c y) 1; m_q (y_c y) 2; m_q (y_k y) 103; Z.of_nat (m_idx (y_k y)) ].
(** Evaluators for the examples, sound for [exec] and [calls]. *)
Fixpoint ex (n : nat) (l : list stmt) (s : store) : option (outcome * store) :=
  match n with
  | O => None
  | S n =>
      let next (o : option (outcome * store)) (r : list stmt) := match o with Some (Normal, s1) => ex n r s1 | _ => o end in
      match l with
      | [] => Some (Normal, s)
      | SAssign x e :: r => ex n r (upd s x (eval s e))
      | SStep :: r | SLabel _ :: r => ex n r s
      | SBreak :: r => Some (Broke, s)
      | SBlock b :: r => next (ex n b s) r
      | SIf e b :: r => next (ex n (if truth (eval s e) then b else []) s) r
      | SWhile e b :: r =>
          if truth (eval s e) then match ex n b s with Some (Normal, s1) => ex n (SWhile e b :: r) s1 | Some (Broke, s1) => ex n r s1 | None => None end else ex n r s
      | _ => None
      end
  end.
Lemma ex_sound n : forall l s o s', ex n l s = Some (o, s') -> exec false l s o s'.
Proof.
  induction n as [|n IH]; intros l s o s' H; [discriminate|]. cbn [ex] in H. destruct l as [|st r]; [injection H as <- <-; constructor|].
  assert (NX : forall b s, exec1 false st s Normal b -> exec false r b o s' -> exec false (st :: r) s o s') by (intros; econstructor; eassumption).
  destruct st; try discriminate.
  - eapply NX; [constructor|]. now apply IH.
  - destruct (ex n l s) as [[[] s1]|] eqn:E; try discriminate; [eapply NX; [constructor; apply IH; exact E|now apply IH]|]. injection H as <- <-. apply x_broke. constructor. now apply IH.
  - destruct (ex n (if truth (eval s e) then l else []) s) as [[[] s1]|] eqn:E; try discriminate; [eapply NX; [constructor; apply IH; exact E|now apply IH]|]. injection H as <- <-. apply x_broke. constructor. now apply IH.
  - destruct (truth (eval s e)) eqn:T; [|eapply NX; [now apply x_while_end|now apply IH]]. destruct (ex n l s) as [[[] s1]|] eqn:E; try discriminate.
    + apply IH in H. inversion H as [|x r0 a b0 o0 c H1 H2|x r0 a b0 H1]; subst; [|inversion H1]. eapply NX; [eapply x_while_next; [exact T|apply IH; exact E|exact H1]|exact H2].
    + eapply NX; [eapply x_while_break; [exact T|apply IH; exact E]|now apply IH].
  - injection H as <- <-. apply x_broke. constructor.
  - eapply NX; [constructor|now apply IH].
  - eapply NX; [constructor|now apply IH].
Qed.
Section Calls.
  Variables (w : inst) (vk : var -> option upd_rhs) (pk : list stmt) (m : nat).
  Definition join (d : expr) (K : kst) : option store :=
    match d with EV x => if Nat.eqb x (i_done w) then match K with Idle k => Some k | Busy k => match ex m pk k with Some (Normal, k') => Some k' | _ => None end end else None | _ => None end.
  Fixpoint cx (n : nat) (l : list stmt) (a : store * kst) : option (outcome * (store * kst)) :=
    match n with
    | O => None
    | S n =>
        match l with
        | [] => Some (Normal, a)
        | SAssign x e :: r =>
            if Nat.eqb x (i_run w) then match e, snd a with EC 0, Idle k => cx n r (fst a, Busy (starting w vk k (fst a))) | _, _ => None end
            else if match snd a with Idle _ => true | Busy _ => negb (memb x (map snd (i_ins w))) end then cx n r (upd (fst a) x (eval (fst a) e), snd a) else None
        | SJoin d res :: r => match join d (snd a) with Some k => cx n r (read_results w res k (fst a), Idle k) | None => None end
        | SStep :: r => cx n r a
        | SIf e b :: r => match cx n (if truth (eval (fst a) e) then b else []) a with Some (Normal, a1) => cx n r a1 | x => x end
        | SBreak :: r => Some (Broke, a)
        | SWhile e b :: r =>
            if truth (eval (fst a) e) then match cx n b a with Some (Normal, a1) => cx n (SWhile e b :: r) a1 | Some (Broke, a1) => cx n r a1 | None => None end else cx n r a
        | _ => None
        end
    end.
  Lemma cx_sound n : forall l a o b, cx n l a = Some (o, b) -> calls w vk pk l a o b.
  Proof.
    induction n as [|n IH]; intros l [s K] o b H; [discriminate|]. cbn [cx] in H. destruct l as [|st r]; [injection H as <- <-; constructor|].
    assert (NX : forall b1 a, call1 w vk pk st a Normal b1 -> calls w vk pk r b1 o b -> calls w vk pk (st :: r) a o b) by (intros; econstructor; eassumption).
    destruct st; try discriminate; cbn [fst snd] in H.
    - destruct (Nat.eqb_spec x (i_run w)) as [ ->|N].
      + destruct e as [[| |]| | |]; try discriminate. destruct K as [k|]; [|discriminate]. eapply NX; [constructor|now apply IH].
      + destruct (match K with Idle _ => true | Busy _ => negb (memb x (map snd (i_ins w))) end) eqn:E; [|discriminate]. eapply NX; [apply c_assign; [exact N|]|now apply IH].
        destruct K as [k|k]; [exact Logic.I|]. cbn. intros I. apply memb_in in I. rewrite I in E. discriminate.
    - destruct (cx n (if truth (eval s e) then l else []) (s, K)) as [[[] s1]|] eqn:E; try discriminate; [eapply NX; [constructor; apply IH; exact E|now apply IH]|].
      injection H as <- <-. apply c_broke. constructor. now apply IH.
    - destruct (truth (eval s e)) eqn:T; [|eapply NX; [now apply c_while_end|now apply IH]]. destruct (cx n l (s, K)) as [[[] s1]|] eqn:E; try discriminate.
      + apply IH in H. inversion H as [|x r0 a c0 o0 c H1 H2|x r0 a c0 H1]; subst; [|inversion H1]. eapply NX; [eapply c_while_next; [exact T|apply IH; exact E|exact H1]|exact H2].
      + eapply NX; [eapply c_while_break; [exact T|apply IH; exact E]|now apply IH].
    - injection H as <- <-. apply c_broke. constructor.
    - eapply NX; [constructor|now apply IH].
    - unfold join in H. destruct d as [|x| |]; try discriminate. destruct (Nat.eqb_spec x (i_done w)) as [ ->|]; [|discriminate]. destruct K as [k|k].
      + eapply NX; [apply c_join_idle|now apply IH].
      + destruct (ex m pk k) as [[[] k1]|] eqn:E; try discriminate. eapply NX; [apply c_join; eapply ex_sound; exact E|now apply IH].
  Qed.
End Calls.
Example C17_ex : inst_ok w_ex = true /\ forallb (every (callee_ok w_ex)) pk_ex = true /\ covereds pk_ex = true /\
  forallb (every (caller_ok w_ex)) pc_ex = true /\ covereds pc_ex = true /\
  (exists s' k', calls w_ex vk_ex pk_ex pc_ex (fun _ => 0%Z, Idle (fun _ => 0%Z)) Normal (s', Idle k') /\ s' 1 = 31%Z /\ s' 2 = 30%Z /\ k' 103 = 5%Z) /\
  sys_ex pc_ex pk_ex 60 = Some [0; 31; 30; 5; 0]%Z.
Proof.
  repeat (split; [reflexivity|]). split; [|vm_compute; reflexivity].
  assert (H : match cx w_ex vk_ex pk_ex 100 100 pc_ex (fun _ => 0%Z, Idle (fun _ => 0%Z)) with
              | Some (Normal, (s', Idle k')) => Z.eqb (s' 1) 31 && Z.eqb (s' 2) 30 && Z.eqb (k' 103) 5 | _ => false end = true) by (vm_compute; reflexivity).
  destruct (cx w_ex vk_ex pk_ex 100 100 pc_ex (fun _ => 0%Z, Idle (fun _ => 0%Z))) as [[[] [s' [k'|k']]]|] eqn:E; try discriminate H.
  exists s', k'. split; [eapply cx_sound; exact E|]. rewrite !andb_true_iff, !Z.eqb_eq in H. tauto.
Qed.

(** An algorithm called again while it runs is started again: the first execution is never completed, there are two calls and a single completed execution.
    a <- (1); ++: a <- (2); ++: (r) <- a; *)
Definition pc_again : list stmt := start_call w_ex [(12, EC 1)] ++ SStep :: start_call w_ex [(12, EC 2)] ++ [ SStep; join_call w_ex [(2, EV 13)] ].
Theorem C17_again_refuted : exists pc pk,
  length (filter (fun st => match st with SAssign x (EC 0) => Nat.eqb x (i_run w_ex) | _ => false end) pc) = 2 /\
  forall n, 30 <= n -> sys_ex pc pk n = Some [0; 0; 6; 1; 0]%Z.
Proof.
  exists pc_again, pk_ex. split; [reflexivity|]. intros n Hn. unfold sys_ex.
  destruct (compile 200 false [] pc_again) as [mc|] eqn:Ec; [|vm_compute in Ec; discriminate]. destruct (compile 200 false [] pk_ex) as [mk|] eqn:Ek; [|vm_compute in Ek; discriminate]. cbn [obind].
  set (run := sys_run w_ex {| a_fsm := true; a_auto := true |} mc mk (fun _ => Some Keep) vk_ex (fun _ => false) (fun _ => true)).
  set (y0 := {| y_c := {| m_q := fun _ => 0%Z; m_idx := f_entry mc; m_auto := true |}; y_k := {| m_q := fun _ => 0%Z; m_idx := 0; m_auto := true |} |}).
  (* the state after 30 cycles *)
  assert (S30 : exists y, run 0 30 y0 = Some y /\ m_idx (y_c y) = 0 /\ m_auto (y_c y) = true /\ m_idx (y_k y) = 0 /\ m_q (y_c y) 1 = 0%Z /\ m_q (y_c y) 2 = 6%Z /\ m_q (y_k y) 103 = 1%Z).
  { assert (H : match compile 200 false [] pc_again, compile 200 false [] pk_ex with
              | Some mc, Some mk =>
                match sys_run w_ex {| a_fsm := true; a_auto := true |} mc mk (fun _ => Some Keep) vk_ex (fun _ => false) (fun _ => true) 0 30
                  {| y_c := {| m_q := fun _ => 0%Z; m_idx := f_entry mc; m_auto := true |}; y_k := {| m_q := fun _ => 0%Z; m_idx := 0; m_auto := true |} |} with
                | Some y => Nat.eqb (m_idx (y_c y)) 0 && m_auto (y_c y) && Nat.eqb (m_idx (y_k y)) 0 && Z.eqb (m_q (y_c y) 1) 0 && Z.eqb (m_q (y_c y) 2) 6 && Z.eqb (m_q (y_k y) 103) 1
                | None => false
                end
              | _, _ => false
              end = true) by (vm_compute; reflexivity).
    rewrite Ec, Ek in H. fold run in H. fold y0 in H. destruct (run 0 30 y0) as [y|]; [|discriminate]. exists y. rewrite !andb_true_iff, !Nat.eqb_eq, !Z.eqb_eq in H. tauto. }
  destruct S30 as [y [R [I1 [I2 [I3 [V1 [V2 V3]]]]]]]. destruct y as [[D i au] kh]. cbn [y_c y_k m_idx m_auto m_q] in *. subst i au.
  destruct (holds w_ex vk_ex 200 false pk_ex mk mc {| a_fsm := true; a_auto := true |} (fun _ => Some Keep) eq_refl Ek eq_refl eq_refl (fun _ => false) (fun _ => true)
     30 D kh D (Idle (m_q kh))) with (n := n - 30) as [D' [kh' [R' [A' [K1 K2]]]]].
  - intros; split; reflexivity.
  - intros x _. reflexivity.
  - split; [exact I3|intros x _; reflexivity].
  - exact Logic.I.
  - assert (R2 : run 0 n y0 = Some {| y_c := cst D' 0; y_k := kh' |}).
    { replace n with (30 + (n - 30)) by lia. unfold run. rewrite (run_app _ _ _ _ _ _ _ _ _ _ _ _ _ R). exact R'. }
    rewrite R2. cbn [obind y_c y_k]. rewrite K1. unfold cst. cbn [m_q m_idx].
    assert (N : forall x, x = 1 \/ x = 2 -> ~ In x (signals w_ex)) by (cbn; lia).
    rewrite (A' 1), (A' 2) by (apply N; auto). rewrite (K2 103) by (cbn; lia). rewrite V1, V2, V3. reflexivity.
Qed.
Print Assumptions C17_again_refuted.
