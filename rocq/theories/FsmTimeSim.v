(** The state machine follows the source text cycle by cycle: FsmCorrect with the states after conditionals known. *)
From Coq Require Import List Bool Arith ZArith Lia.
Import ListNotations.
From Verif Require Import FsmModel FsmEmit FsmLayout FsmGather FsmBody FsmRenum FsmRegion FsmJoin FsmStates FsmArms FsmSource FsmTimeStatic FsmTimeSem.

(** * Positions in the graph *)
Section Pos.
  Variable G : graph.
  Variable Lb : nat -> nat -> Prop.
  Variable V : nat -> Prop.

  (** What follows position [b], [i] in the graph is what remains to be done. *)
  Inductive matchk : option nat -> kont -> nat -> nat -> Prop :=
  | mk_stop b i : full G b i -> b_end (G b) = ENone -> matchk None KStop b i
  | mk_skip brk k b i m : full G b i -> nexts G b m -> fresh G m -> matchk brk k m 0 -> matchk brk k b i
  | mk_here brk r k lo hi b i b2 i2 : trxl G Lb V brk r lo hi b i b2 i2 -> matchk brk k b2 i2 -> matchk brk (KSeq false r k) b i
  | mk_if brk j r k lo hi b i m b2 i2 : full G b i -> nexts G b m -> b_noskip (G m) = false -> timed G m j ->
      trxl G Lb V brk r lo hi m 0 b2 i2 -> matchk brk k b2 i2 -> matchk brk (KSeq j r k) b i
  | mk_loop brk e body r k b i h : full G b i -> nexts G b h -> head brk h e body r k -> matchk (Some (S (S h))) (KLoop e body r k) b i
  with head : option nat -> nat -> expr -> list stmt -> list stmt -> kont -> Prop :=
  | hd_intro brk h e body r k hi il lo2 hi2 b2 i2 :
      b_state (G h) = true -> b_noskip (G h) = false -> full G h 0 -> b_end (G h) = EWhile e (S h) (S (S h)) -> fresh G (S h) ->
      b_noskip (G (S (S h))) = false -> b_state (G (S (S h))) = hasbrks body ->
      trxb G Lb V (Some (S (S h))) body (S (S (S h))) hi (S h) 0 il -> full G il 0 -> nexts G il h ->
      trxl G Lb V brk r lo2 hi2 (S (S h)) 0 b2 i2 -> matchk brk k b2 i2 -> head brk h e body r k.

  Definition here (brk : option nat) (b i : nat) (l : list stmt) (k : kont) : Prop :=
    exists lo hi b2 i2, trxl G Lb V brk l lo hi b i b2 i2 /\ matchk brk k b2 i2.

  Inductive At : nat -> nat -> list stmt -> kont -> Prop :=
  | at_here brk b i l k : here brk b i l k -> At b i l k
  | at_skip b i m l k : full G b i -> nexts G b m -> fresh G m -> At m 0 l k -> At b i l k.

  Inductive waiting : nat -> expr -> list (var * expr) -> list stmt -> kont -> Prop :=
  | wt_intro w d rb r k : b_state (G w) = true -> b_noskip (G w) = false -> full G w 0 -> b_end (G w) = EWait d w (S w) ->
      b_state (G (S w)) = true -> b_noskip (G (S w)) = false -> At (S w) 0 (assigns rb ++ r) k -> waiting w d rb r k.

  (** Position when the cycle ends. *)
  Inductive AtJ : nat -> list stmt -> kont -> Prop :=
  | aj_at b l k : At b 0 l k -> AtJ b l k
  | aj_head brk h e body r k : head brk h e body r k -> AtJ h (SWhile e body :: r) k
  | aj_wait w d rb r k : waiting w d rb r k -> AtJ w (SJoin d rb :: r) k.

  (** Entering blocks and branches. *)
  Lemma enter_b brk l lo hi b i m k : trxb G Lb V brk l lo hi b i m -> matchk brk k m 0 -> exists a j hi', full G b i /\ nexts G b lo /\ fresh G lo /\
     trxl G Lb V brk l (S lo) hi' lo 0 a j /\ matchk brk k a j.
  Proof.
    intros T K. inversion T as [? ? ? m' ? ? a j Fb Nb F1 Tr Fa Na F2]; subst. exists a, j, m. repeat (split; [assumption|]).
    eapply mk_skip; eassumption.
  Qed.
  Lemma enter_at brk l lo hi b i m k : trxb G Lb V brk l lo hi b i m -> matchk brk k m 0 -> At b i l k.
  Proof.
    intros T K. destruct (enter_b _ _ _ _ _ _ _ _ T K) as [a [j [hi' [A1 [A2 [A3 [A4 A5]]]]]]]. eapply at_skip; [exact A1|exact A2|exact A3|].
    apply (at_here brk). exists (S lo), hi', a, j. auto.
  Qed.
  Lemma seq_here brk r k lo hi b i b2 i2 : trxl G Lb V brk r lo hi b i b2 i2 -> matchk brk k b2 i2 -> matchk brk (KSeq false r k) b i.
  Proof. apply mk_here. Qed.

  (** Break. *)
  Lemma brk_at t k b i : matchk (Some t) k b i -> exists r k', brkk k = Some (r, k') /\ At t 0 r k' /\ b_noskip (G t) = false.
  Proof.
    remember (Some t) as brk eqn:E. intros H. induction H; subst; try discriminate; try (now apply IHmatchk).
    - injection E as <-. inversion H1; subst. exists r, k. split; [reflexivity|]. split; [|assumption]. apply (at_here brk). exists lo2, hi2, b2, i2. auto.
  Qed.

  Lemma brk_at_list t r k lo hi b i b2 i2 : trxl G Lb V (Some t) r lo hi b i b2 i2 -> matchk (Some t) k b2 i2 ->
    exists r' k', brkk k = Some (r', k') /\ At t 0 r' k' /\ b_noskip (G t) = false.
  Proof. intros _. apply brk_at. Qed.

  (** Reading back the outputs. *)
  Lemma assigns_at brk r b : forall rb rest pre lo hi b2 i2, b_ins (G b) = pre ++ map (fun r => IAssign (fst r) (snd r)) rb ++ rest ->
    trxl G Lb V brk r lo hi b (length pre + length rb) b2 i2 -> trxl G Lb V brk (assigns rb ++ r) lo hi b (length pre) b2 i2.
  Proof.
    induction rb as [|[x e] rb IH]; intros rest pre lo hi b2 i2 E T; cbn [assigns map app length] in *; [now rewrite Nat.add_0_r in T|].
    eapply trxl_cons.
    - apply trx_assign. cbn [fst snd]. rewrite E. rewrite nth_error_app2 by lia. now rewrite Nat.sub_diag.
    - specialize (IH rest (pre ++ [IAssign x e]) lo hi b2 i2). rewrite app_length in IH. cbn [length] in IH. rewrite Nat.add_1_r in IH. apply IH.
      + rewrite E. cbn. now rewrite <- app_assoc.
      + replace (S (length pre) + length rb) with (length pre + S (length rb)) by lia. exact T.
  Qed.
  Lemma join_at brk rest rb r k b : b_ins (G b) = map (fun r => IAssign (fst r) (snd r)) rb ++ rest -> here brk b (length rb) r k -> At b 0 (assigns rb ++ r) k.
  Proof.
    intros E [lo [hi [b2 [i2 [T K]]]]]. apply (at_here brk). exists lo, hi, b2, i2. split; [|exact K]. now apply (assigns_at brk r b rb rest []).
  Qed.

  (** The join after a conditional. *)
  Definition joins (brk : option nat) (m : nat) (j : bool) (r : list stmt) (k : kont) : Prop :=
    b_noskip (G m) = false /\ timed G m j /\ here brk m 0 r k.
  Lemma join_match brk m j r k b : joins brk m j r k -> full G b 0 -> nexts G b m -> matchk brk (KSeq j r k) b 0.
  Proof. intros [J1 [J2 [lo [hi [b2 [i2 [J3 J4]]]]]]] F N. eapply mk_if; eassumption. Qed.

  (** Normal positions. *)
  Inductive Pos (b i : nat) : list stmt -> kont -> Prop :=
  | p_stmt brk x r k lo hi b1 i1 : trx G Lb V brk x lo hi b i b1 i1 -> here brk b1 i1 r k -> Pos b i (x :: r) k
  | p_stop : full G b i -> b_end (G b) = ENone -> Pos b i [] KStop
  | p_if j r k m : full G b i -> nexts G b m -> b_noskip (G m) = false -> timed G m j -> At m 0 r k -> Pos b i [] (KSeq j r k)
  | p_loop brk e body r k h : full G b i -> nexts G b h -> head brk h e body r k -> Pos b i [] (KLoop e body r k)
  | p_skip m l k : full G b i -> nexts G b m -> fresh G m -> At m 0 l k -> Pos b i l k.

  Definition leads (l : list stmt) (k : kont) (l' : list stmt) (k' : kont) : Prop :=
    (forall s, moves (Run l k, s) (Run l' k', s)) /\ (forall s, moves (Jump l k, s) (Jump l' k', s)) /\
    (settles l' k' -> settles l k) /\ (nothing l' k' -> nothing l k).
  Lemma leads_refl l k : leads l k l k. Proof. repeat split; intros; try assumption; apply mv_refl. Qed.

  Lemma here_nil brk k b i : matchk brk k b i -> At b i [] k.
  Proof. intros H. apply (at_here brk). exists 0, 0, b, i. split; [constructor|exact H]. Qed.
  Lemma norm_nil : forall brk k b i, matchk brk k b i -> exists l' k', leads [] k l' k' /\ At b i l' k' /\ Pos b i l' k'.
  Proof.
    intros brk k b i H. induction H.
    - exists [], KStop. split; [apply leads_refl|]. split; [eapply here_nil, mk_stop; assumption|now apply p_stop].
    - exists [], k. split; [apply leads_refl|]. split; [eapply here_nil, mk_skip; eassumption|]. eapply p_skip; try eassumption. now apply (here_nil brk).
    - destruct r as [|x r].
      + inversion H; subst. destruct IHmatchk as [l' [k' [[L1 [L2 [L3 L4]]] P]]]. exists l', k'. split; [|exact P]. split; [|split; [|split]]; intros s.
        * eapply mv_step; [apply m_seq|apply L1].
        * eapply mv_step; [apply mj_seq|apply L2].
        * apply st_seq. now apply L3.
        * apply no_seq. now apply L4.
      + exists (x :: r), k. split; [|split].
        * split; [|split; [|split]]; intros s; [apply moves_one; constructor|apply moves_one; constructor|now apply st_seq|now apply no_seq].
        * apply (at_here brk). exists lo, hi, b2, i2. auto.
        * inversion H; subst. eapply p_stmt; [eassumption|]. exists m, hi, b2, i2. auto.
    - exists [], (KSeq j r k). split; [apply leads_refl|]. split; [eapply here_nil, mk_if; eassumption|].
      eapply p_if; try eassumption. apply (at_here brk). exists lo, hi, b2, i2. auto.
    - exists [], (KLoop e body r k). split; [apply leads_refl|]. split; [eapply here_nil, mk_loop; eassumption|]. eapply p_loop; eassumption.
  Qed.
  Lemma norm b i l k : At b i l k -> exists l' k', leads l k l' k' /\ At b i l' k' /\ Pos b i l' k'.
  Proof.
    intros H. pose proof H as H0. destruct H as [brk b i l k [lo [hi [b2 [i2 [T K]]]]]|b i m l k F N Fm A].
    - destruct l as [|x r].
      + inversion T; subst. eapply norm_nil; eassumption.
      + exists (x :: r), k. split; [apply leads_refl|]. split; [exact H0|]. inversion T; subst. eapply p_stmt; [eassumption|]. exists m, hi, b2, i2. auto.
    - exists l, k. split; [apply leads_refl|]. split; [exact H0|]. eapply p_skip; eassumption.
  Qed.
End Pos.

(** * Simulation *)
Section Sim.
  Variable G : graph.
  Variable Lb : nat -> nat -> Prop.
  Variable V : nat -> Prop.
  Variables (fuel last : nat) (r : rst).
  Hypothesis nounres : forall b, b_end (G b) <> ENext None.
  Hypothesis nolbl : forall n x, Lb n x -> b_state (G x) = false.
  Hypothesis lastT : b_end (G last) = ENone \/ b_state (G last) = false.
  Hypothesis sidT : forall b i, r_sid r b = Some i -> 1 <= i /\ V b.
  Hypothesis visT : forall b z, V b -> child G b z -> b_state (G z) = false -> V z.

  Notation at_ := (At G Lb V).
  Notation J := (Jmp fuel G r last).

  (** Empty blocks skipped after state [y]. *)
  Inductive Chn (y : nat) : nat -> Prop :=
  | ch_refl : Chn y y
  | ch_step z n : Chn y z -> b_ins (G z) = [] -> nexts G z n -> b_state (G n) = false -> Chn y n.
  Lemma chn_state y c : Chn y c -> b_state (G c) = true -> c = y.
  Proof. intros H S. destruct H; [reflexivity|congruence]. Qed.
  Lemma chn_none y c : Chn y c -> b_end (G y) = ENone -> c = y.
  Proof. intros H E. induction H; [reflexivity|]. subst. unfold nexts in H1. congruence. Qed.
  Lemma chn_vis y c : Chn y c -> V y -> V c.
  Proof. intros H Vy. induction H as [|z n H IH I N S]; [exact Vy|]. apply (visT z); [exact IH| |exact S]. unfold child. rewrite N. now left. Qed.
  Lemma chn_walk Q y c s s' : Chn y c -> walk G J Q y s s' -> walk G J Q c s s'.
  Proof.
    intros H W. induction H as [|z n H IH I N S]; [exact W|]. unfold nexts in N. inversion IH; subst; try congruence.
    rewrite N in H0. injection H0 as <-. rewrite I in H1. cbn in H1. inversion H1; subst; [congruence|assumption].
  Qed.

  (** State of the machine and configuration between two cycles. *)
  Inductive Rel (b : nat) : config -> Prop :=
  | rel_run cur cf l k : Chn b cur -> at_ cur 0 l k -> tick cf (Run l k) -> cf <> Run [] KStop -> Rel b cf
  | rel_head brk e body rr k : head G Lb V brk b e body rr k -> Rel b (Jump (SWhile e body :: rr) k)
  | rel_wait d rb rr k : waiting G Lb V b d rb rr k -> Rel b (Jump (SJoin d rb :: rr) k).
  Definition M (i : nat) (cf : config) : Prop := (i = 0 /\ done cf) \/ (i <> 0 /\ exists b, r_sid r b = Some i /\ Rel b cf).

  Lemma full_nil b : full G b 0 -> b_ins (G b) = [].
  Proof. unfold full. destruct (b_ins (G b)); [reflexivity|discriminate]. Qed.
  Lemma here_at brk b i l k : here G Lb V brk b i l k -> at_ b i l k.
  Proof. apply at_here. Qed.

  (** Ends of blocks. *)
  Ltac ends := repeat match goal with H : nexts G _ _ |- _ => unfold nexts in H end; congruence.

  (** The end of the program. *)
  Lemma end_pos b l k : b_end (G b) = ENone -> b_ins (G b) = [] -> Pos G Lb V b 0 l k -> l = [] /\ k = KStop.
  Proof.
    intros E I P. destruct P as [brk x rr k lo hi b1 i1 T H|F E2|j rr k m F N Nm Sm A|brk e body rr k h F N H|m l k F N Fm A]; try (unfold nexts in N; congruence); [|auto].
    exfalso. inversion T; subst; try (unfold nexts in *; congruence).
    - rewrite I in H0. discriminate.
    - rewrite I in H0. discriminate.
    - inversion H0; subst. unfold nexts in *. congruence.
  Qed.

  (** Selecting a state. *)
  Definition lead (cf : config) (i : nat) : Prop := exists cf', (forall s, moves (cf, s) (cf', s)) /\ M i cf'.
  Lemma lead_step cf cf' i : (forall s, moves (cf, s) (cf', s)) -> lead cf' i -> lead cf i.
  Proof. intros H [c [H1 H2]]. exists c. split; [|exact H2]. intros s. eapply moves_trans; [apply H|apply H1]. Qed.
  Lemma lead_one cf cf' i : (forall s, move (cf, s) (cf', s)) -> lead cf' i -> lead cf i.
  Proof. intros H. apply lead_step. intros s. apply moves_one, H. Qed.

  Definition sel (y i : nat) : Prop := (if block_empty (G y) && Nat.eqb y last then Some 0 else r_sid r y) = Some i.
  Lemma rel_lead y i cf : b_state (G y) = true -> sel y i -> Rel y cf -> lead cf i.
  Proof.
    intros S H R. unfold sel in H. exists cf. split; [intros s; apply mv_refl|]. destruct (block_empty (G y) && Nat.eqb y last) eqn:E.
    - injection H as <-. left. split; [reflexivity|]. apply andb_true_iff in E. destruct E as [E1 E2]. apply Nat.eqb_eq in E2. subst y.
      assert (EN : b_end (G last) = ENone) by (destruct lastT; [assumption|congruence]).
      assert (I : b_ins (G last) = []) by (unfold block_empty in E1; destruct (b_ins (G last)); [reflexivity|discriminate]).
      inversion R; subst.
      + pose proof (chn_none _ _ H EN). subst cur. destruct (norm G Lb V _ _ _ _ H0) as [l' [k' [[_ [_ [_ L4]]] [_ P]]]]. destruct (end_pos _ _ _ EN I P) as [ -> ->].
        right. exists l, k. split; [assumption|]. apply L4. constructor.
      + inversion H; subst. congruence.
      + inversion H; subst. congruence.
    - right. split; [apply sidT in H; lia|]. exists y. auto.
  Qed.

  Lemma ff_lead : forall f y0 cur y i l k, ff_loop f G y0 cur = Some y -> Chn y0 cur -> b_state (G y0) = true -> AtJ G Lb V cur l k -> sel y i -> lead (Jump l k) i.
  Proof.
    induction f as [|f IH]; intros y0 cur y i l k H C Sy A Hi; cbn [ff_loop] in H; [discriminate|].
    assert (STEP : forall n l' k', nexts G cur n -> b_ins (G cur) = [] -> b_noskip (G n) = false -> AtJ G Lb V n l' k' -> lead (Jump l' k') i).
    { intros n l' k' N I Nn A'. unfold nexts in N. unfold block_empty in H. rewrite I, N, Nn in H. cbn in H.
      destruct (b_state (G n)) eqn:Sn; [eapply IH; [exact H|apply ch_refl|exact Sn|exact A'|exact Hi]|].
      eapply IH; [exact H|eapply ch_step; eassumption|exact Sy|exact A'|exact Hi]. }
    assert (STOP : forall l' k', ~ (exists n, nexts G cur n /\ b_noskip (G n) = false) \/ b_ins (G cur) <> [] -> at_ cur 0 l' k' -> starts l' k' = true -> lead (Jump l' k') i).
    { intros l' k' X A' St. assert (y = y0).
      { unfold block_empty in H. destruct (b_ins (G cur)) eqn:I; cbn in H; [|congruence]. destruct X as [X|X]; [|congruence].
        destruct (b_end (G cur)) as [|[n|]| | | | | |] eqn:E; try congruence. destruct (b_noskip (G n)) eqn:Nn; [congruence|]. exfalso. apply X. exists n. auto. }
      subst y. eapply rel_lead; [exact Sy|exact Hi|]. eapply rel_run; [exact C|exact A'|now apply t_jump|discriminate]. }
    destruct A as [cur l k A|brk h e body rr k A|w d rb rr k A].
    2:{ inversion A; subst. assert (X : b_ins (G h) = []) by (now apply full_nil). unfold block_empty in H. rewrite X, H3 in H. cbn in H. injection H as <-.
        pose proof (chn_state _ _ C H0). subst y0. eapply rel_lead; [exact Sy|exact Hi|]. eapply rel_head. exact A. }
    2:{ inversion A; subst. assert (X : b_ins (G w) = []) by (now apply full_nil). unfold block_empty in H. rewrite X, H3 in H. cbn in H. injection H as <-.
        pose proof (chn_state _ _ C H0). subst y0. eapply rel_lead; [exact Sy|exact Hi|]. eapply rel_wait. exact A. }
    destruct (norm G Lb V _ _ _ _ A) as [l' [k' [[_ [L _]] [A' P]]]]. apply (lead_step _ (Jump l' k')); [exact L|]. clear A L l k.
    assert (NN : forall X, b_end (G cur) = X -> (forall n, X <> ENext (Some n)) -> ~ (exists n, nexts G cur n /\ b_noskip (G n) = false) \/ b_ins (G cur) <> []).
    { intros X E E2. left. intros [n [N _]]. unfold nexts in N. apply (E2 n). congruence. }
    destruct P as [brk x rr k lo hi b1 i1 T Hr|F E2|j rr k m F N Nm Sm A|brk e body rr k h F N Hh|m l k F N Fm A].
    - inversion T; subst.
      + apply STOP; [right; intros X; rewrite X in H0; discriminate|exact A'|reflexivity].
      + apply STOP; [right; intros X; rewrite X in H0; discriminate|exact A'|reflexivity].
      + destruct Hr as [lo2 [hi2 [b2 [i2 [T2 K]]]]]. destruct (enter_b _ _ _ _ _ _ _ _ _ _ (KSeq false rr k) H0) as [a [j [hi' [B1 [B2 [B3 [B4 B5]]]]]]]; [eapply mk_here; eassumption|].
        eapply lead_one; [intros s; apply mj_block|]. apply (STEP lo); [exact B2|now apply full_nil|apply B3|]. apply aj_at. apply (at_here _ _ _ brk). exists (S lo), hi', a, j. auto.
      + apply STOP; [|exact A'|reflexivity]. eapply NN; [eassumption|discriminate].
      + apply STOP; [|exact A'|reflexivity]. eapply NN; [eassumption|discriminate].
      + apply STOP; [|exact A'|reflexivity]. eapply NN; [eassumption|discriminate].
      + destruct Hr as [lo2 [hi2 [b2 [i2 [T2 K]]]]]. apply (STEP lo); [assumption|now apply full_nil|assumption|]. apply (aj_head _ _ _ brk). econstructor; eassumption.
      + destruct Hr as [lo2 [hi2 [b2 [i2 [T2 K]]]]]. destruct (brk_at_list G Lb V _ _ _ _ _ _ _ _ _ T2 K) as [r' [k' [B1 [B2 B3]]]].
        eapply lead_one; [intros s; apply mj_break; exact B1|]. apply (STEP t); [assumption|now apply full_nil|exact B3|]. now apply aj_at.
      + apply STOP; [|exact A'|reflexivity]. left. intros [n [N1 N2]]. unfold nexts in *. congruence.
      + eapply lead_one; [intros s; apply mj_label|]. apply (STEP b1); [assumption|now apply full_nil|assumption|]. apply aj_at. now apply (at_here _ _ _ brk).
      + apply (STEP lo); [assumption|now apply full_nil|assumption|]. apply aj_wait. constructor; try assumption.
        now apply (join_at G Lb V brk rest).
    - apply STOP; [|exact A'|reflexivity]. eapply NN; [eassumption|discriminate].
    - eapply lead_one; [intros s; apply mj_seq|]. apply (STEP m); [assumption|now apply full_nil|assumption|now apply aj_at].
    - eapply lead_one; [intros s; apply mj_again|]. inversion Hh; subst. apply (STEP h); [assumption|now apply full_nil|assumption|]. eapply aj_head. exact Hh.
    - apply (STEP m); [assumption|now apply full_nil|apply Fm|now apply aj_at].
  Qed.

  Lemma ff_ok x y i l k : fast_forward fuel G x = Some y -> sel y i -> b_state (G x) = true -> b_noskip (G x) = false -> AtJ G Lb V x l k -> lead (Jump l k) i.
  Proof. intros H Hi S N A. unfold fast_forward in H. rewrite N in H. eapply ff_lead; [exact H|apply ch_refl|exact S|exact A|exact Hi]. Qed.
  Lemma J_sel x i : J x i -> exists y, fast_forward fuel G x = Some y /\ sel y i.
  Proof. unfold Jmp, ff_index, obind, sel. destruct (fast_forward fuel G x) as [y|]; [|discriminate]. intros H. exists y. auto. Qed.
  Lemma J_lead x i l k : J x i -> b_state (G x) = true -> b_noskip (G x) = false -> AtJ G Lb V x l k -> lead (Jump l k) i.
  Proof. intros H S N A. destruct (J_sel x i H) as [y [H1 H2]]. eapply ff_ok; eassumption. Qed.
  Lemma J_step x i l k : J x i -> b_state (G x) = true -> b_noskip (G x) = true -> at_ x 0 l k -> lead (Run (SStep :: l) k) i.
  Proof.
    intros H S N A. destruct (J_sel x i H) as [y [H1 H2]]. unfold fast_forward in H1. rewrite N in H1. injection H1 as <-.
    eapply rel_lead; [exact S|exact H2|]. eapply rel_run; [apply ch_refl|exact A|constructor|discriminate].
  Qed.

  (** Arriving on a block during a cycle. *)
  Inductive arrive (x : nat) (cf : config) : Prop :=
  | ar_soft l k : b_noskip (G x) = false -> AtJ G Lb V x l k -> (b_state (G x) = true -> forall s, moves (cf, s) (Jump l k, s)) ->
      (b_state (G x) = false -> at_ x 0 l k /\ ((forall s, moves (cf, s) (Run l k, s)) \/ (settles l k /\ forall s, moves (cf, s) (Jump l k, s)))) -> arrive x cf
  | ar_step l k : b_noskip (G x) = true -> b_state (G x) = true -> at_ x 0 l k -> cf = Run (SStep :: l) k -> arrive x cf.

  Definition sim_to (cf : config) (s : store) (st' : store * nat) : Prop := exists cf', moves (cf, s) (cf', fst st') /\ M (snd st') cf'.
  Lemma lead_sim cf s i : lead cf i -> sim_to cf s (s, i).
  Proof. intros [cf' [H1 H2]]. exists cf'. split; [apply H1|exact H2]. Qed.
  Lemma sim_step cf s cf1 s1 st' : moves (cf, s) (cf1, s1) -> sim_to cf1 s1 st' -> sim_to cf s st'.
  Proof. intros H [cf' [H1 H2]]. exists cf'. split; [eapply moves_trans; eassumption|exact H2]. Qed.

  (** Empty blocks skipped execute nothing. *)
  Lemma skip_settles m : Skip G m -> forall l k, at_ m 0 l k -> settles l k.
  Proof.
    assert (K : forall x n, b_ins (G x) = [] -> nexts G x n -> b_noskip (G n) = false -> (b_state (G n) = true \/ forall l k, at_ n 0 l k -> settles l k) ->
      forall l k, at_ x 0 l k -> settles l k).
    { intros x n I N Kn O l k A. destruct (norm G Lb V _ _ _ _ A) as [l' [k' [[_ [_ L]] [A' P]]]]. apply L. clear L A l k.
      destruct P as [brk st rr k lo hi b1 i1 T Hr|F E2|j rr k m0 F N' Nm Sm A|brk e body rr k h F N' Hh|m0 l k F N' Fm A].
      - inversion T; subst; try (unfold nexts in *; congruence); try (rewrite I in H; discriminate).
        + destruct Hr as [lo2 [hi2 [b2 [i2 [T2 K]]]]]. destruct (enter_b _ _ _ _ _ _ _ _ _ _ (KSeq false rr k) H) as [a [j [hi' [B1 [B2 [B3 [B4 B5]]]]]]]; [eapply mk_here; eassumption|].
          assert (lo = n) by (unfold nexts in *; congruence). subst lo. apply st_block. destruct O as [O|O]; [destruct B3; congruence|]. apply O. apply (at_here _ _ _ brk). exists (S n), hi', a, j. auto.
        + constructor.
        + destruct Hr as [lo2 [hi2 [b2 [i2 [T2 K]]]]]. destruct (brk_at_list G Lb V _ _ _ _ _ _ _ _ _ T2 K) as [r' [k' [B1 _]]]. eapply st_break. exact B1.
        + assert (b1 = n) by (unfold nexts in *; congruence). subst b1. apply st_label. destruct O as [O|O]; [|apply O; now apply (at_here _ _ _ brk)].
          match goal with X : Lb _ _ |- _ => rewrite (nolbl _ _ X) in O; discriminate end.
        + constructor.
      - unfold nexts in N. congruence.
      - assert (m0 = n) by (unfold nexts in *; congruence). subst m0. destruct j; [constructor|]. apply st_seq. destruct O as [O|O]; [|now apply O]. destruct Sm as [Sm _]. specialize (Sm O). discriminate.
      - constructor.
      - assert (m0 = n) by (unfold nexts in *; congruence). subst m0. destruct O as [O|O]; [destruct Fm; congruence|]. now apply O. }
    induction 1; eapply K; eauto.
  Qed.
  Lemma settles_sim l k s st' : settles l k -> sim_to (Run l k) s st' -> sim_to (Jump l k) s st'.
  Proof.
    intros St [cf' [H1 H2]]. destruct (settle _ _ H1 l k s eq_refl St) as [[l' [k' [E St']]]|X]; [|exists cf'; auto]. exfalso. injection E as E1 E2. subst cf'.
    destruct H2 as [[_ H2]|[_ [b [_ R]]]]; [exact (settles_done _ _ St' H2)|]. inversion R; subst. inversion H2; subst; [|inversion St']; inversion St'.
  Qed.

  (** Instructions of a block. *)
  Lemma exec_ins_snd l : forall s i j, fst (exec_ins l (s, i)) = fst (exec_ins l (s, j)).
  Proof. induction l as [|[x e|] l IH]; intros s i j; cbn; auto. Qed.
  Lemma nth_skipn {A} (l : list A) i x : nth_error l i = Some x -> skipn i l = x :: skipn (S i) l.
  Proof. revert i. induction l as [|a l IH]; intros [|i] H; try discriminate; cbn in *; [congruence|now apply IH]. Qed.
  Lemma ins_sim b : forall n i l k s p, length (b_ins (G b)) = i + n -> at_ b i l k ->
    exists l' k', moves (Run l k, s) (Run l' k', fst (exec_ins (skipn i (b_ins (G b))) (s, p))) /\ Pos G Lb V b (length (b_ins (G b))) l' k'.
  Proof.
    induction n as [|n IH]; intros i l k s p L A; destruct (norm G Lb V _ _ _ _ A) as [l' [k' [[L1 _] [A' P]]]].
    - exists l', k'. rewrite Nat.add_0_r in L. rewrite <- L. rewrite skipn_all. split; [apply L1|]. rewrite L. exact P.
    - assert (NF : ~ full G b i) by (unfold full; lia).
      destruct P as [brk x rr k0 lo hi b1 i1 T Hr|F E2|j rr k0 m F N Nm Sm A0|brk e body rr k0 h F N Hh|m l0 k0 F N Fm A0]; try contradiction.
      inversion T; subst; try contradiction.
      + destruct (IH (S i) rr k0 (upd s x0 (eval s e)) p) as [l1 [k1 [S1 P1]]]; [lia|now apply (here_at brk)|]. exists l1, k1. split; [|exact P1].
        rewrite (nth_skipn _ _ _ H). cbn [exec_ins fst snd]. eapply moves_trans; [apply L1|]. eapply mv_step; [apply m_assign|exact S1].
      + destruct (IH (S i) rr k0 s 0) as [l1 [k1 [S1 P1]]]; [lia|now apply (here_at brk)|]. exists l1, k1. split; [|exact P1].
        rewrite (nth_skipn _ _ _ H). cbn [exec_ins fst snd]. eapply moves_trans; [apply L1|]. eapply mv_step; [apply m_return|exact S1].
      + exfalso. inversion H; subst. contradiction.
  Qed.

  (** Branches of a switch. *)
  Lemma cases_at brk af j rr k cs bs lo hi v : trxcs G Lb V brk af cs bs lo hi -> joins G Lb V brk af j rr k ->
    (match pick_case v bs with Some x => exists l, pick_case v cs = Some l /\ fresh G x /\ at_ x 0 l (KSeq j rr k) | None => pick_case v cs = None end) /\
    (match pick_default bs with Some x => exists l, pick_default cs = Some l /\ fresh G x /\ at_ x 0 l (KSeq j rr k) | None => pick_default cs = None end).
  Proof.
    intros T JJ. revert bs lo T. induction cs as [|[v0 l] cs IH]; intros bs lo T; inversion T; subst; [split; reflexivity|].
    assert (A : at_ lo 0 l (KSeq j rr k)) by (eapply enter_at; [eassumption|eapply join_match; eassumption]).
    match goal with X : trxcs G Lb V brk af cs _ _ _ |- _ => destruct (IH _ _ X) as [I1 I2] end. destruct v0 as [z|]; cbn [pick_case pick_default].
    - destruct (Z.eqb z v); [split; [exists l; auto|exact I2]|auto].
    - split; [exact I1|]. exists l. auto.
  Qed.
  Lemma switch_at brk af j rr k cs bs lo hi v : trxcs G Lb V brk af cs bs lo hi -> joins G Lb V brk af j rr k ->
    match pick v bs with Some x => exists l, pick v cs = Some l /\ fresh G x /\ at_ x 0 l (KSeq j rr k) | None => pick v cs = None end.
  Proof.
    intros T JJ. destruct (cases_at brk af j rr k cs bs lo hi v T JJ) as [I1 I2]. unfold pick. destruct (pick_case v bs) as [x|].
    - destruct I1 as [l [E I1]]. exists l. rewrite E. auto.
    - rewrite I1. exact I2.
  Qed.

  Lemma fresh_arrive x cf l k : fresh G x -> at_ x 0 l k -> (forall s, moves (cf, s) (Run l k, s)) -> arrive x cf.
  Proof. intros [F1 F2] A H. apply (ar_soft x cf l k); [exact F2|now apply aj_at|congruence|auto]. Qed.
  (** Leaving a branch. *)
  Lemma join_arrive m j rr k : b_noskip (G m) = false -> timed G m j -> at_ m 0 rr k -> arrive m (Run [] (KSeq j rr k)).
  Proof.
    intros N [S1 S2] A. apply (ar_soft m _ rr k); [exact N|now apply aj_at| |].
    - intros X s. rewrite (S1 X). apply moves_one. constructor.
    - intros X. split; [exact A|]. destruct j; [right|left; intros s; apply moves_one; constructor].
      split; [now apply (skip_settles m); [apply S2|]|]. intros s. apply moves_one. constructor.
  Qed.
  Lemma head_arrive brk h e body rr k cf : head G Lb V brk h e body rr k -> (forall s, moves (cf, s) (Jump (SWhile e body :: rr) k, s)) -> arrive h cf.
  Proof. intros H C. pose proof H as H0. inversion H; subst. apply (ar_soft h cf (SWhile e body :: rr) k); [assumption|eapply aj_head; exact H0|auto|congruence]. Qed.

  Variable Q : store.
  Definition walk_ok (b : nat) (st st' : store * nat) : Prop := forall l k, V b -> at_ b 0 l k -> sim_to (Run l k) (fst st) st'.
  Definition go_ok (x : nat) (st st' : store * nat) : Prop := forall cf, (b_state (G x) = false -> V x) -> arrive x cf -> sim_to cf (fst st) st'.

  Scheme walk_mut := Minimality for walk Sort Prop with go_mut := Minimality for go Sort Prop.
  Combined Scheme walk_mutind from walk_mut, go_mut.

  (** Where the end of a block leads. *)
  Lemma leave b l k : V b -> Pos G Lb V b (length (b_ins (G b))) l k ->
    (b_end (G b) = ENone /\ l = [] /\ k = KStop) \/
    (exists x, nexts G b x /\ forall s, exists cf, moves (Run l k, s) (cf, s) /\ arrive x cf) \/
    (exists e ib fi it eb fe et af, b_end (G b) = EIf e ib fi it eb fe et af /\
       forall s, exists cf, moves (Run l k, s) (cf, s) /\ arrive (if truth (eval s e) then ib else eb) cf) \/
    (exists e cs af, b_end (G b) = ESwitch e cs af /\
       forall s, exists cf, moves (Run l k, s) (cf, s) /\ arrive (match pick (eval s e) cs with Some x => x | None => af end) cf).
  Proof.
    intros Vb P.
    destruct P as [brk x rr k lo hi b1 i1 T Hr|F E2|j rr k m F N Nm Sm A|brk e body rr k h F N Hh|m l k F N Fm A].
    - inversion T; subst.
      + exfalso. assert (X : nth_error (b_ins (G b1)) (length (b_ins (G b1))) <> None) by (rewrite H; discriminate). apply nth_error_Some in X. lia.
      + exfalso. assert (X : nth_error (b_ins (G b1)) (length (b_ins (G b1))) <> None) by (rewrite H; discriminate). apply nth_error_Some in X. lia.
      + destruct Hr as [lo2 [hi2 [b2 [i2 [T2 K]]]]]. destruct (enter_b _ _ _ _ _ _ _ _ _ _ (KSeq false rr k) H) as [a [j [hi' [B1 [B2 [B3 [B4 B5]]]]]]]; [eapply mk_here; eassumption|].
        right. left. exists lo. split; [exact B2|]. intros s. eexists. split; [apply moves_one; apply m_block|].
        apply (fresh_arrive lo _ l (KSeq false rr k)); [exact B3| |intros; apply mv_refl]. apply (at_here _ _ _ brk). exists (S lo), hi', a, j. auto.
      + right. right. left. exists e, lo, (timelesss l), ia, (S lo), true, (S lo), b1. split; [assumption|]. intros s. eexists. split; [apply moves_one; apply m_if|].
        assert (JJ : joins G Lb V brk b1 (cut (SIf e l)) rr k) by (split; [assumption|split; [auto|exact Hr]]).
        destruct (truth (eval s e)).
        * apply (fresh_arrive lo _ l (KSeq (cut (SIf e l)) rr k)); [assumption| |intros; apply mv_refl]. eapply enter_at; [eassumption|]. eapply join_match; eassumption.
        * apply (fresh_arrive (S lo) _ [] (KSeq (cut (SIf e l)) rr k)); [assumption| |intros; apply mv_refl]. eapply here_nil. eapply join_match; eassumption.
      + right. right. left. exists e, lo, (timelesss l1), ia, (S lo), (timelesss l2), ea, b1. split; [assumption|]. intros s. eexists. split; [apply moves_one; apply m_ifelse|].
        assert (JJ : joins G Lb V brk b1 (cut (SIfElse e l1 l2)) rr k) by (split; [assumption|split; [auto|exact Hr]]).
        destruct (truth (eval s e)).
        * apply (fresh_arrive lo _ l1 (KSeq (cut (SIfElse e l1 l2)) rr k)); [assumption| |intros; apply mv_refl]. eapply enter_at; [eassumption|]. eapply join_match; eassumption.
        * apply (fresh_arrive (S lo) _ l2 (KSeq (cut (SIfElse e l1 l2)) rr k)); [assumption| |intros; apply mv_refl]. eapply enter_at; [eassumption|]. eapply join_match; eassumption.
      + right. right. right. exists e, bs, b1. split; [assumption|]. intros s. eexists. split; [apply moves_one; apply m_switch|].
        assert (TM : timed G b1 (cut (SSwitch e cs))) by (split; intros X; congruence).
        assert (JJ : joins G Lb V brk b1 (cut (SSwitch e cs)) rr k) by (split; [assumption|split; [exact TM|exact Hr]]).
        pose proof (switch_at brk b1 _ rr k cs bs _ _ (eval s e) H1 JJ) as X. destruct (pick (eval s e) bs) as [x|].
        * destruct X as [l [E [X1 X2]]]. rewrite E. eapply fresh_arrive; [exact X1|exact X2|]. intros; apply mv_refl.
        * rewrite X. apply join_arrive; [assumption|exact TM|]. now apply (here_at brk).
      + right. left. exists lo. split; [assumption|]. intros s. eexists. split; [apply mv_refl|]. destruct Hr as [lo2 [hi2 [b2 [i2 [T2 K]]]]].
        eapply head_arrive with (brk := brk); [econstructor; eassumption|]. intros s0. apply moves_one. constructor.
      + right. left. exists t. split; [assumption|]. destruct Hr as [lo2 [hi2 [b2 [i2 [T2 K]]]]]. destruct (brk_at_list G Lb V _ _ _ _ _ _ _ _ _ T2 K) as [r' [k' [B1 [B2 B3]]]].
        intros s. eexists. split; [apply mv_refl|]. apply (ar_soft t _ r' k'); [exact B3|now apply aj_at| |congruence]. intros _ s0. apply moves_one. now constructor.
      + right. left. exists b1. split; [assumption|]. intros s. eexists. split; [apply mv_refl|]. eapply ar_step; [assumption|assumption| |reflexivity]. now apply (here_at brk).
      + right. left. exists b1. split; [assumption|]. intros s. eexists. split; [apply mv_refl|]. apply (ar_soft b1 _ rr k); [assumption|apply aj_at; now apply (here_at brk)| |].
        * intros X. match goal with Y : Lb _ _ |- _ => rewrite (nolbl _ _ Y) in X; discriminate end.
        * intros X. split; [now apply (here_at brk)|]. left. intros s0. apply moves_one. constructor.
      + right. left. exists lo. split; [assumption|]. intros s. eexists. split; [apply mv_refl|]. apply (ar_soft lo _ (SJoin d rb :: rr) k); [assumption| | |congruence].
        * apply aj_wait. constructor; try assumption. now apply (join_at G Lb V brk rest).
        * intros _ s0. apply moves_one. constructor.
    - left. auto.
    - right. left. exists m. split; [exact N|]. intros s. eexists. split; [apply mv_refl|]. now apply join_arrive.
    - right. left. exists h. split; [exact N|]. intros s. eexists. split; [apply mv_refl|]. eapply head_arrive; [exact Hh|]. intros s0. apply moves_one. constructor.
    - right. left. exists m. split; [exact N|]. intros s. eexists. split; [apply mv_refl|]. eapply fresh_arrive; [exact Fm|exact A|]. intros; apply mv_refl.
  Qed.

  Lemma walk_sim : (forall b st st', walk G J Q b st st' -> walk_ok b st st') /\ (forall x st st', go G J Q x st st' -> go_ok x st st').
  Proof.
    assert (B : forall b st l k, at_ b 0 l k -> exists l' k', moves (Run l k, fst st) (Run l' k', fst (exec_ins (b_ins (G b)) st)) /\ Pos G Lb V b (length (b_ins (G b))) l' k').
    { intros b [s p] l k A. destruct (ins_sim b (length (b_ins (G b))) 0 l k s p eq_refl A) as [l' [k' X]]. exists l', k'. exact X. }
    apply walk_mutind; unfold walk_ok, go_ok.
    - intros b st E l k Vb A. destruct (B b st l k A) as [l' [k' [S1 P]]]. destruct (leave _ _ _ Vb P) as [[_ [ -> ->]]|[[x [X _]]|[[e [ib [fi [it [eb [fe [et [af [X _]]]]]]]]]|[e [cs [af [X _]]]]]]]; try (unfold nexts in X; congruence).
      exists (Run [] KStop). split; [exact S1|]. left. split; [reflexivity|]. now left.
    - intros b x st st' E Go IH l k Vb A. destruct (B b st l k A) as [l' [k' [S1 P]]]. eapply sim_step; [exact S1|].
      destruct (leave _ _ _ Vb P) as [[X _]|[[y [X Y]]|[[e [ib [fi [it [eb [fe [et [af [X _]]]]]]]]]|[e [cs [af [X _]]]]]]]; try (unfold nexts in X; congruence).
      assert (y = x) by (unfold nexts in X; congruence). subst y. destruct (Y (fst (exec_ins (b_ins (G b)) st))) as [cf [Y1 Y2]]. eapply sim_step; [exact Y1|]. apply IH; [|exact Y2]. intros Sx. apply (visT b); [exact Vb| |exact Sx]. unfold child. rewrite E. now left.
    - intros b e ib fi it eb fe et af st st' E Go IH l k Vb A. destruct (B b st l k A) as [l' [k' [S1 P]]]. eapply sim_step; [exact S1|].
      destruct (leave _ _ _ Vb P) as [[X _]|[[y [X Y]]|[[e0 [ib0 [fi0 [it0 [eb0 [fe0 [et0 [af0 [X Y]]]]]]]]]|[e0 [cs [af0 [X _]]]]]]]; try (unfold nexts in X; congruence).
      rewrite E in X. injection X as <- <- <- <- <- <- <- <-. destruct (Y (fst (exec_ins (b_ins (G b)) st))) as [cf [Y1 Y2]]. eapply sim_step; [exact Y1|]. apply IH; [|exact Y2]. intros Sx. apply (visT b); [exact Vb| |exact Sx]. unfold child. rewrite E. destruct (truth _); cbn; auto.
    - intros b e cs af st st' E Go IH l k Vb A. destruct (B b st l k A) as [l' [k' [S1 P]]]. eapply sim_step; [exact S1|].
      destruct (leave _ _ _ Vb P) as [[X _]|[[y [X Y]]|[[e0 [ib0 [fi0 [it0 [eb0 [fe0 [et0 [af0 [X Y]]]]]]]]]|[e0 [cs0 [af0 [X Y]]]]]]]; try (unfold nexts in X; congruence).
      rewrite E in X. injection X as <- <- <-. destruct (Y (fst (exec_ins (b_ins (G b)) st))) as [cf [Y1 Y2]]. eapply sim_step; [exact Y1|]. apply IH; [|exact Y2]. intros Sx. apply (visT b); [exact Vb| |exact Sx]. unfold child. rewrite E. cbn. apply in_or_app. destruct (pick _ cs) as [x|] eqn:PK; [left|right; now left]. apply pick_in in PK. apply in_map_iff in PK. destruct PK as [c [<- PK]]. now apply (in_map (fun c => Some (snd c))) in PK.
    - intros b e it af st st' E Go IH l k Vb A. destruct (B b st l k A) as [l' [k' [S1 P]]].
      destruct (leave _ _ _ Vb P) as [[X _]|[[y [X Y]]|[[e0 [ib0 [fi0 [it0 [eb0 [fe0 [et0 [af0 [X Y]]]]]]]]]|[e0 [cs0 [af0 [X Y]]]]]]]; unfold nexts in X; congruence.
    - intros b e w n st i E Hj l k Vb A. destruct (B b st l k A) as [l' [k' [S1 P]]].
      destruct (leave _ _ _ Vb P) as [[X _]|[[y [X Y]]|[[e0 [ib0 [fi0 [it0 [eb0 [fe0 [et0 [af0 [X Y]]]]]]]]]|[e0 [cs0 [af0 [X Y]]]]]]]; unfold nexts in X; congruence.
    - intros b c sv cid x rt st i E Hj l k Vb A. destruct (B b st l k A) as [l' [k' [S1 P]]].
      destruct (leave _ _ _ Vb P) as [[X _]|[[y [X Y]]|[[e0 [ib0 [fi0 [it0 [eb0 [fe0 [et0 [af0 [X Y]]]]]]]]]|[e0 [cs0 [af0 [X Y]]]]]]]; unfold nexts in X; congruence.
    - intros b c rets x sv st i E Hp Hj l k Vb A. destruct (B b st l k A) as [l' [k' [S1 P]]].
      destruct (leave _ _ _ Vb P) as [[X _]|[[y [X Y]]|[[e0 [ib0 [fi0 [it0 [eb0 [fe0 [et0 [af0 [X Y]]]]]]]]]|[e0 [cs0 [af0 [X Y]]]]]]]; unfold nexts in X; congruence.
    - intros b c rets st E Hp l k Vb A. destruct (B b st l k A) as [l' [k' [S1 P]]].
      destruct (leave _ _ _ Vb P) as [[X _]|[[y [X Y]]|[[e0 [ib0 [fi0 [it0 [eb0 [fe0 [et0 [af0 [X Y]]]]]]]]]|[e0 [cs0 [af0 [X Y]]]]]]]; unfold nexts in X; congruence.
    - intros x st i S Hj cf _ A. apply lead_sim. destruct A as [l k N A H1 H2|l k N _ A ->].
      + eapply lead_step; [exact (H1 S)|]. eapply J_lead; eassumption.
      + eapply J_step; eassumption.
    - intros x st st' S W IH cf Vx A. destruct A as [l k N A H1 H2|l k N X A ->]; [|congruence]. destruct (H2 S) as [H3 [H4|[H4 H5]]].
      + eapply sim_step; [apply H4|]. now apply IH; [apply Vx|].
      + eapply sim_step; [apply H5|]. apply settles_sim; [exact H4|]. now apply IH; [apply Vx|].
  Qed.

  (** A cycle of the machine. *)
  Theorem rel_cycle b cf D i st' : V b -> Rel b cf -> walk G J Q b (D, i) st' ->
    (forall w d x n, b_end (G w) = EWait d x n -> eval Q d = eval D d) ->
    exists cf1, tick cf cf1 /\ sim_to cf1 D st'.
  Proof.
    intros Vb R W HQ. destruct walk_sim as [WS GS]. inversion R; subst.
    - exists (Run l k). split; [assumption|]. apply (WS cur (D, i)); [|eapply chn_vis; eassumption|assumption]. eapply chn_walk; eassumption.
    - exists (Test e body rr k). split; [constructor|]. pose proof H as Hh. inversion H; subst. assert (I : b_ins (G b) = []) by (now apply full_nil).
      inversion W; subst; try congruence. rewrite H3 in H12. injection H12 as <- <- <-. rewrite I in H13. cbn in H13.
      eapply sim_step; [apply moves_one; apply m_test|]. destruct (truth (eval D e)).
      + apply (GS _ _ _ H13); [intros _; apply (visT b); [exact Vb|unfold child; rewrite H3; now left|apply H4]|]. apply (fresh_arrive (S b) _ body (KLoop e body rr k)); [assumption| |intros; apply mv_refl]. eapply enter_at; [eassumption|]. eapply mk_loop; eassumption.
      + assert (A : at_ (S (S b)) 0 rr k) by (apply (at_here _ _ _ brk); exists lo2, hi2, b2, i2; auto).
        apply (GS _ _ _ H13); [intros X; apply (visT b); [exact Vb|unfold child; rewrite H3; right; now left|exact X]|]. rewrite <- H6. apply (ar_soft (S (S b)) _ rr k); [assumption|now apply aj_at| |].
        * intros X s. rewrite X. apply mv_refl.
        * intros X. split; [exact A|]. left. intros s. rewrite X. apply mv_refl.
    - exists (Wait d rb rr k). split; [constructor|]. pose proof H as Hw. inversion H; subst. assert (I : b_ins (G b) = []) by (now apply full_nil).
      inversion W; subst; try congruence. rewrite H3 in H7. injection H7 as <- <- <-. rewrite I. cbn [exec_ins fst]. rewrite (HQ b d b (S b) H3) in H8.
      eapply sim_step; [apply moves_one; apply m_wait|]. apply lead_sim. destruct (truth (eval D d)).
      + eapply J_lead; [exact H8|assumption|assumption|]. now apply aj_at.
      + eapply J_lead; [exact H8|assumption|assumption|]. now apply aj_wait.
  Qed.
End Sim.
