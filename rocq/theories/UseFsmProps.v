(** C12 on the states of a program: the registers turned into temporaries, and what the source computes. *)
From Coq Require Import List Bool Arith ZArith Lia.
Import ListNotations.
From Verif Require Import FsmModel FsmRun FsmEmit FsmRegion FsmBig FsmProps UseModel UseProofs UseSound UseTwo UseCycle UseProps UseFsm.

(** The variable is assigned somewhere in the code. *)
Inductive assigns (x : var) : vst -> Prop :=
| as_set e : assigns x (VSet x e)
| as_then e a b c : In c a -> assigns x c -> assigns x (VIf e a b)
| as_else e a b c : In c b -> assigns x c -> assigns x (VIf e a b)
| as_case e cs v l c : In (v, l) cs -> In c l -> assigns x c -> assigns x (VCase e cs).
Definition assigns_in (x : var) (l : list vst) : Prop := exists c, In c l /\ assigns x c.

Lemma writes_assigned x c : In x (cwrites c) -> forall s, assigns_in x (fst (anal tmp0 c s)).
Proof.
  assert (L : forall l, Forall (fun c => In x (cwrites c) -> forall s, assigns_in x (fst (anal tmp0 c s))) l ->
    In x (lwrites l) -> forall s, assigns_in x (fst (anals tmp0 l s))).
  { induction 1 as [|c0 r Hc Hr IH]; intros I s; [destruct I|]. rewrite anals_cons. cbn [fst]. unfold lwrites in I. cbn [map concat] in I.
    apply in_app_or in I as [I|I].
    - destruct (Hc I s) as (k & K1 & K2). exists k. split; [apply in_or_app; now left|exact K2].
    - destruct (IH I (snd (anal tmp0 c0 s))) as (k & K1 & K2). exists k. split; [apply in_or_app; now right|exact K2]. }
  induction c as [y e|y g h i e|y h e|e|n|l|e a b Ha Hb|e cs Hcs|e a b Ha Hb|e cs Hcs|e a n Ha] using ch_ind2; intros I [d u].
  - destruct I as [<-|[]]. eexists. split; [left; reflexivity|constructor].
  - destruct I as [<-|[]]. eexists. split; [left; reflexivity|constructor].
  - destruct I as [<-|[]]. eexists. split; [left; reflexivity|constructor].
  - destruct I.
  - destruct I.
  - cbn [cwrites] in I. apply in_map_iff in I as ([y e] & <- & I). eexists. split; [cbn [anal fst]; apply in_map_iff; eexists; split; [reflexivity|exact I]|constructor].
  - cbn [cwrites] in I. rewrite !writes_fix in I. rewrite anal_rawif. cbn [fst]. eexists. split; [left; reflexivity|].
    apply in_app_or in I as [I|I]; [destruct (L a Ha I (d, u)) as (k & K1 & K2); eapply as_then|destruct (L b Hb I (d, u)) as (k & K1 & K2); eapply as_else]; eassumption.
  - cbn [cwrites] in I. rewrite writes_go in I. rewrite anal_rawcase. cbn [fst]. eexists. split; [left; reflexivity|].
    apply in_concat in I as (w & Iw & I). apply in_map_iff in Iw as ([v l] & <- & Iw). rewrite Forall_forall in Hcs. cbn [snd] in I.
    destruct (L l (Hcs _ Iw) I (d, u)) as (k & K1 & K2). eapply as_case; [|exact K1|exact K2]. unfold raw_cases. apply in_map_iff. exists (v, l). split; [reflexivity|exact Iw].
  - rewrite writes_if in I. rewrite anal_if. cbv zeta. cbn [fst]. eexists. split; [left; reflexivity|].
    apply in_app_or in I as [I|I]; [destruct (L a Ha I (d, kread tmp0 d e u)) as (k & K1 & K2); eapply as_then|destruct (L b Hb I (d, kread tmp0 d e u)) as (k & K1 & K2); eapply as_else]; eassumption.
  - rewrite writes_case in I. rewrite anal_case. cbv zeta. cbn [fst]. eexists. split; [left; reflexivity|].
    apply in_concat in I as (w & Iw & I). apply in_map_iff in Iw as ([v l] & <- & Iw). rewrite Forall_forall in Hcs. cbn [snd] in I.
    destruct (L l (Hcs _ Iw) I (d, kread tmp0 d e u)) as (k & K1 & K2). eapply (as_case x _ _ v); [|exact K1|exact K2].
    clear -Iw. induction cs as [|[v' l'] r IH]; [destruct Iw|]. rewrite cases_cons. cbn [fst]. destruct Iw as [E|Iw]; [injection E as -> ->; now left|right; now apply IH].
  - rewrite writes_while in I. rewrite anal_while. cbv zeta. cbn [fst]. eexists. split; [left; reflexivity|].
    destruct (L a Ha I (d, kread tmp0 d e u)) as (k & K1 & K2). eapply as_then; eassumption.
Qed.
Lemma writes_assigned_in x l : In x (lwrites l) -> forall s, assigns_in x (fst (anals tmp0 l s)).
Proof.
  unfold lwrites. induction l as [|c r IH]; intros I s; [destruct I|]. rewrite anals_cons. cbn [fst map concat] in *. apply in_app_or in I as [I|I].
  - destruct (writes_assigned x c I s) as (k & K1 & K2). exists k. split; [apply in_or_app; now left|exact K2].
  - destruct (IH I (snd (anal tmp0 c s))) as (k & K1 & K2). exists k. split; [apply in_or_app; now right|exact K2].
Qed.

Lemma forallb_imp {A} (f h : A -> bool) l : (forall x, f x = true -> h x = true) -> forallb f l = true -> forallb h l = true.
Proof. intros I. rewrite !forallb_forall. auto. Qed.
Lemma oks_step q p p' l : Forall (fun c => okc q p c = true -> okc q p' c = true) l -> oks q p l = true -> oks q p' l = true.
Proof. unfold oks. induction 1 as [|c r Hc Hr IH]; [reflexivity|]. cbn [forallb]. rewrite !andb_true_iff. tauto. Qed.
Lemma okcs_step q p p' (cs : list (option Z * list ch)) : Forall (fun c => Forall (fun c => okc q p c = true -> okc q p' c = true) (snd c)) cs ->
  forallb (fun c => oks q p (snd c)) cs = true -> forallb (fun c => oks q p' (snd c)) cs = true.
Proof. induction 1 as [|c r Hc Hr IH]; [reflexivity|]. cbn [forallb]. rewrite !andb_true_iff. intros [A B]. split; [now apply (oks_step q p p')|auto]. Qed.
Lemma okc_imp q (p p' : var -> bool) c : (forall x, p x = true -> p' x = true) -> okc q p c = true -> okc q p' c = true.
Proof.
  intros I. induction c as [y e|y g h i e|y h e|e|n|l|e a b Ha Hb|e cs Hcs|e a b Ha Hb|e cs Hcs|e a n Ha] using ch_ind2; intros H.
  all: try exact H.
  - cbn [okc] in *. now apply (forallb_imp p p').
  - cbn [okc] in *. apply andb_true_iff in H as [H1 H2]. apply andb_true_iff. split; now apply (forallb_imp p p').
  - cbn [okc] in *. apply andb_true_iff in H as [H1 H2]. rewrite H1. now apply (forallb_imp p p').
  - cbn [okc] in *. now apply (forallb_imp p p').
  - rewrite ok_rawif in *. apply andb_true_iff in H as [H1 H2]. apply andb_true_iff in H2 as [H2 H3]. rewrite H1. cbn [andb].
    apply andb_true_iff. split; now apply (oks_step q p p').
  - rewrite ok_rawcase in *. apply andb_true_iff in H as [H1 H2]. rewrite H1. cbn [andb]. now apply (okcs_step q p p').
  - rewrite ok_if in *. apply andb_true_iff in H as [H1 H2]. apply andb_true_iff in H2 as [H2 H3]. rewrite (forallb_imp p p') by assumption. cbn [andb].
    apply andb_true_iff. split; now apply (oks_step q p p').
  - rewrite ok_case in *. apply andb_true_iff in H as [H1 H2]. rewrite (forallb_imp p p') by assumption. cbn [andb]. now apply (okcs_step q p p').
Qed.

(** ** A unit: always_before block [pre], algorithm [p], always_after block [post]. Variables in [q] are read on their register by outputs and bindings;
    done signals waited for are not variables of the unit. The always_after block reads variables of [q] and variables the states do not assign:
    the others are the subject of C12_after_termination_refuted and C12_loop_exit_refuted. *)
Definition unit_of (pre : list ch) (sts : list (nat * list ch)) (post : list ch) (q : var -> bool) (kd : list var) : kmod :=
  {| k_pre := pre; k_states := sts; k_post := post; k_q := q; k_d := kd |}.
Definition deps_of (pre : list ch) : list var := fst (snd (anals tmp0 pre ([], fun _ => fl0))).

Lemma deps_any l : forall d u v, fst (anals tmp0 l (d, u)) = fst (anals tmp0 l (d, v)) /\ fst (snd (anals tmp0 l (d, u))) = fst (snd (anals tmp0 l (d, v))).
Proof.
  assert (ONE : forall c d u v, fst (anal tmp0 c (d, u)) = fst (anal tmp0 c (d, v)) /\ fst (snd (anal tmp0 c (d, u))) = fst (snd (anal tmp0 c (d, v)))).
  { assert (L : forall l, Forall (fun c => forall d u v, fst (anal tmp0 c (d, u)) = fst (anal tmp0 c (d, v)) /\ fst (snd (anal tmp0 c (d, u))) = fst (snd (anal tmp0 c (d, v)))) l ->
      forall d u v, fst (anals tmp0 l (d, u)) = fst (anals tmp0 l (d, v)) /\ fst (snd (anals tmp0 l (d, u))) = fst (snd (anals tmp0 l (d, v)))).
    { induction 1 as [|c0 r Hc Hr IH]; intros d u v; [split; reflexivity|]. rewrite !anals_cons. cbn [fst snd]. destruct (Hc d u v) as [A B].
      destruct (snd (anal tmp0 c0 (d, u))) as [d1 u1]. destruct (snd (anal tmp0 c0 (d, v))) as [d2 v1]. cbn [fst] in B. subst d2. destruct (IH d1 u1 v1) as [C D].
      now rewrite A, C, D. }
    induction c as [y e|y g h i e|y h e|e|n|l'|e a b Ha Hb|e cs Hcs|e a b Ha Hb|e cs Hcs|e a n Ha] using ch_ind2; intros d u v; try (split; reflexivity).
    - rewrite !anal_rawif. cbn [fst snd]. now rewrite (proj1 (L a Ha d u v)), (proj1 (L b Hb d u v)).
    - rewrite !anal_rawcase. cbn [fst snd]. split; [|reflexivity]. f_equal. f_equal. unfold raw_cases. apply map_ext_in. intros c Ic. rewrite Forall_forall in Hcs.
      now rewrite (proj1 (L _ (Hcs c Ic) d u v)).
    - rewrite !anal_if. cbv zeta. cbn [fst snd]. destruct (L a Ha d (kread tmp0 d e u) (kread tmp0 d e v)) as [-> ->].
      destruct (L b Hb d (kread tmp0 d e u) (kread tmp0 d e v)) as [-> ->]. split; reflexivity.
    - rewrite !anal_case. cbv zeta. cbn [fst snd].
      assert (X : forall w w', fst (anal_cases tmp0 cs (d, w)) = fst (anal_cases tmp0 cs (d, w'))).
      { intros w w'. induction Hcs as [|[k l'] r Hl Hr IH]; [reflexivity|]. rewrite !cases_cons. cbn [fst snd].
        destruct (L l' Hl d w w') as [A B]. rewrite A, B, IH. reflexivity. }
      rewrite (X _ (kread tmp0 d e v)). split; reflexivity.
    - rewrite !anal_while. cbv zeta. cbn [fst snd]. destruct (L a Ha d (kread tmp0 d e u) (kread tmp0 d e v)) as [-> ->]. split; reflexivity. }
  induction l as [|c r IH]; intros d u v; [split; reflexivity|]. rewrite !anals_cons. cbn [fst snd]. destruct (ONE c d u v) as [A B].
  destruct (snd (anal tmp0 c (d, u))) as [d1 u1]. destruct (snd (anal tmp0 c (d, v))) as [d2 v1]. cbn [fst] in B. subst d2. destruct (IH d1 u1 v1) as [C D].
  now rewrite A, C, D.
Qed.

Theorem C12_program fuel unit pre p F : compile fuel unit (deps_of pre) p = Some F ->
  exists sts, program_chains fuel unit (deps_of pre) p = Some sts /\
  forall post q kd,
    (* the code written with every variable a register is the code of the machine *)
    o_arms (module_use tmp0 (unit_of pre sts post q kd)) = f_arms F /\
    forall rd vars, oks q all_p pre = true -> (forall x, In x (jdones p) -> q x = true) -> oks q rd post = true ->
      (forall x i c, rd x = true -> In (i, c) (f_arms F) -> assigns_in x c -> q x = true) ->
      same_behaviour vars (unit_of pre sts post q kd).
Proof.
  intros CP. destruct (program_chains_ok _ _ _ _ _ CP) as (sts & EC & EA & OK). exists sts. split; [exact EC|]. intros post q kd.
  assert (ED : d1 tmp0 (unit_of pre sts post q kd) = deps_of pre).
  { unfold d1, s_pre, deps_of, unit_of. cbn [k_pre]. apply deps_any. }
  assert (AR : o_arms (module_use tmp0 (unit_of pre sts post q kd)) = f_arms F).
  { rewrite module_use_eq. cbn [o_arms unit_of k_states]. rewrite <- (EA (u1 tmp0 (unit_of pre sts post q kd))). unfold st_an. now rewrite ED. }
  split; [exact AR|]. intros rd vars P J PO RD. apply C12_temporaries_same_behaviour. intros idx. unfold unit_ok.
  cbn [unit_of k_pre k_states k_post k_q]. rewrite P, (OK q J). cbn [andb]. unfold oks. apply (forallb_imp (okc q rd)); [|exact PO].
  intros c. apply okc_imp. intros x R. unfold settled. cbn [k_states k_q unit_of].
  destruct (q x) eqn:EQ; [now rewrite orb_true_r|].
  destruct (memb x (concat (map (fun st => lwrites (snd st)) sts))) eqn:M; [|now rewrite orb_true_r]. exfalso.
  apply memb_In, in_concat in M as (w & Iw & I). apply in_map_iff in Iw as ([i l] & <- & Iw). cbn [snd] in I.
  rewrite (RD x i (fst (anals tmp0 l (deps_of pre, fun _ => fl0))) R) in EQ; [discriminate| |now apply writes_assigned_in].
  rewrite <- (EA (fun _ => fl0)). apply in_map_iff. exists (i, l). split; [reflexivity|exact Iw].
Qed.
Print Assumptions C12_program.

(** ** Without always blocks: the registers that are left hold, at the end, what the source computes, whatever the temporaries
    hold at the beginning of each cycle. *)
Lemma krun_runs fuel unit p F m ini n s : compile fuel unit [] p = Some F -> o_arms (module_use tmp0 m) = f_arms F -> k_pre m = [] -> k_post m = [] ->
  krun (module_use tmp0 m) tmp0 ini (fun _ _ v => v) (fun _ i => i) n s (f_entry F) = runs F closed closed n s.
Proof.
  intros CP A P1 P2. assert (NE : f_arms F <> []). { destruct (C05_machine _ _ _ _ _ CP) as (_ & _ & E). intros X. rewrite X in E. destruct E. }
  assert (PP : o_pre (module_use tmp0 m) = [] /\ o_post (module_use tmp0 m) = []).
  { rewrite module_use_eq. cbn [o_pre o_post]. unfold s_post, s_pre. rewrite P1, P2. split; reflexivity. }
  destruct PP as [PR PO]. induction n as [|n IH]; [reflexivity|]. cbn [krun runs]. rewrite IH. destruct (runs F closed closed n s) as [[D i]|]; [|reflexivity]. cbn [obind].
  unfold kcycle, cycle, closed. rewrite PR, PO, A. cbn [vexecs]. destruct (f_arms F) as [|a r] eqn:E; [congruence|].
  destruct (Nat.eqb_spec i 0) as [->|N]; [reflexivity|]. destruct (arm_of i (a :: r)) as [c|]; [|reflexivity]. cbn [obind]. 
  destruct (vexecs D c (d_start tmp0 (ini n) D, i)) as [D' i'] eqn:V. change (d_start tmp0 (ini n) D) with D in V. rewrite V. reflexivity.
Qed.

Theorem C12_source_result fuel unit p F sts : compile fuel unit [] p = Some F -> program_chains fuel unit [] p = Some sts ->
  structureds false p = true -> covereds p = true -> (forall x, In x (jdones p) -> False) ->
  forall q kd vars ini s s2 s', exec false p s Normal s' ->
  let m := unit_of [] sts [] q kd in
  let tmp := made_temporary vars m in
  (forall x, tmp x = false -> s2 x = s x) ->
  exists n0, forall n, n0 <= n -> exists R, krun (module_use tmp m) tmp ini (fun _ _ v => v) (fun _ i => i) n s2 (f_entry F) = Some (R, 0) /\
    forall x, tmp x = false -> R x = s' x.
Proof.
  intros CP EC ST CV J q kd vars ini s s2 s' EX m tmp AG.
  destruct (C12_program fuel unit [] p F CP) as (sts' & EC' & H). change (deps_of []) with (@nil var) in EC'. rewrite EC in EC'. injection EC' as <-.
  destruct (H [] q kd) as [A B].
  assert (SB : same_behaviour vars m).
  { apply (B (fun _ => false) vars); [reflexivity|intros x Ix; destruct (J x Ix)|reflexivity|discriminate]. }
  destruct (C01_structured_partial fuel unit [] p F s s' CP ST CV) as [_ R]. destruct (R EX) as [n0 R0]. exists n0. intros n L. specialize (R0 n L).
  specialize (SB ini (fun _ _ v => v) (fun _ i => i) s s2 (f_entry F) (fun x T => eq_sym (AG x T)) n).
  rewrite (krun_runs fuel unit p F m ini n s CP A eq_refl eq_refl), R0 in SB. fold tmp in SB.
  destruct (krun (module_use tmp m) tmp ini (fun _ _ v => v) (fun _ i => i) n s2 (f_entry F)) as [[R2 i2]|]; [|destruct SB].
  destruct SB as [<- SB]. exists R2. split; [reflexivity|]. intros x T. symmetry. now apply SB.
Qed.
Print Assumptions C12_source_result.

(** Example: i 0, t 1, acc 2, u 3: [while (i < 3) { t = i + i; u = t; ++: t = u; acc = acc + t; i = i + 1; }]: t is assigned before it is read in each
    cycle; u is read in the cycle after the one which assigns it. *)
Definition p_sum : list stmt :=
  [ SWhile (lt 0 3) [ SAssign 1 (EB Z.add (EV 0) (EV 0)); SAssign 3 (EV 1); SStep; SAssign 1 (EV 3); SAssign 2 (EB Z.add (EV 2) (EV 1)); inc 0 ] ].
Example C12_program_ex : exists F sts, compile 100 true [] p_sum = Some F /\ program_chains 100 true [] p_sum = Some sts /\
  structureds false p_sum = true /\ covereds p_sum = true /\ jdones p_sum = [] /\
  let m := unit_of [] sts [] (fun x => Nat.eqb x 2) [] in
  map (made_temporary (fun _ => true) m) [0; 1; 2; 3] = [false; true; false; false] /\
  obs 4 (krun (module_use (made_temporary (fun _ => true) m) m) (made_temporary (fun _ => true) m) (fun n _ => 99%Z) (fun _ _ v => v) (fun _ i => i) 20 (st 0 5) (f_entry F))
    = Some ([3; 99; 6; 4]%Z, 0).
Proof.
  do 2 eexists. split; [vm_compute; reflexivity|]. split; [vm_compute; reflexivity|]. split; [reflexivity|]. split; [reflexivity|]. split; [reflexivity|].
  split; vm_compute; reflexivity.
Qed.
(** With an always_before block { w = o; }, a wait, and an always_after block { o = i; }. *)
Definition p_wait : list stmt := [ SAssign 1 (EV 0); SAssign 2 (EV 1); SJoin (EV 9) [(1, EV 8)]; SAssign 2 (EB Z.add (EV 1) (EV 2)) ].
Definition q_wait (x : var) : bool := Nat.eqb x 2 || Nat.eqb x 9 || Nat.eqb x 8 || Nat.eqb x 0.
Example C12_program_ex2 : exists F sts, compile 100 true (deps_of [KSet 4 (EV 5)]) p_wait = Some F /\
  program_chains 100 true (deps_of [KSet 4 (EV 5)]) p_wait = Some sts /\
  oks q_wait all_p [KSet 4 (EV 5)] = true /\ (forall x, In x (jdones p_wait) -> q_wait x = true) /\ oks q_wait (fun x => Nat.eqb x 0) [KSet 5 (EV 0)] = true /\
  map (made_temporary (fun x => Nat.ltb x 8) (unit_of [KSet 4 (EV 5)] sts [KSet 5 (EV 0)] q_wait [])) [0; 1; 2; 4; 5] = [false; true; false; true; false].
Proof.
  do 2 eexists. split; [vm_compute; reflexivity|]. split; [vm_compute; reflexivity|]. split; [reflexivity|]. split; [intros x [<-|[]]; reflexivity|]. split; [reflexivity|].
  vm_compute. reflexivity.
Qed.
