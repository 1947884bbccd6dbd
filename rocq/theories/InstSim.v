(** The two modules follow the program of the caller, calls being procedure calls. *)
From Coq Require Import List Bool Arith ZArith Lia.
Import ListNotations.
From Verif Require Import FsmModel FsmEmit FsmLayout FsmRegion FsmStates FsmArms FsmSource FsmRun FsmBig FsmStep RegModel RegProps InstModel InstProofs.

Lemma distinct_nodup l : distinct l = true -> NoDup l.
Proof.
  induction l as [|x l IH]; cbn; [constructor|]. intros H. apply andb_true_iff in H. destruct H as [H1 H2]. constructor; [|now apply IH].
  intros I. apply memb_in in I. rewrite I in H1. discriminate.
Qed.
Lemma wire_in l src : NoDup (map fst l) -> forall dst p, In p l -> wire l src dst (fst p) = src (snd p).
Proof.
  induction l as [|q l IH]; intros ND dst p Hp; [destruct Hp|]. cbn in ND. inversion ND; subst. rewrite wire_cons. destruct Hp as [ ->|Hp]; [|now apply IH].
  rewrite wire_other by assumption. rewrite set1_at. apply upd_eq.
Qed.

Section Sys.
  Variables (w : inst) (vk : var -> option upd_rhs).
  Variables (fk : nat) (uk : bool) (pk : list stmt) (mk : fsm).
  Variables (fc : nat) (uc : bool) (pc : list stmt) (mc : fsm) (ac : alg) (vc : var -> option upd_rhs).
  Hypothesis WK : inst_ok w = true.
  Hypothesis CPk : compile fk uk [] pk = Some mk.
  Hypothesis OKk : forallb (every (callee_ok w)) pk = true.
  Hypothesis CVk : covereds pk = true.
  Hypothesis CPc : compile fc uc [] pc = Some mc.
  Hypothesis OKc : forallb (every (caller_ok w)) pc = true.
  Hypothesis CVc : covereds pc = true.
  Notation prog := (body uc pc).
  Notation ins := (i_ins w).
  Notation outs := (i_outs w).
  Notation evs l := (forallb (every (caller_ok w)) l = true).

  Lemma w_names : i_run w <> i_done w /\ ~ In (i_run w) (map fst outs) /\ ~ In (i_done w) (map fst outs) /\ NoDup (map fst ins) /\
    (forall x, In x (map snd ins) -> ~ In x (signals w)) /\ (forall x, In x (map snd outs) -> ~ In x (map fst ins)).
  Proof.
    unfold inst_ok in WK. rewrite !andb_true_iff in WK. destruct WK as [[[[[A B] C] D] E] F].
    rewrite !negb_true_iff in *. apply Nat.eqb_neq in A. split; [exact A|]. split; [intros H; apply memb_in in H; congruence|]. split; [intros H; apply memb_in in H; congruence|].
    split; [now apply distinct_nodup|]. unfold off in E. rewrite !forallb_forall in *. split; intros x Hx K; apply memb_in in K; [specialize (E x Hx)|specialize (F x Hx)]; cbn beta in *; rewrite K in *; discriminate.
  Qed.

  (** Same values, but for the signals (of the caller), for the inputs (of the callee). *)
  Definition apx (s t : store) : Prop := forall x, ~ In x (signals w) -> s x = t x.
  Definition apk (s t : store) : Prop := forall x, ~ In x (map fst ins) -> s x = t x.
  Lemma off_in l x : off w l = true -> In x l -> ~ In x (signals w).
  Proof. unfold off. rewrite forallb_forall. intros H Hx K. apply memb_in in K. specialize (H x Hx). cbn beta in H. rewrite K in H. discriminate. Qed.
  Lemma apx_eval D s e : apx D s -> off w (evars e) = true -> eval D e = eval s e.
  Proof. intros A O. apply eval_agree. intros x Hx. apply A. eapply off_in; eassumption. Qed.

  Definition done (kh : mod_st) : Z := if Nat.eqb (m_idx kh) 0 then 1%Z else 0%Z.
  Lemma caller_in_off kh D x : ~ In x (signals w) -> caller_in w kh D x = D x.
  Proof.
    intros H. unfold caller_in. rewrite set1_at. rewrite upd_ne by (intros ->; apply H; now left). rewrite set1_at. rewrite upd_ne by (intros ->; apply H; right; now left).
    apply wire_other. intros K. apply H. right. now right.
  Qed.
  Lemma caller_in_run kh D : caller_in w kh D (i_run w) = 1%Z.
  Proof. unfold caller_in. rewrite set1_at. apply upd_eq. Qed.
  Lemma caller_in_done kh D : caller_in w kh D (i_done w) = done kh.
  Proof. unfold caller_in. rewrite set1_at. destruct w_names as [A _]. rewrite upd_ne by congruence. rewrite set1_at. apply upd_eq. Qed.
  (** But for run and done, the values are those of the outputs. *)
  Definition apr (s t : store) : Prop := forall x, x <> i_run w -> x <> i_done w -> s x = t x.
  Lemma caller_in_apr kh D s k : apx D s -> apk (m_q kh) k -> apr (caller_in w kh D) (wire outs k s).
  Proof.
    intros A B x N1 N2. unfold caller_in. rewrite set1_at, upd_ne by assumption. rewrite set1_at, upd_ne by assumption.
    destruct (in_dec Nat.eq_dec x (map fst outs)) as [I|I].
    - clear A. revert I. assert (SB : forall b, In b (map snd outs) -> m_q kh b = k b).
      { intros b Hb. apply B. destruct w_names as [_ [_ [_ [_ [_ H]]]]]. now apply H. }
      generalize SB. clear. generalize outs. intros l. revert D s. induction l as [|p l IH]; intros D s SB I; [destruct I|]. rewrite !wire_cons.
      destruct (in_dec Nat.eq_dec x (map fst l)) as [J|J]; [apply IH; [intros b Hb; apply SB; now right|exact J]|].
      rewrite !wire_other by exact J. rewrite !set1_at. destruct I as [E|I]; [|contradiction]. subst x. rewrite !upd_eq. apply SB. now left.
    - rewrite !wire_other by exact I. apply A. intros [E|[E|E]]; [congruence|congruence|contradiction].
  Qed.
  Definition res_ok (res : list (var * expr)) : Prop :=
    forall r, In r res -> ~ In (fst r) (signals w) /\ ~ In (i_run w) (evars (snd r)) /\ ~ In (i_done w) (evars (snd r)).
  Lemma assign_list_apr res : res_ok res -> forall s t, apr s t -> apr (assign_list res s) (assign_list res t).
  Proof.
    induction res as [|r res IH]; intros R s t A; [exact A|]. cbn. apply IH; [intros q Hq; apply R; now right|].
    destruct (R r (or_introl eq_refl)) as [R1 [R2 R3]]. intros x N1 N2. unfold upd. destruct (Nat.eqb x (fst r)); [|now apply A].
    apply eval_agree. intros y Hy. apply A; congruence.
  Qed.
  Lemma apr_apx s t : apr s t -> apx s t.
  Proof. intros A x H. apply A; intros ->; apply H; [now left|right; now left]. Qed.
  Lemma caller_join d res : caller_ok w (SJoin d res) = true -> d = EV (i_done w) /\ res_ok res.
  Proof.
    cbn [caller_ok]. rewrite andb_true_iff. intros [A B]. split; [destruct d; try discriminate; apply Nat.eqb_eq in A; congruence|].
    rewrite forallb_forall in B. intros r Hr. specialize (B r Hr). cbn beta in B. apply andb_prop in B. destruct B as [B B3]. apply andb_prop in B. destruct B as [B1 B2].
    apply negb_true_iff in B2. apply negb_true_iff in B3. split; [eapply off_in; [exact B1|now left]|]. split; intros K; apply memb_in in K; congruence.
  Qed.

  (** * Small steps of the program with calls *)
  Definition xconf : Type := list stmt * kont * store * kst.
  Definition plain (l : list stmt) (K : kst) : Prop :=
    match l with SAssign x _ :: _ => x <> i_run w /\ inputs_kept w x K | SJoin _ _ :: _ => False | _ => True end.
  Inductive xstep : xconf -> xconf -> Prop :=
  | xs_nx l k s K l' k' s' : plain l K -> nx prog (l, k, s) = Some (l', k', s') -> xstep (l, k, s, K) (l', k', s', K)
  | xs_call r k s kk : xstep (SAssign (i_run w) (EC 0) :: r, k, s, Idle kk) (r, k, s, Busy (starting w vk kk s))
  | xs_idle res r k s kk : xstep (join_call w res :: r, k, s, Idle kk) (r, k, read_results w res kk s, Idle kk)
  | xs_join res r k s k0 k1 : exec false pk k0 Normal k1 -> xstep (join_call w res :: r, k, s, Busy k0) (r, k, read_results w res k1 s, Idle k1).
  Inductive xsteps : nat -> xconf -> xconf -> Prop :=
  | xx_0 a : xsteps 0 a a
  | xx_S n a b c : xstep a b -> xsteps n b c -> xsteps (S n) a c.
  Lemma xsteps_app n m a b c : xsteps n a b -> xsteps m b c -> xsteps (n + m) a c.
  Proof. induction 1; cbn; [auto|]. intros H2. econstructor; eauto. Qed.

  (** Big steps are small steps. *)
  Notation goes a b := (exists n, xsteps n a b).
  Lemma goes_trans a b c : goes a b -> goes b c -> goes a c.
  Proof. intros [n H1] [m H2]. exists (n + m). eapply xsteps_app; eassumption. Qed.
  Lemma goes_one a b : xstep a b -> goes a b.
  Proof. intros H. exists 1. econstructor; [exact H|constructor]. Qed.
  Lemma goes_step a b c : xstep a b -> goes b c -> goes a c.
  Proof. intros H. apply goes_trans. now apply goes_one. Qed.
  Lemma goes_nx l k s K l' k' s' c : plain l K -> nx prog (l, k, s) = Some (l', k', s') -> goes (l', k', s', K) c -> goes (l, k, s, K) c.
  Proof. intros H1 H2. apply goes_step. now apply xs_nx. Qed.
  Definition to1 (x : stmt) (a : store * kst) (o : outcome) (b : store * kst) : Prop :=
    forall r k, match o with Normal => goes (x :: r, k, fst a, snd a) (r, k, fst b, snd b)
                | Broke => forall r' k', brkk k = Some (r', k') -> goes (x :: r, k, fst a, snd a) (r', k', fst b, snd b) end.
  Definition tol (l : list stmt) (a : store * kst) (o : outcome) (b : store * kst) : Prop :=
    forall k, match o with Normal => goes (l, k, fst a, snd a) ([], k, fst b, snd b)
              | Broke => forall r' k', brkk k = Some (r', k') -> goes (l, k, fst a, snd a) (r', k', fst b, snd b) end.
  Lemma in_seq x l s K o b : (forall r, plain (x :: r) K) -> (forall r k, exists j, nx prog (x :: r, k, s) = Some (l, KSeq j r k, s)) -> tol l (s, K) o b -> to1 x (s, K) o b.
  Proof.
    intros P H T r k. destruct (H r k) as [j E]. specialize (T (KSeq j r k)). destruct o; cbn [fst snd] in *.
    - eapply goes_nx; [apply P|exact E|]. eapply goes_trans; [exact T|]. apply goes_one. now apply xs_nx.
    - intros r' k' B. eapply goes_nx; [apply P|exact E|]. now apply T.
  Qed.
  Lemma calls_small : (forall x a o b, call1 w vk pk x a o b -> to1 x a o b) /\ (forall l a o b, calls w vk pk l a o b -> tol l a o b).
  Proof.
    apply calls_mutind.
    - intros x e s K N I r k. apply goes_one. apply xs_nx; [split; assumption|reflexivity].
    - intros s k r k0. apply goes_one. apply xs_call.
    - intros res s k r k0. apply goes_one. apply xs_idle.
    - intros res s k0 k E r k1. apply goes_one. now apply xs_join.
    - intros l [s K] o b _ H. eapply in_seq; [constructor| |exact H]. intros r k. now exists false.
    - intros e l s K o b _ H. eapply in_seq; [constructor| |exact H]. intros r k. eexists. reflexivity.
    - intros e l1 l2 s K o b _ H. eapply in_seq; [constructor| |exact H]. intros r k. eexists. reflexivity.
    - intros e cs s K o b _ H. eapply in_seq; [constructor| |exact H]. intros r k. eexists. reflexivity.
    - intros e b s K E r k. apply goes_one. apply xs_nx; [exact Logic.I|]. cbn. now rewrite E.
    - intros e b s K a1 a2 E _ H1 _ H2 r k. eapply goes_nx; [exact Logic.I|cbn; rewrite E; reflexivity|]. eapply goes_trans; [apply (H1 (KLoop e b r k))|].
      eapply goes_nx; [exact Logic.I|reflexivity|]. apply H2.
    - intros e b s K a1 E _ H r k. eapply goes_nx; [exact Logic.I|cbn; rewrite E; reflexivity|]. now apply (H (KLoop e b r k)).
    - intros [s K] r k r' k' B. apply goes_one. apply xs_nx; [exact Logic.I|]. cbn. now rewrite B.
    - intros [s K] r k. apply goes_one. now apply xs_nx.
    - intros n [s K] r k. apply goes_one. now apply xs_nx.
    - intros a k. exists 0. constructor.
    - intros x r a b o c _ H1 _ H2 k. specialize (H1 r k). specialize (H2 k). cbn in H1. destruct o; [eapply goes_trans; eassumption|].
      intros r' k' B. eapply goes_trans; [exact H1|now apply H2].
    - intros x r a b _ H k r' k' B. now apply (H r k).
  Qed.

  (** * The relation *)
  (** The callee, at the beginning of a cycle, the registers of the caller being [Dc]. *)
  Definition KM (kh : mod_st) (Dc : store) (K : kst) : Prop :=
    match K with
    | Idle kk => m_idx kh = 0 /\ apk (m_q kh) kk
    | Busy k0 => exists k1 j, eqs k0 k1 /\ runs mk closed closed j k1 = Some (wire ins Dc (m_q kh), m_idx kh)
    end.
  (** While the callee runs, its inputs are in the registers of the caller. *)
  Definition XI (s : store) (K : kst) : Prop := match K with Idle _ => True | Busy k0 => forall p, In p ins -> k0 (fst p) = s (snd p) end.
  Definition WF (a : xconf) : Prop := match a with (l, k, s, K) => evs l /\ everyk (caller_ok w) k /\ XI s K end.
  Definition idle (K : kst) : Prop := exists kk, K = Idle kk.
  (** At the end of a cycle. [md]: the results remain to be read. *)
  Definition Bnd (md : bool) (c : config) (D : store) (kh : mod_st) (a : xconf) : Prop :=
    match a with (l, k, s, K) => WF a /\ KM kh D K /\
      if md then exists res, res <> [] /\ res_ok res /\ c = Jump (assigns res ++ l) k /\ idle K /\ apr (assign_list res (caller_in w kh D)) s
      else er c = (l, k) /\ apx D s end.
  (** During a cycle, which started with registers [D0] of the caller, [kh] of the callee. *)
  Definition run_ok (c : config) (D0 D : store) (kh : mod_st) (K : kst) : Prop :=
    (D (i_run w) = 1%Z /\ KM kh D0 K) \/
    (D (i_run w) = 0%Z /\ match c with Wait _ _ _ _ => False | _ => True end /\
     exists kk k0, K = Busy k0 /\ m_idx kh = 0 /\ apk (m_q kh) kk /\ forall x, ~ In x (map fst ins) -> k0 x = mod_edge vk false false kk x).
  Inductive mode := Plain | Reading | Ending.
  Definition Mid (md : mode) (c : config) (D0 D : store) (kh : mod_st) (a : xconf) : Prop :=
    match a with (l, k, s, K) => WF a /\ run_ok c D0 D kh K /\ D (i_done w) = done kh /\
      match md with
      | Plain => er c = (l, k) /\ apx D s
      | Reading => exists res, res <> [] /\ res_ok res /\ c = Run (assigns res ++ l) k /\ idle K /\ D (i_run w) = 1%Z /\ apr (assign_list res D) s
      | Ending => exists res, res <> [] /\ res_ok res /\ c = Jump (assigns res ++ l) k /\ idle K /\ D (i_run w) = 1%Z /\ apr (assign_list res (caller_in w kh D)) s
      end end.

  Lemma xi_nx l k s K l' k' s' : plain l K -> nx prog (l, k, s) = Some (l', k', s') -> XI s K -> XI s' K.
  Proof.
    intros P N X. destruct (nx_store _ _ _ _ _ _ _ N) as [ ->|[x [e [r [ -> ->]]]]]; [exact X|]. destruct K as [kk|k0]; [exact Logic.I|]. cbn in *.
    intros p Hp. rewrite upd_ne; [now apply X|]. intros <-. apply (proj2 P). now apply in_map.
  Qed.
  Lemma wf_nx l k s K l' k' s' : plain l K -> nx prog (l, k, s) = Some (l', k', s') -> WF (l, k, s, K) -> WF (l', k', s', K).
  Proof.
    intros P N [A [B C]]. destruct (every_nx (caller_ok w) (fun _ => eq_refl) prog l k s l' k' s') as [A2 B2]; try assumption.
    - destruct l as [|[] l]; auto.
    - split; [exact A2|]. split; [exact B2|]. eapply xi_nx; eassumption.
  Qed.

  (** The callee is done: its registers are those of the end of the execution. *)
  Lemma finished kh D0 k0 k1 : KM kh D0 (Busy k0) -> m_idx kh = 0 -> exec false pk k0 Normal k1 -> apk (m_q kh) k1.
  Proof.
    intros [k2 [j [E R]]] I0 X. rewrite I0 in R. destruct (exec_ext false) as [_ EX]. destruct (EX _ _ _ _ X k2 E) as [k3 [X3 E3]].
    destruct (machine_exec false fk uk [] pk mk k2 k3 CPk (callee_structured w pk OKk) CVk) as [_ T]. destruct (T X3) as [n0 H0].
    assert (R2 : forall d, runs mk closed closed (d + j) k2 = Some (wire ins D0 (m_q kh), 0)).
    { induction d as [|d IH]; [exact R|]. cbn [runs Nat.add]. rewrite IH. reflexivity. }
    specialize (R2 n0). rewrite H0 in R2 by lia. injection R2 as R2. intros x Hx. rewrite (E3 x), R2. now rewrite wire_other.
  Qed.

  (** The unique next step. *)
  Definition final (a : xconf) : Prop := exists s K, a = ([], KStop, s, K).
  Lemma not_final L st r k s K fin : xsteps L (st :: r, k, s, K) fin -> final fin -> exists L' b, L = S L' /\ xstep (st :: r, k, s, K) b /\ xsteps L' b fin.
  Proof. intros H [s' [K' ->]]. inversion H; subst. eauto. Qed.
  Lemma plain_step l k s K l' k' s' b : xstep (l, k, s, K) b -> nx prog (l, k, s) = Some (l', k', s') ->
    (match l with SJoin _ _ :: _ => False | SAssign x _ :: _ => x <> i_run w | _ => True end) -> b = (l', k', s', K) /\ plain l K.
  Proof.
    intros X N P. inversion X; subst; try (cbn in P; exfalso; congruence || contradiction). split; [|assumption]. rewrite N in *. congruence.
  Qed.

  Lemma nx_apx l k D s l' k' D' : apx D s -> evs l -> (match l with SJoin _ _ :: _ => False | SAssign x _ :: _ => x <> i_run w | _ => True end) ->
    nx prog (l, k, D) = Some (l', k', D') -> exists s', nx prog (l, k, s) = Some (l', k', s') /\ apx D' s' /\ D' (i_run w) = D (i_run w) /\ D' (i_done w) = D (i_done w).
  Proof.
    intros A E P N. destruct l as [|st r]; [destruct k; cbn in *; try discriminate; injection N as <- <- <-; eauto|].
    cbn [forallb] in E. apply andb_prop in E. destruct E as [E _]. apply every_here in E.
    destruct st; cbn -[timeless assigns app signals] in *; try contradiction; try (injection N as <- <- <-; eauto; fail); try discriminate.
    - injection N as <- <- <-. apply orb_prop in E. destruct E as [E|E]; [apply andb_prop in E; destruct E as [E _]; apply Nat.eqb_eq in E; contradiction|].
      apply andb_prop in E. destruct E as [E1 E2]. assert (Nx : ~ In x (signals w)) by (intros K; apply memb_in in K; rewrite K in E1; discriminate).
      eexists. split; [reflexivity|]. split.
      + intros y Hy. unfold upd. destruct (Nat.eqb y x); [now apply apx_eval|now apply A].
      + split; apply upd_ne; intros <-; apply Nx; [now left|right; now left].
    - injection N as <- <- <-. rewrite (apx_eval D s e A E). eauto.
    - injection N as <- <- <-. rewrite (apx_eval D s e A E). eauto.
    - injection N as <- <- <-. rewrite (apx_eval D s e A E). eauto.
    - rewrite <- (apx_eval D s e A E). destruct (truth (eval D e)); injection N as <- <- <-; eauto.
    - destruct (brkk k) as [[r' k2]|]; [|discriminate]. injection N as <- <- <-; eauto.
  Qed.
  Definition nowait (c : config) : Prop := match c with Wait _ _ _ _ => False | _ => True end.
  Lemma silent_nowait a b : silent prog a b -> nowait (fst b).
  Proof. intros H. destruct H; cbn; try exact Logic.I; repeat (match goal with |- context [if ?b then _ else _] => destruct b end); exact Logic.I. Qed.
  Lemma run_ok_next c c' D0 D D' kh K : nowait c' -> D' (i_run w) = D (i_run w) -> run_ok c D0 D kh K -> run_ok c' D0 D' kh K.
  Proof. intros N E [[A B]|[A [_ B]]]; [left|right]; rewrite E; auto. Qed.

  Definition calm (md : mode) (c c' : config) (kh : mod_st) : Prop :=
    match md with
    | Plain => (exists e b r k, c = Run (SWhile e b :: r) k) \/ (exists d rs r k, c = Run (SJoin d rs :: r) k) \/
               ((exists d rs r k, c = Wait d rs r k /\ c' = Jump (SJoin d rs :: r) k) /\ m_idx kh <> 0)
    | Reading => True
    | Ending => False
    end.
  Lemma mid_silent md c D c' D' D0 kh a L fin : Mid md c D0 D kh a -> silent prog (c, D) (c', D') -> xsteps L a fin -> final fin ->
    exists md' L' a', xsteps L' a' fin /\ Mid md' c' D0 D' kh a' /\
      (L = S L' \/ (L = L' /\ a' = a /\ md' <> Ending /\ calm md c c' kh)).
  Proof.
    intros M S X F. destruct a as [[[l k] s] K]. unfold Mid in M. destruct M as [WFa [RO [DN M]]]. pose proof (silent_nowait _ _ S) as NW. cbn [fst] in NW. destruct md.
    - destruct M as [E A].
      (* an ordinary step *)
      assert (PL : (match l with SJoin _ _ :: _ => False | SAssign x _ :: _ => x <> i_run w | _ => True end) -> nx prog (ers (c, D)) = Some (ers (c', D')) ->
        exists md' L' a', xsteps L' a' fin /\ Mid md' c' D0 D' kh a' /\ (L = Datatypes.S L' \/ (L = L' /\ a' = (l, k, s, K) /\ md' <> Ending /\ calm Plain c c' kh))).
      { intros P N. unfold ers in N. cbn [fst snd] in N. rewrite E in N. destruct (er c') as [l' k'] eqn:E'.
        destruct (nx_apx l k D s l' k' D' A (proj1 WFa) P N) as [s' [N' [A' [R' N'']]]].
        destruct L as [|L]; [inversion X; subst; destruct F as [s1 [K1 F]]; injection F as -> -> _ _; discriminate|]. inversion X as [|n a b d X1 X2]; subst.
        destruct (plain_step _ _ _ _ _ _ _ _ X1 N' P) as [ -> PK]. exists Plain, L, (l', k', s', K). split; [exact X2|]. split; [|now left]. split; [eapply wf_nx; eassumption|].
        split; [eapply run_ok_next; eassumption|]. split; [congruence|]. split; [exact E'|exact A']. }
      assert (QT : ers (c, D) = ers (c', D') -> (exists e b r k, c = Run (SWhile e b :: r) k) \/ (exists d rs r k, c = Run (SJoin d rs :: r) k) ->
        exists md' L' a', xsteps L' a' fin /\ Mid md' c' D0 D' kh a' /\ (L = Datatypes.S L' \/ (L = L' /\ a' = (l, k, s, K) /\ md' <> Ending /\ calm Plain c c' kh))).
      { intros N Q. unfold ers in N. cbn [fst snd] in N. rewrite E in N. destruct (er c') as [l' k'] eqn:E'. injection N as <- <- <-.
        exists Plain, L, (l, k, s, K). split; [exact X|]. split.
        - split; [exact WFa|]. split; [eapply run_ok_next; [exact NW|reflexivity|exact RO]|]. split; [exact DN|]. split; [exact E'|exact A].
        - right. split; [reflexivity|]. split; [reflexivity|]. split; [discriminate|]. cbn. tauto. }
      destruct c as [l0 k0|l0 k0|e b r k0|d rb r k0]; cbn [er] in E; injection E as E1 E2; subst l k.
      + destruct l0 as [|st r]; [destruct (silent_nx _ _ _ S) as [N|[N Q]]; [now apply PL|now apply QT]|]. destruct st; try (destruct (silent_nx _ _ _ S) as [N|[N Q]]; [now apply PL|now apply QT]).
        * destruct (Nat.eq_dec x (i_run w)) as [ ->|Nx]; [|destruct (silent_nx _ _ _ S) as [N|[N Q]]; [now apply PL|now apply QT]].
          (* a call *)
          clear PL QT. inversion S; subst. destruct (not_final _ _ _ _ _ _ _ X F) as [L' [b' [ -> [X1 X2]]]]. inversion X1; subst; [cbn in *; tauto|].
          exists Plain, L', (r, k0, s, Busy (starting w vk kk s)). split; [exact X2|]. split; [|now left]. destruct WFa as [W1 [W2 W3]]. split.
          -- split; [cbn [forallb] in W1; now apply andb_prop in W1|]. split; [exact W2|]. intros p Hp. unfold starting. apply wire_in; [apply w_names|exact Hp].
          -- split; [|split].
             ++ right. split; [apply upd_eq|]. split; [exact Logic.I|]. destruct RO as [[_ RO]|[_ [_ [k1 [k2 [RO _]]]]]]; [|discriminate]. destruct RO as [R1 R2].
                exists kk, (starting w vk kk s). split; [reflexivity|]. split; [exact R1|]. split; [exact R2|]. intros x Hx. unfold starting. now apply wire_other.
             ++ rewrite upd_ne; [exact DN|]. destruct w_names as [Q _]. congruence.
             ++ split; [reflexivity|]. intros x Hx. rewrite upd_ne; [now apply A|]. intros ->. apply Hx. now left.
        * inversion S; subst. apply QT; [reflexivity|]. right. eauto 10.
      + destruct l0 as [|st r]; [destruct (silent_nx _ _ _ S) as [N|[N Q]]; [now apply PL|now apply QT]|].
        destruct st; try (now inversion S); (destruct (silent_nx _ _ _ S) as [N|[N Q]]; [now apply PL|now apply QT]).
      + destruct (silent_nx _ _ _ S) as [N|[N Q]]; [now apply PL|now apply QT].
      + (* the wait *)
        clear PL QT. destruct (not_final _ _ _ _ _ _ _ X F) as [L' [b' [ -> [X1 X2]]]].
        destruct WFa as [W1 [W2 W3]]. cbn [forallb] in W1. apply andb_prop in W1. destruct W1 as [W0 W1]. destruct (caller_join _ _ (every_here _ _ W0)) as [ -> RK].
        destruct RO as [[R1 RO]|[_ [[] _]]]. inversion S; subst. cbn [eval] in *. rewrite DN in *. unfold done in *.
        destruct (Nat.eq_dec (m_idx kh) 0) as [I0|I0].
        * rewrite I0 in *. cbn [Nat.eqb truth negb Z.eqb] in *. change (truth 1) with true in *. cbn match in *.
          assert (J : exists k1, b' = (r, k0, read_results w rb k1 s, Idle k1) /\ apk (m_q kh) k1).
          { inversion X1; subst; [cbn in *; contradiction| |].
            - exists kk. split; [reflexivity|]. apply RO.
            - exists k2. split; [reflexivity|]. eapply finished; eassumption. }
          destruct J as [k1 [ -> AK]]. destruct rb as [|r0 rb].
          -- exists Plain, L', (r, k0, read_results w [] k1 s, Idle k1). split; [exact X2|]. split; [|now left]. split; [now split|]. split; [left; split; [exact R1|now split]|].
             split; [unfold done; now rewrite I0|]. split; [reflexivity|]. intros x Hx. unfold read_results. cbn. rewrite wire_other; [now apply A|]. intros Q. apply Hx. right. now right.
          -- exists Ending, L', (r, k0, read_results w (r0 :: rb) k1 s, Idle k1). split; [exact X2|]. split; [|now left]. split; [now split|]. split; [left; split; [exact R1|now split]|].
             split; [unfold done; now rewrite I0|]. exists (r0 :: rb). split; [discriminate|]. split; [exact RK|]. split; [reflexivity|]. split; [now exists k1|]. split; [exact R1|].
             unfold read_results. apply assign_list_apr; [exact RK|]. now apply caller_in_apr.
        * apply Nat.eqb_neq in I0 as I1. rewrite I1 in *. change (truth 0) with false in *. cbn match in *.
          exists Plain, (Datatypes.S L'), (SJoin (EV (i_done w)) rb :: r, k0, s, K). split; [exact X|]. split.
          -- split; [split; [cbn [forallb]; now rewrite W0, W1|now split]|]. split; [left; now split|]. split; [unfold done; now rewrite I1|]. split; [reflexivity|exact A].
          -- right. split; [reflexivity|]. split; [reflexivity|]. split; [discriminate|]. cbn. right. right. split; [eauto 10|exact I0].
    - destruct M as [res [NE [RK [ -> [IK [R1 A]]]]]]. destruct res as [|[x e] res]; [congruence|]. cbn [assigns map app fst snd] in S. inversion S; subst.
      destruct (RK (x, e) (or_introl eq_refl)) as [Q1 [Q2 Q3]]. cbn [fst snd] in *.
      assert (R2 : upd D x (eval D e) (i_run w) = D (i_run w)) by (apply upd_ne; intros <-; apply Q1; now left).
      assert (D2 : upd D x (eval D e) (i_done w) = D (i_done w)) by (apply upd_ne; intros <-; apply Q1; right; now left).
      exists (match res with [] => Plain | _ => Reading end), L, (l, k, s, K). split; [exact X|]. split; [|right; split; [reflexivity|]; split; [reflexivity|]; split; [now destruct res|exact Logic.I]].
      split; [exact WFa|]. split; [eapply run_ok_next; [exact NW|exact R2|exact RO]|]. split; [congruence|]. cbn [assign_list fold_left fst snd] in A.
      destruct res as [|r1 res]; [split; [reflexivity|now apply apr_apx]|]. exists (r1 :: res). split; [discriminate|]. split; [intros q Hq; apply RK; now right|]. split; [reflexivity|].
      split; [exact IK|]. split; [congruence|exact A].
    - destruct M as [res [NE [RK [ -> [IK [R1 A]]]]]]. destruct res as [|[x e] res]; [congruence|]. cbn [assigns map app fst snd] in S. inversion S.
  Qed.

  (** * A cycle of the caller *)
  Lemma xsteps_step L st r k s K fin b l' k' s' : xsteps L (st :: r, k, s, K) fin -> final fin -> nx prog (st :: r, k, s) = Some (l', k', s') ->
    (match st with SJoin _ _ => False | SAssign x _ => x <> i_run w | _ => True end) -> b = (l', k', s', K) -> exists L', L = S L' /\ xsteps L' b fin /\ plain (st :: r) K.
  Proof.
    intros X F N P ->. destruct (not_final _ _ _ _ _ _ _ X F) as [L' [b' [ -> [X1 X2]]]]. destruct (plain_step _ _ _ _ _ _ _ _ X1 N) as [ -> Q]; [destruct st; auto|]. eauto.
  Qed.
  Definition is_end (md : mode) : bool := match md with Ending => true | _ => false end.
  Lemma mid_silents a0 b0 : silents prog a0 b0 -> forall md c D D0 kh a L fin, a0 = (c, D) -> Mid md c D0 D kh a -> xsteps L a fin -> final fin ->
    exists md' L' a', xsteps L' a' fin /\ Mid md' (fst b0) D0 (snd b0) kh a' /\ L' <= L /\ (L' = L -> a' = a /\ (md' = Ending -> md = Ending)).
  Proof.
    induction 1 as [a0|a0 [c1 D1] b0 S _ IH]; intros md c D D0 kh a L fin E M X F; subst a0.
    - exists md, L, a. auto.
    - destruct (mid_silent _ _ _ _ _ _ _ _ _ _ M S X F) as [md1 [L1 [a1 [X1 [M1 P1]]]]]. destruct (IH md1 c1 D1 D0 kh a1 L1 fin eq_refl M1 X1 F) as [md2 [L2 [a2 [X2 [M2 [P2 P3]]]]]].
      exists md2, L2, a2. split; [exact X2|]. split; [exact M2|]. destruct P1 as [ ->|[ -> [ -> [N1 _]]]]; [split; [lia|intros; lia]|]. split; [lia|]. intros E.
      destruct (P3 E) as [ -> P4]. split; [reflexivity|]. intros Q. now apply P4 in Q.
  Qed.

  Lemma bnd_mid md c c1 D kh a L fin : Bnd md c D kh a -> tick c c1 -> c <> Run [] KStop -> xsteps L a fin -> final fin ->
    exists L1 a1, xsteps L1 a1 fin /\ Mid (if md then Reading else Plain) c1 D (caller_in w kh D) kh a1 /\
      ((L1 = L /\ a1 = a /\ phi c = 0) \/ (md = false /\ L = S L1)).
  Proof.
    intros B T N X F. destruct a as [[[l k] s] K]. destruct B as [W0 [B1 B2]].
    assert (RO : run_ok c1 D (caller_in w kh D) kh K) by (left; split; [apply caller_in_run|exact B1]).
    assert (AX : apx D s -> apx (caller_in w kh D) s) by (intros H x Hx; rewrite caller_in_off by exact Hx; now apply H).
    destruct md.
    - destruct B2 as [res [R1 [R2 [ -> [R3 R4]]]]]. exists L, (l, k, s, K). split; [exact X|]. split; [|left; auto].
      destruct res as [|[x e] res]; [congruence|]. inversion T; subst. split; [exact W0|]. split; [exact RO|]. split; [apply caller_in_done|].
      exists ((x, e) :: res). split; [exact R1|]. split; [exact R2|]. split; [reflexivity|]. split; [exact R3|]. split; [apply caller_in_run|exact R4].
    - destruct B2 as [E A]. destruct T.
      + exists L, (l, k, s, K). split; [exact X|]. split; [|left; auto]. split; [exact W0|]. split; [exact RO|]. split; [apply caller_in_done|]. split; [exact E|now apply AX].
      + exists L, (l, k, s, K). split; [exact X|]. split; [|left; auto]. split; [exact W0|]. split; [exact RO|]. split; [apply caller_in_done|]. split; [exact E|now apply AX].
      + exists L, (l, k, s, K). split; [exact X|]. split; [|left; auto]. split; [exact W0|]. split; [exact RO|]. split; [apply caller_in_done|]. split; [exact E|now apply AX].
      + cbn [er] in E. injection E as <- <-. destruct (xsteps_step _ _ _ _ _ _ _ _ _ _ _ X F (eq_refl : nx prog (SStep :: r, k0, s) = Some (r, k0, s)) Logic.I eq_refl) as [L' [ -> [X1 P]]].
        exists L', (r, k0, s, K). split; [exact X1|]. split; [|right; auto]. split; [eapply wf_nx; [exact P|reflexivity|exact W0]|].
        split; [exact RO|]. split; [apply caller_in_done|]. split; [reflexivity|now apply AX].
      + congruence.
  Qed.

  (** The measure: a cycle that does not wait makes progress. *)
  Definition mu (md : mode) (L : nat) (c : config) : nat := 4 * L + match md with Plain => 1 - phi c | _ => 2 end.
  Definition waiting (c : config) (kh : mod_st) : Prop := exists d rb r k, c = Jump (SJoin d rb :: r) k /\ m_idx kh <> 0.
  Lemma mu_le md L c : mu md L c <= 4 * L + 2.
  Proof. unfold mu, phi. destruct md; [destruct c|..]; lia. Qed.

  Lemma caller_cycle md c c1 D kh a L fin c' D' : Bnd md c D kh a -> tick c c1 -> c <> Run [] KStop -> xsteps L a fin -> final fin ->
    silents prog (c1, caller_in w kh D) (c', D') ->
    exists md' L' a', xsteps L' a' fin /\ Mid md' c' D D' kh a' /\
      (ticks c' -> mu md' L' c' < mu (if md then Ending else Plain) L c \/ (waiting c kh /\ c' = c /\ a' = a /\ L' = L /\ md = false /\ md' = Plain)).
  Proof.
    intros B T N X F S. destruct (bnd_mid _ _ _ _ _ _ _ _ B T N X F) as [L1 [a1 [X1 [M1 P1]]]].
    destruct (mid_silents _ _ S _ _ _ _ _ _ _ _ eq_refl M1 X1 F) as [md2 [L2 [a2 [X2 [M2 [P2 P3]]]]]]. cbn [fst snd] in M2.
    (* fewer instructions remain *)
    assert (LT : L2 < L -> exists md' L' a', xsteps L' a' fin /\ Mid md' c' D D' kh a' /\
      (ticks c' -> mu md' L' c' < mu (if md then Ending else Plain) L c \/ (waiting c kh /\ c' = c /\ a' = a /\ L' = L /\ md = false /\ md' = Plain))).
    { intros H. exists md2, L2, a2. split; [exact X2|]. split; [exact M2|]. intros _. left. pose proof (mu_le md2 L2 c'). unfold mu at 2. lia. }
    destruct P1 as [[ -> [ -> PH]]|[ -> ->]]; [|apply LT; lia].
    destruct (Nat.eq_dec L2 L) as [ ->|NE]; [|apply LT; lia]. destruct (P3 eq_refl) as [ -> P4].
    destruct md.
    - exists md2, L, a. split; [exact X2|]. split; [exact M2|]. intros [c2 T2]. left. unfold mu.
      destruct md2; [unfold phi; destruct c'; lia| |specialize (P4 eq_refl); discriminate].
      exfalso. destruct a as [[[l k] s] K]. destruct M2 as [_ [_ [_ [res [R1 [_ [ -> _]]]]]]]. destruct res as [|[? ?] ?]; [congruence|]. inversion T2.
    - destruct T.
      + (* no instruction of the cycle but for those of the same block *)
        inversion S as [x|x [c3 D3] z S1 S2]; subst.
        * exists Plain, L, a. split; [exact X|]. split; [exact M1|]. intros _. left. unfold mu, phi. lia.
        * destruct (mid_silent _ _ _ _ _ _ _ _ _ _ M1 S1 X F) as [md3 [L3 [a3 [X3 [M3 P5]]]]].
          destruct P5 as [ ->|[_ [_ [_ Q]]]]; [|exfalso; destruct Q as [[? [? [? [? Q]]]]|[[? [? [? [? Q]]]]|[[? [? [? [? [Q _]]]]] _]]]; [injection Q as -> ->; discriminate|injection Q as -> ->; discriminate|discriminate]].
          destruct (mid_silents _ _ S2 _ _ _ _ _ _ _ _ eq_refl M3 X3 F) as [md4 [L4 [a4 [X4 [M4 [P6 _]]]]]]. cbn [fst snd] in M4.
          exists md4, L4, a4. split; [exact X4|]. split; [exact M4|]. intros _. left. pose proof (mu_le md4 L4 c'). unfold mu at 2. lia.
      + inversion S as [x|x [c3 D3] z S1 S2]; subst.
        * exists Plain, L, a. split; [exact X|]. split; [exact M1|]. intros [c2 T2]. inversion T2.
        * destruct (mid_silent _ _ _ _ _ _ _ _ _ _ M1 S1 X F) as [md3 [L3 [a3 [X3 [M3 P5]]]]].
          destruct P5 as [ ->|[_ [_ [_ Q]]]]; [|exfalso; destruct Q as [[? [? [? [? Q]]]]|[[? [? [? [? Q]]]]|[[? [? [? [? [Q _]]]]] _]]]; discriminate].
          destruct (mid_silents _ _ S2 _ _ _ _ _ _ _ _ eq_refl M3 X3 F) as [md4 [L4 [a4 [X4 [M4 [P6 _]]]]]]. cbn [fst snd] in M4.
          exists md4, L4, a4. split; [exact X4|]. split; [exact M4|]. intros _. left. pose proof (mu_le md4 L4 c'). unfold mu at 2. lia.
      + inversion S as [x|x [c3 D3] z S1 S2]; subst.
        * exists Plain, L, a. split; [exact X|]. split; [exact M1|]. intros [c2 T2]. inversion T2.
        * destruct (mid_silent _ _ _ _ _ _ _ _ _ _ M1 S1 X F) as [md3 [L3 [a3 [X3 [M3 P5]]]]].
          destruct (mid_silents _ _ S2 _ _ _ _ _ _ _ _ eq_refl M3 X3 F) as [md4 [L4 [a4 [X4 [M4 [P6 P7]]]]]]. cbn [fst snd] in M4.
          destruct P5 as [ ->|[ <- [ -> [N3 Q]]]].
          -- exists md4, L4, a4. split; [exact X4|]. split; [exact M4|]. intros _. left. pose proof (mu_le md4 L4 c'). unfold mu at 2. lia.
          -- cbn [calm] in Q. destruct Q as [[? [? [? [? Q]]]]|[[? [? [? [? Q]]]]|[[d' [rs' [r' [k' [Q1 Q2]]]]] Q3]]]; [discriminate|discriminate|]. injection Q1 as <- <- <- <-. subst c3.
             inversion S2 as [x|x y z S3 S4]; subst; [|now inversion S3]. 
             exists md3, L, a. split; [exact X3|]. split; [exact M3|]. intros _. right. split; [exists d, rb, r, k; auto|]. repeat (split; [reflexivity|]).
             destruct md3; [reflexivity| |congruence]. exfalso. destruct a as [[[l1 k1] s1] K1]. destruct M3 as [_ [_ [_ [res [R1 [_ [R2 _]]]]]]]. discriminate.
      + discriminate.
      + congruence.
  Qed.

  (** * A cycle of the callee *)
  Definition KB (kh : mod_st) (Dc k0 k1 : store) (j : nat) : Prop := eqs k0 k1 /\ runs mk closed closed j k1 = Some (wire ins Dc (m_q kh), m_idx kh).
  Lemma cycle_0 m Q D : cycle m Q D 0 = Some (D, 0).
  Proof. reflexivity. Qed.
  Lemma callee_busy c kh D' k0 k1 j reset n : reset n = false -> truth (D' (i_run w)) = true -> KB kh (m_q c) k0 k1 j -> (forall p, In p ins -> k0 (fst p) = D' (snd p)) ->
    exists kh', mod_step callee_alg mk vk (fun _ => callee_in w c) same reset (fun _ => truth (D' (i_run w))) n kh = Some kh' /\ KB kh' D' k0 k1 (S j).
  Proof.
    intros R0 TR [E R] H. destruct (callee_runs w fk uk pk mk CPk OKk CVk (S j) k1) as [Dk [i R2]]. pose proof R2 as R3. cbn [runs] in R3. rewrite R in R3. cbn [obind] in R3. unfold closed in R3.
    unfold mod_step, callee_in, same. rewrite R3. cbn [obind]. rewrite R0, TR. unfold mod_edge, idx_edge, next_state. cbn [orb negb a_auto callee_alg]. eexists. split; [reflexivity|].
    split; [exact E|]. cbn [m_q m_idx]. rewrite wire_id; [exact R2|]. intros p Hp.
    rewrite (callee_keeps w fk uk pk mk CPk OKk CVk k1 _ _ _ R2) by (now apply in_map). rewrite <- E. now apply H.
  Qed.
  Lemma callee_cycle md c1 c D' kh a reset n : reset n = false -> Mid md c1 (m_q c) D' kh a -> md <> Reading ->
    exists kh', mod_step callee_alg mk vk (fun _ => callee_in w c) same reset (fun _ => truth (D' (i_run w))) n kh = Some kh' /\ KM kh' D' (snd a).
  Proof.
    intros R0 M MD. destruct a as [[[l k] s] K]. destruct M as [W0 [RO [DN M]]]. cbn [snd].
    assert (AX : forall k0, K = Busy k0 -> forall p, In p ins -> k0 (fst p) = D' (snd p)).
    { intros k0 -> p Hp. destruct W0 as [_ [_ W0]]. cbn in W0. rewrite W0 by exact Hp. destruct w_names as [_ [_ [_ [_ [Q _]]]]].
      destruct md; [|congruence|]; [destruct M as [_ A]; symmetry; apply A, Q; now apply in_map|]. destruct M as [? [_ [_ [_ [[? M] _]]]]]. discriminate. }
    destruct RO as [[R1 RO]|[R1 [_ [kk [k0 [ -> [I0 [AK RO]]]]]]]].
    - destruct K as [kk|k0]; cbn in RO.
      + destruct RO as [I0 AK]. unfold mod_step, same, callee_in. rewrite I0, cycle_0. cbn [obind]. rewrite R0, R1. change (truth 1) with true.
        unfold mod_edge, idx_edge, next_state. cbn [orb negb a_auto callee_alg]. eexists. split; [reflexivity|]. cbn. split; [reflexivity|]. intros x Hx. rewrite wire_other by exact Hx. now apply AK.
      + destruct RO as [k1 [j [E R]]]. destruct (callee_busy c kh D' k0 k1 j reset n R0) as [kh' [S1 S2]]; [now rewrite R1|now split|now apply AX|].
        exists kh'. split; [exact S1|]. exists k1, (S j). exact S2.
    - unfold mod_step, same, callee_in. rewrite I0, cycle_0. cbn [obind]. rewrite R0, R1. change (truth 0) with false. unfold idx_edge, next_state. cbn [orb negb a_auto callee_alg].
      eexists. split; [reflexivity|]. cbn [KM m_q m_idx]. eexists _, 0. split; [|reflexivity]. intros x. destruct (in_dec Nat.eq_dec x (map fst ins)) as [I|I].
      + apply in_map_iff in I. destruct I as [p [ <- Hp]]. rewrite wire_in; [now apply AX|apply w_names|exact Hp].
      + rewrite RO by exact I. rewrite !wire_other by exact I. rewrite !mod_edge_at. rewrite !wire_other by exact I. now rewrite AK by exact I.
  Qed.

  (** * Both *)
  Variables (reset crun : nat -> bool).
  Variable I : nat -> config -> Prop.
  Hypothesis FO : Follows prog (waitss pc) [] mc I.
  Notation step := (sys_step w ac mc mk vc vk reset crun).
  Definition quiet (n : nat) : Prop := reset n = false /\ crun n = true.
  Lemma caller_mod n D i kh : quiet n -> forall D' i', cycle mc (caller_in w kh D) (caller_in w kh D) i = Some (D', i') ->
    mod_step ac mc vc (fun _ => caller_in w kh) same reset crun n {| m_q := D; m_idx := i; m_auto := true |} = Some {| m_q := D'; m_idx := i'; m_auto := true |}.
  Proof.
    intros [R0 R1] D' i' E. unfold mod_step, same. cbn [m_q m_idx m_auto]. rewrite E. cbn [obind]. rewrite R0, R1. unfold mod_edge, idx_edge, next_state, auto_edge. cbn.
    destruct (a_auto ac); reflexivity.
  Qed.

  Lemma mid_bnd md c1 D' kh kh' a r0 rs n c : rs n = false -> Mid md c1 r0 D' kh a -> md <> Reading -> 
    mod_step callee_alg mk vk (fun _ => callee_in w c) same rs (fun _ => truth (D' (i_run w))) n kh = Some kh' -> KM kh' D' (snd a) -> Bnd (is_end md) c1 D' kh' a.
  Proof.
    intros R0 M MD SK K0. destruct a as [[[l k] s] K]. cbn [snd] in K0. destruct M as [W0 [RO [DN M]]]. destruct md; [|congruence|]; (split; [exact W0|]); (split; [exact K0|]); cbn [is_end].
    - exact M.
    - destruct M as [res [R1 [R2 [R3 [[kk ->] [R5 R6]]]]]]. exists res. split; [exact R1|]. split; [exact R2|]. split; [exact R3|]. split; [now exists kk|].
      intros x N1 N2. rewrite <- R6 by assumption. apply assign_list_apr; [exact R2| |exact N1|exact N2]. clear - RO WK K0 R5.
      destruct RO as [[_ RO]|[RO _]]; [|congruence]. cbn in RO, K0. destruct RO as [I0 AK]. destruct K0 as [I1 AK1].
      intros x N1 N2. unfold caller_in. do 2 (rewrite set1_at, upd_ne by assumption; symmetry). do 2 (rewrite set1_at, upd_ne by assumption; symmetry).
      apply wire_cong; [|intros; reflexivity]. intros b Hb. destruct w_names as [_ [_ [_ [_ [_ Q]]]]]. rewrite AK, AK1; [reflexivity|now apply Q|now apply Q].
  Qed.

  Definition cst (D : store) (i : nat) : mod_st := {| m_q := D; m_idx := i; m_auto := true |}.
  Lemma both n D i kh c' kh' : mod_step ac mc vc (fun _ => caller_in w kh) same reset crun n (cst D i) = Some c' ->
    mod_step callee_alg mk vk (fun _ => callee_in w (cst D i)) same reset (fun _ => truth (m_q c' (i_run w))) n kh = Some kh' ->
    step n {| y_c := cst D i; y_k := kh |} = Some {| y_c := c'; y_k := kh' |}.
  Proof. intros H1 H2. unfold sys_step. cbn [y_c y_k]. rewrite H1. cbn [obind]. rewrite H2. reflexivity. Qed.
  Lemma sys_cycle n md c D i kh a L fin : quiet n -> I i c -> i <> 0 -> Bnd md c D kh a -> xsteps L a fin -> final fin ->
    exists D' i' kh' c', step n {| y_c := cst D i; y_k := kh |} = Some {| y_c := cst D' i'; y_k := kh' |} /\ I i' c' /\
      (i' <> 0 -> exists md' L' a', xsteps L' a' fin /\ Bnd md' c' D' kh' a' /\
         (mu (if md' then Ending else Plain) L' c' < mu (if md then Ending else Plain) L c \/
          (waiting c kh /\ c' = c /\ a' = a /\ L' = L /\ md = false /\ md' = false /\ forall k0 k1 j, snd a = Busy k0 -> KB kh D k0 k1 j -> KB kh' D' k0 k1 (S j)))) /\
      (i' = 0 -> exists s K, fin = ([], KStop, s, K) /\ apx D' s /\ KM kh' D' K /\ XI s K).
  Proof.
    intros QN IC NZ B X F. destruct (fo_tick _ _ _ _ _ FO i c IC NZ) as [_ [_ NS]].
    destruct (fo_cycle _ _ _ _ _ FO i c (caller_in w kh D) (caller_in w kh D) IC NZ) as [D' [i' [c1 [c' [E1 [T [S I']]]]]]]; [intros x _; reflexivity|intros ? ? _ _ []|].
    destruct (caller_cycle _ _ _ _ _ _ _ _ _ _ B T NS X F S) as [md' [L' [a' [X' [M' P']]]]].
    pose proof (caller_mod n D i kh QN D' i' E1) as SC. destruct QN as [R0 R1].
    destruct (Nat.eq_dec i' 0) as [ ->|NZ'].
    - (* the end *)
      destruct (fo_over _ _ _ _ _ FO c' I') as [c2 [[ ->|T2] OV]].
      + specialize (OV D'). destruct (mid_silents _ _ OV _ _ _ _ _ _ _ _ eq_refl M' X' F) as [md2 [L2 [a2 [X2 [M2 _]]]]]. cbn [fst snd] in M2.
        assert (md2 = Plain).
        { destruct a2 as [[[l2 k2] s2] K2]. destruct md2; [reflexivity| |]; destruct M2 as [_ [_ [_ [res [R2 [_ [R3 _]]]]]]]; [|discriminate]. destruct res as [|[? ?] ?]; [congruence|discriminate]. }
        subst md2. destruct (callee_cycle _ _ (cst D i) _ _ _ reset n R0 M2 ltac:(discriminate)) as [kh' [SK KM']].
        exists D', 0, kh', c'. split; [now apply both|]. split; [exact I'|]. split; [congruence|]. intros _.
        destruct a2 as [[[l2 k2] s2] K2]. destruct M2 as [[_ [_ WX]] [_ [_ [EE AA]]]]. cbn [er] in EE. injection EE as <- <-.
        inversion X2; subst; [|inversion H; subst; discriminate]. exists s2, K2. auto.
      + (* one more cycle would be needed to see the end: nothing happens in it *)
        assert (MD : md' <> Reading) by (intros ->; destruct a' as [[[l2 k2] s2] K2]; destruct M' as [_ [_ [_ [res [R2 [_ [ -> _]]]]]]]; destruct res as [|[? ?] ?]; [congruence|inversion T2]).
        destruct (callee_cycle _ _ (cst D i) _ _ _ reset n R0 M' MD) as [kh' [SK KM']].
        exists D', 0, kh', c'. split; [now apply both|]. split; [exact I'|]. split; [congruence|]. intros _.
        pose proof (mid_bnd _ _ _ _ _ _ _ reset n (cst D i) R0 M' MD SK KM') as B'.
        assert (NS' : c' <> Run [] KStop \/ c' = Run [] KStop) by (inversion T2; subst; auto; left; discriminate). destruct NS' as [NS'|NS'].
        * destruct (bnd_mid _ _ _ _ _ _ _ _ B' T2 NS' X' F) as [L1 [a1 [X1 [M1 _]]]]. specialize (OV (caller_in w kh' D')).
          destruct (mid_silents _ _ OV _ _ _ _ _ _ _ _ eq_refl M1 X1 F) as [md2 [L2 [a2 [X2 [M2 _]]]]]. cbn [fst snd] in M2. destruct a2 as [[[l2 k2] s2] K2].
          assert (md2 = Plain) by (destruct md2; [reflexivity| |]; destruct M2 as [_ [_ [_ [res [R2 [_ [R3 _]]]]]]]; [|discriminate]; destruct res as [|[? ?] ?]; [congruence|discriminate]). subst md2.
          destruct M2 as [[_ [_ WX]] [RO [_ [EE AA]]]]. cbn [er] in EE. injection EE as <- <-.
          inversion X2; subst; [|inversion H; subst; discriminate]. exists s2, K2. split; [reflexivity|]. split; [intros x Hx; rewrite <- AA by exact Hx; symmetry; now apply caller_in_off|].
          split; [|exact WX]. destruct RO as [[_ RO]|[RO _]]; [exact RO|]. rewrite caller_in_run in RO. discriminate.
        * subst c'. destruct a' as [[[l2 k2] s2] K2]. destruct B' as [[_ [_ WX]] [KM2 B']]. destruct (is_end md'); [destruct B' as [res [_ [_ [R3 _]]]]; discriminate|].
          destruct B' as [EE AA]. cbn [er] in EE. injection EE as <- <-. inversion X'; subst; [|inversion H; subst; discriminate]. exists s2, K2. auto.
    - destruct (fo_tick _ _ _ _ _ FO i' c' I' NZ') as [c2 [T2 NS2]].
      assert (MD : md' <> Reading) by (intros ->; destruct a' as [[[l2 k2] s2] K2]; destruct M' as [_ [_ [_ [res [R2 [_ [ -> _]]]]]]]; destruct res as [|[? ?] ?]; [congruence|inversion T2]).
      destruct (callee_cycle _ _ (cst D i) _ _ _ reset n R0 M' MD) as [kh' [SK KM']].
      exists D', i', kh', c'. split; [now apply both|]. split; [exact I'|]. split; [|congruence]. intros _.
      pose proof (mid_bnd _ _ _ _ _ _ _ reset n (cst D i) R0 M' MD SK KM') as B'.
      exists (is_end md'), L', a'. split; [exact X'|]. split; [exact B'|]. destruct (P' (ex_intro _ c2 T2)) as [P2|[P2 [-> [ -> [ -> [ -> ->]]]]]].
      + left. destruct md'; [exact P2|congruence|exact P2].
      + right. repeat (split; [assumption || reflexivity|]). intros k0 k1 j EK KB0.
        destruct a as [[[l2 k2] s2] K2]. cbn [snd] in EK. subst K2. destruct M' as [W0 [RO [_ [EE AA]]]].
        destruct (callee_busy (cst D i) kh D' k0 k1 j reset n R0) as [kh2 [S1 S2]]; [|exact KB0| |].
        * destruct RO as [[ -> _]|[_ [_ [kk [k3 [_ [RO _]]]]]]]; [reflexivity|]. destruct P2 as [? [? [? [? [_ P2]]]]]. congruence.
        * intros p Hp. destruct W0 as [_ [_ W0]]. cbn in W0. rewrite W0 by exact Hp. symmetry. apply AA. destruct w_names as [_ [_ [_ [_ [Q _]]]]]. apply Q. now apply in_map.
        * rewrite SK in S1. injection S1 as ->. exact S2.
  Qed.

  (** * Whole executions *)
  Notation run := (sys_run w ac mc mk vc vk reset crun).
  Lemma run_app t n m y y1 : run t n y = Some y1 -> run t (n + m) y = run (t + n) m y1.
  Proof.
    intros H. induction m as [|m IH]; [now rewrite Nat.add_0_r|]. rewrite Nat.add_succ_r. cbn [sys_run]. rewrite IH. now rewrite Nat.add_assoc.
  Qed.
  Lemma run_one t y y1 : step t y = Some y1 -> run t 1 y = Some y1.
  Proof. intros H. cbn. rewrite Nat.add_0_r. exact H. Qed.

  (** Once the caller is done. *)
  Lemma hold n D kh s K : quiet n -> apx D s -> KM kh D K -> XI s K ->
    exists D' kh', step n {| y_c := cst D 0; y_k := kh |} = Some {| y_c := cst D' 0; y_k := kh' |} /\ apx D' s /\ KM kh' D' K.
  Proof.
    intros Q A B X. assert (A' : apx (caller_in w kh D) s) by (intros x Hx; rewrite caller_in_off by exact Hx; now apply A).
    assert (M : Mid Plain (Run [] KStop) D (caller_in w kh D) kh ([], KStop, s, K)).
    { split; [split; [reflexivity|split; [exact Logic.I|exact X]]|]. split; [left; split; [apply caller_in_run|exact B]|]. split; [apply caller_in_done|]. split; [reflexivity|exact A']. }
    destruct (callee_cycle _ _ (cst D 0) _ _ _ reset n (proj1 Q) M ltac:(discriminate)) as [kh' [SK K']].
    exists (caller_in w kh D), kh'. split; [|split; [exact A'|exact K']]. apply both; [|exact SK]. now apply caller_mod.
  Qed.
  Lemma holds t D kh s K : (forall n, t <= n -> quiet n) -> apx D s -> KM kh D K -> XI s K ->
    forall n, exists D' kh', run t n {| y_c := cst D 0; y_k := kh |} = Some {| y_c := cst D' 0; y_k := kh' |} /\ apx D' s /\ KM kh' D' K.
  Proof.
    intros Q A B X n. induction n as [|n [D1 [kh1 [R [A1 B1]]]]]; [exists D, kh; auto|]. destruct (hold (t + n) D1 kh1 s K (Q (t + n) ltac:(lia)) A1 B1 X) as [D2 [kh2 [S2 [A2 B2]]]].
    exists D2, kh2. split; [|auto]. cbn [sys_run]. rewrite R. exact S2.
  Qed.

  Definition ended (y : sys) (fin : xconf) : Prop := exists D kh s K, y = {| y_c := cst D 0; y_k := kh |} /\ fin = ([], KStop, s, K) /\ apx D s /\ KM kh D K /\ XI s K.
  Definition at_bnd (y : sys) (fin : xconf) (m : nat) : Prop :=
    exists md c D i kh a L, y = {| y_c := cst D i; y_k := kh |} /\ I i c /\ i <> 0 /\ Bnd md c D kh a /\ xsteps L a fin /\ mu (if md then Ending else Plain) L c < m.
  Lemma waits_end n0 k1 d : forall t c D i kh a L fin k0 j, (forall n, t <= n -> quiet n) -> I i c -> i <> 0 -> Bnd false c D kh a -> xsteps L a fin -> final fin ->
    snd a = Busy k0 -> KB kh D k0 k1 j -> (forall n D1 i1, n0 <= n -> runs mk closed closed n k1 = Some (D1, i1) -> i1 = 0) -> n0 - j < d ->
    exists n y', run t n {| y_c := cst D i; y_k := kh |} = Some y' /\ (ended y' fin \/ at_bnd y' fin (mu Plain L c)).
  Proof.
    induction d as [|d IH]; intros t c D i kh a L fin k0 j QT IC NZ B X F EK KB0 TM LT; [lia|].
    destruct (sys_cycle t false c D i kh a L fin (QT t (le_n t)) IC NZ B X F) as [D' [i' [kh' [c' [S1 [I' [P1 P2]]]]]]].
    destruct (Nat.eq_dec i' 0) as [ ->|NZ'].
    - destruct (P2 eq_refl) as [s [K H]]. exists 1. eexists. split; [apply run_one; exact S1|]. left. exists D', kh', s, K. auto.
    - destruct (P1 NZ') as [md' [L' [a' [X' [B' P3]]]]]. destruct P3 as [P3|[W3 [ -> [ -> [ -> [_ [ -> P3]]]]]]].
      + exists 1. eexists. split; [apply run_one; exact S1|]. right. exists md', c', D', i', kh', a', L'. repeat (split; [assumption || reflexivity|]). exact P3.
      + destruct (le_lt_dec n0 j) as [Lj|Lj].
        * exfalso. destruct W3 as [? [? [? [? [_ W3]]]]]. apply W3. destruct KB0 as [_ KB0]. eapply TM; eassumption.
        * destruct (IH (S t) c D' i' kh' a L fin k0 (S j)) as [n [y' [R Y]]]; try assumption; [intros; apply QT; lia|now apply P3|lia|].
          exists (1 + n), y'. split; [|exact Y]. rewrite (run_app t 1 n _ _ (run_one _ _ _ S1)). now rewrite Nat.add_1_r.
  Qed.

  Lemma sys_main m : forall t y fin, (forall n, t <= n -> quiet n) -> final fin -> at_bnd y fin m -> exists n y', run t n y = Some y' /\ ended y' fin.
  Proof.
    induction m as [|m IH]; intros t y fin QT F [md [c [D [i [kh [a [L [ -> [IC [NZ [B [X LT]]]]]]]]]]]]; [lia|].
    assert (NEXT : forall n y', run t n {| y_c := cst D i; y_k := kh |} = Some y' -> ended y' fin \/ at_bnd y' fin (mu (if md then Ending else Plain) L c) ->
      exists n y', run t n {| y_c := cst D i; y_k := kh |} = Some y' /\ ended y' fin).
    { intros n y' R [Y|Y]; [eauto|]. destruct (IH (t + n) y' fin) as [n2 [y2 [R2 Y2]]]; [intros; apply QT; lia|exact F| |].
      - destruct Y as [md' [c' [D' [i' [kh' [a' [L' [Y1 [Y2 [Y3 [Y4 [Y5 Y6]]]]]]]]]]]]. exists md', c', D', i', kh', a', L'. repeat (split; [assumption|]). lia.
      - exists (n + n2), y2. split; [|exact Y2]. now rewrite (run_app _ _ _ _ _ R). }
    destruct (sys_cycle t md c D i kh a L fin (QT t (le_n t)) IC NZ B X F) as [D' [i' [kh' [c' [S1 [I' [P1 P2]]]]]]].
    destruct (Nat.eq_dec i' 0) as [ ->|NZ'].
    - destruct (P2 eq_refl) as [s [K H]]. eapply NEXT; [apply run_one; exact S1|]. left. exists D', kh', s, K. auto.
    - destruct (P1 NZ') as [md' [L' [a' [X' [B' P3]]]]]. destruct P3 as [P3|[W3 [ -> [ -> [ -> [ -> [ -> P3]]]]]]].
      + eapply NEXT; [apply run_one; exact S1|]. right. exists md', c', D', i', kh', a', L'. repeat (split; [assumption || reflexivity|]). exact P3.
      + (* waiting for the callee *)
        destruct a as [[[l k] s] K]. destruct W3 as [dd [rb [r [k9 [EC WZ]]]]]. pose proof B as [W0 [K0 B2]]. destruct B2 as [EE AX]. rewrite EC in EE. cbn [er] in EE. injection EE as <- <-.
        destruct K as [kk|k0]; [destruct K0 as [K0 _]; contradiction|]. destruct K0 as [k1 [j [Ek Rk]]].
        destruct (not_final _ _ _ _ _ _ _ X F) as [L2 [b2 [ -> [X1 X2]]]]. inversion X1; subst; [cbn in *; contradiction|].
        match goal with H : exec false pk _ Normal _ |- _ => destruct (proj2 (exec_ext false) _ _ _ _ H k1 Ek) as [k4 [X3 E3]] end.
        destruct (machine_exec false fk uk [] pk mk k1 k4 CPk (callee_structured w pk OKk) CVk) as [_ T]. destruct (T X3) as [n0 H0].
        destruct (waits_end n0 k1 (S (n0 - j)) t _ D i kh _ _ fin k0 j QT IC NZ B X F eq_refl) as [n [y' [R Y]]].
        * split; assumption.
        * intros n D1 i1 Hn R. rewrite H0 in R by exact Hn. congruence.
        * lia.
        * eapply NEXT; [exact R|exact Y].
  Qed.
End Sys.
