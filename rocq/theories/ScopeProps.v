(** C54, C55: names follow lexical scope, and what subroutines may access is checked. *)
From Coq Require Import String Ascii List Bool Arith Lia.
From Verif Require Import NameModel NameProofs ScopeModel ScopeProofs ScopeRun ScopeMain.
Import ListNotations.
Local Open Scope string_scope.
Local Open Scope list_scope.

(** What the code makes of an entry of the log, once everything is gathered: names are resolved at the end. *)
Definition outcome (ports : list string) (s : st) (l : log) : event :=
  match l with
  | LUse u w x b => EUse u (resolve ports s b x) (denied ports s b w x)
  | LShadow n => EShadow n
  end.
(** Names of the source: none is the name of a variable in the module of another name. *)
Definition clean (ports ls ds xs : list string) : Prop :=
  (forall q, In q ports -> ~ generated ls ds q) /\ (forall x, In x xs -> ~ generated ls ds x) /\ (forall l, In l ls -> l <> "_top").
Definition bound (ev : event) : bool := match ev with EUse _ None _ => false | _ => true end.
Definition refusals (evs : list event) : list nat := flat_map (fun ev => match ev with EUse u _ true => [u] | _ => [] end) evs.

Lemma wf_st0 : forall ports ls ds, wf ports ls ds st0.
Proof.
  intros ports ls ds. constructor.
  - apply Nat.lt_0_1.
  - split; reflexivity.
  - intros b H1 H2. change (s_n st0) with 1 in H2. lia.
  - constructor.
  - intros v [].
  - intros v [].
  - intros b H1 H2. change (s_n st0) with 1 in H2. lia.
  - intros b x H1 H2. change (s_n st0) with 1 in H1. assert (b = 0) by lia. subst b. exfalso. apply H2. reflexivity.
  - intros b v H1 H2. change (s_n st0) with 1 in H1. assert (b = 0) by lia. subst b. contradiction.
Qed.
Lemma good_st0 : forall ports, good ports st0 0 None None [].
Proof.
  intros ports. constructor.
  - apply Nat.lt_0_1.
  - reflexivity.
  - intros x. reflexivity.
  - intros x v H. discriminate H.
  - intros a v x [<-|[]] H _. contradiction.
  - intros x v H. discriminate H.
  - exact I.
Qed.

Lemma lex_decls : forall ports xs k p n e, lex ports (decls xs k) p n e =
  (let '(n1, e1, l1) := lex ports (decls xs KEnd) p n e in let '(n2, e2, l2) := lex ports k p n1 e1 in (n2, e2, l1 ++ l2)).
Proof.
  intros ports xs k p. induction xs as [|x r IH]; intros n e; cbn [decls lex].
  - destruct (lex ports k p n e) as [[n2 e2] l2]. reflexivity.
  - rewrite (IH (S n)). destruct (lex ports (decls r KEnd) p (S n) ((x, (n, true)) :: e)) as [[n1 e1] l1].
    destruct (lex ports k p n1 e1) as [[n2 e2] l2]. destruct (elook x e); reflexivity.
Qed.
Lemma gather_decls : forall ports xs brk cur s, gather ports (decls xs KEnd) brk cur s = option_map (fun s' => (cur, s')) (add_vars ports xs cur s).
Proof.
  intros ports xs brk cur. induction xs as [|x r IH]; intros s; cbn [decls gather add_vars]; [reflexivity|].
  destruct (add_var ports s cur x) as [s1|]; [|reflexivity]. cbn [obind]. apply IH.
Qed.
Lemma ord_decls : forall xs, ord (decls xs KEnd) fresh = Some fresh.
Proof. induction xs as [|x r IH]; [reflexivity|]. cbn [decls ord o_pend fresh mem existsb o_sw o_late orb]. exact IH. Qed.
Lemma names_decls : forall xs, names_of (decls xs KEnd) = [] /\ decls_of (decls xs KEnd) = xs /\ labels_of (decls xs KEnd) = [].
Proof.
  induction xs as [|x r (A & B & C)]; [repeat split|]. cbn [decls names_of decls_of labels_of]. rewrite B. repeat split; assumption.
Qed.

Lemma ok_outcome : forall ports ls ds s l ev, ScopeRun.ok ports ls ds s l ev -> outcome ports s l = ev.
Proof.
  intros ports ls ds s l ev H. destruct l as [u w x b|n]; destruct ev as [u' t d|m]; cbn [ScopeRun.ok outcome] in *; try contradiction.
  - destruct H as (-> & _ & _ & _ & _ & -> & -> & _). reflexivity.
  - congruence.
Qed.
Lemma Forall2_map_eq : forall {A B} (f : A -> B) (P : A -> B -> Prop) l m, (forall a b, P a b -> f a = b) -> Forall2 P l m -> map f l = m.
Proof. intros A B f P l m H F. induction F; [reflexivity|]. cbn [map]. rewrite IHF. f_equal. apply H. assumption. Qed.

Definition scoped (ports : list string) (s : st) (l : log) : Prop :=
  match l with LUse u w x b => in_scope ports s b x = true | LShadow _ => True end.
Lemma ok_scoped : forall ports ls ds s ws evs, Forall2 (ScopeRun.ok ports ls ds s) ws evs -> Forall (scoped ports s) ws.
Proof.
  intros ports ls ds s ws evs F. induction F as [|l ev ws evs H F IH]; constructor; [|exact IH].
  destruct l as [u w x b|n]; [|exact I]. destruct ev; [|contradiction]. cbn [ScopeRun.ok scoped] in *. tauto.
Qed.

Lemma algorithm_ok : forall ports p s, gather_algorithm ports p = Some s -> ord p fresh <> None ->
  clean ports (labels_of p) (decls_of p) (names_of p ++ decls_of p) ->
  Forall2 (ScopeRun.ok ports (labels_of p) (decls_of p) s) (s_log s) (lexical_algorithm ports p).
Proof.
  intros ports p s H Ho (C1 & C2 & C3). unfold gather_algorithm in H. unfold lexical_algorithm.
  destruct (gather ports p None 0 st0) as [[c s1]|] eqn:E1; [|discriminate]. cbn [obind] in H.
  destruct (ord p fresh) as [o'|] eqn:Eo; [|contradiction].
  destruct (lex ports p None 0 []) as [[n' e'] evs] eqn:X. cbn [snd].
  pose proof (proj1 (gather_lexical ports (labels_of p) (decls_of p) C1) p None 0 st0 c s1 None None [] fresh n' e' evs o' E1 Eo X
                (wf_st0 _ _ _) (good_st0 ports) (lst_any ports st0 0 None None [] fresh eq_refl (good_st0 ports))) as RR.
  assert (Cl : cl (labels_of p) (decls_of p) p).
  { split; [|split].
    - intros x Hx. apply C2, in_or_app. left. exact Hx.
    - intros x Hx. split; [apply C2, in_or_app; right; exact Hx|exact Hx].
    - intros l Hl. split; [exact Hl|apply C3; exact Hl]. }
  specialize (RR Cl). destruct (forward_eqv _ _ _ _ H) as (E2 & L2 & _).
  destruct (r_log _ _ _ _ _ _ _ _ _ _ _ _ _ _ _ _ RR) as (news & L & F). cbn [s_log st0 app] in L. rewrite L2, L.
  pose proof (r_wf _ _ _ _ _ _ _ _ _ _ _ _ _ _ _ _ RR) as W1.
  revert F. apply (Forall2_imp). intros l ev _ (K & _).
  exact (ok_ext ports _ _ s1 s l ev W1 (eqv_wf ports _ _ s1 s E2 W1) (eqv_ext ports _ _ s1 s E2) K).
Qed.

Lemma unit_ok : forall ports xs p s, gather_unit ports xs p = Some s -> ord p fresh <> None ->
  clean ports (labels_of p) (xs ++ decls_of p) (names_of p ++ xs ++ decls_of p) ->
  Forall2 (ScopeRun.ok ports (labels_of p) (xs ++ decls_of p) s) (s_log s) (lexical_unit ports xs p).
Proof.
  intros ports xs p s H Ho (C1 & C2 & C3). unfold gather_unit in H. unfold lexical_unit.
  set (ls := labels_of p) in *. set (ds := xs ++ decls_of p) in *.
  destruct (add_vars ports xs 0 st0) as [s1|] eqn:E1; [|discriminate]. cbn [obind] in H.
  destruct (ord p fresh) as [o'|] eqn:Eo; [|contradiction].
  rewrite lex_decls. destruct (lex ports (decls xs KEnd) None 0 []) as [[n1 e1] l1] eqn:X1.
  cbn [lex]. destruct (lex ports p None n1 e1) as [[n2 e2] l2] eqn:X2. cbn [snd]. rewrite app_nil_r.
  destruct (names_decls xs) as (D1 & D2 & D3).
  assert (Clx : cl ls ds (decls xs KEnd)).
  { split; [|split].
    - rewrite D1. intros x [].
    - rewrite D2. intros x Hx. assert (In x ds) by (apply in_or_app; left; exact Hx). split; [|assumption]. apply C2. apply in_or_app. right. assumption.
    - rewrite D3. intros l []. }
  assert (Clp : cl ls ds p).
  { split; [|split].
    - intros x Hx. apply C2, in_or_app. left. exact Hx.
    - intros x Hx. assert (In x ds) by (apply in_or_app; right; exact Hx). split; [|assumption]. apply C2. apply in_or_app. right. assumption.
    - intros l Hl. split; [exact Hl|apply C3; exact Hl]. }
  assert (E1' : gather ports (decls xs KEnd) None 0 st0 = Some (0, s1)) by (rewrite gather_decls, E1; reflexivity).
  pose proof (proj1 (gather_lexical ports ls ds C1) (decls xs KEnd) None 0 st0 0 s1 None None [] fresh n1 e1 l1 fresh E1' (ord_decls xs) X1
                (wf_st0 _ _ _) (good_st0 ports) (lst_any ports st0 0 None None [] fresh eq_refl (good_st0 ports)) Clx) as R1.
  pose proof (r_wf _ _ _ _ _ _ _ _ _ _ _ _ _ _ _ _ R1) as W1. pose proof (r_good _ _ _ _ _ _ _ _ _ _ _ _ _ _ _ _ R1) as G1.
  destruct (new s1 "" "" 0) as [nb s2] eqn:E2. destruct (gather ports p None nb s2) as [[c s3]|] eqn:E3; [|discriminate]. cbn [obind] in H.
  destruct (new s3 "" "" 0) as [nb' s4] eqn:E4.
  assert (E5 : gblock ports p None 0 s1 = Some (nb', s4)) by (unfold gblock; rewrite E2, E3; cbn [obind]; rewrite E4; reflexivity).
  rewrite (r_len _ _ _ _ _ _ _ _ _ _ _ _ _ _ _ _ R1) in X2.
  destruct (block_Q ports ls ds p None 0 s1 nb' s4 None None e1 n2 e2 l2 o' (proj1 (gather_lexical ports ls ds C1) p) E5 Eo X2 W1 G1 Clp) as (w & QQ & _).
  pose proof (q_wf _ _ _ _ _ _ _ _ _ QQ) as W4. pose proof (q_ext _ _ _ _ _ _ _ _ _ QQ) as Y4.
  destruct (forward_eqv _ _ _ _ H) as (E6 & L6 & _).
  destruct (r_log _ _ _ _ _ _ _ _ _ _ _ _ _ _ _ _ R1) as (news & L & F). cbn [s_log st0 app] in L.
  rewrite L6, (q_log _ _ _ _ _ _ _ _ _ QQ), L.
  assert (LL : forall l ev, ScopeRun.ok ports ls ds s4 l ev -> ScopeRun.ok ports ls ds s l ev).
  { intros l ev K. exact (ok_ext ports _ _ s4 s l ev W4 (eqv_wf ports _ _ s4 s E6 W4) (eqv_ext ports _ _ s4 s E6) K). }
  apply Forall2_app.
  - revert F. apply Forall2_imp. intros l ev _ (K & _). apply LL. exact (ok_ext ports _ _ s1 s4 l ev W1 W4 Y4 K).
  - pose proof (q_ok _ _ _ _ _ _ _ _ _ QQ) as F2. revert F2. apply Forall2_imp. intros l ev _ (K & _). apply LL. exact K.
Qed.

(** * C54 *)
(** Every use of a name designates the declaration that lexical scope gives, every access is judged as the permissions of the subroutine say,
    and a warning of shadowing is issued for the declarations that hide another, in the order of the source. Partial: for programs where no
    name is used before its declaration in the same run of instructions, and whose stages do not end with declarations after a switch. *)
Theorem C54_algorithm_partial : forall ports p s, gather_algorithm ports p = Some s -> ord p fresh <> None ->
  clean ports (labels_of p) (decls_of p) (names_of p ++ decls_of p) ->
  map (outcome ports s) (s_log s) = lexical_algorithm ports p.
Proof.
  intros ports p s H Ho C. exact (Forall2_map_eq _ _ _ _ (ok_outcome ports _ _ s) (algorithm_ok ports p s H Ho C)).
Qed.
Theorem C54_unit_partial : forall ports xs p s, gather_unit ports xs p = Some s -> ord p fresh <> None ->
  clean ports (labels_of p) (xs ++ decls_of p) (names_of p ++ xs ++ decls_of p) ->
  map (outcome ports s) (s_log s) = lexical_unit ports xs p.
Proof.
  intros ports xs p s H Ho C. exact (Forall2_map_eq _ _ _ _ (ok_outcome ports _ _ s) (unit_ok ports xs p s H Ho C)).
Qed.

Definition acc (ports : list string) (s : st) (numbered written : nat -> bool) (l : log) : bool :=
  match l with
  | LUse u w x b => (negb (numbered b) || in_scope ports s b x)
                    && (negb (written b) || match resolve ports s b x with Some _ => true | None => false end)
  | _ => true
  end.
Lemma accepted_bound : forall ports s evs numbered written, map (outcome ports s) (s_log s) = evs -> Forall (scoped ports s) (s_log s) ->
  (forallb bound evs = true -> accepted ports s numbered written = true) /\ accepted ports s numbered (fun _ => true) = forallb bound evs.
Proof.
  intros ports s evs numbered written <- F.
  change (accepted ports s numbered written) with (forallb (acc ports s numbered written) (s_log s)).
  change (accepted ports s numbered (fun _ => true)) with (forallb (acc ports s numbered (fun _ => true)) (s_log s)).
  induction F as [|l r H F [IH1 IH2]]; [split; reflexivity|].
  cbn [map forallb]. rewrite IH2. destruct l as [u w x b|n]; cbn [outcome bound andb acc] in *; [|split; [exact IH1|reflexivity]].
  unfold scoped in H. rewrite H, !orb_true_r. cbn [andb negb orb]. destruct (resolve ports s b x) as [t|].
  - rewrite orb_true_r. cbn [andb]. split; [exact IH1|reflexivity].
  - split; [discriminate|reflexivity].
Qed.

(** A program is accepted when all its names are bound, whichever blocks are states and whichever are written; it is accepted only then when all
    blocks are written. *)
Theorem C54_accepted_partial : forall ports p s numbered written, gather_algorithm ports p = Some s -> ord p fresh <> None ->
  clean ports (labels_of p) (decls_of p) (names_of p ++ decls_of p) ->
  (forallb bound (lexical_algorithm ports p) = true -> accepted ports s numbered written = true)
  /\ accepted ports s numbered (fun _ => true) = forallb bound (lexical_algorithm ports p).
Proof.
  intros ports p s numbered written H Ho C.
  exact (accepted_bound ports s _ numbered written (C54_algorithm_partial ports p s H Ho C) (ok_scoped _ _ _ _ _ _ (algorithm_ok ports p s H Ho C))).
Qed.
Theorem C54_unit_accepted_partial : forall ports xs p s numbered written, gather_unit ports xs p = Some s -> ord p fresh <> None ->
  clean ports (labels_of p) (xs ++ decls_of p) (names_of p ++ xs ++ decls_of p) ->
  (forallb bound (lexical_unit ports xs p) = true -> accepted ports s numbered written = true)
  /\ accepted ports s numbered (fun _ => true) = forallb bound (lexical_unit ports xs p).
Proof.
  intros ports xs p s numbered written H Ho C.
  exact (accepted_bound ports s _ numbered written (C54_unit_partial ports xs p s H Ho C) (ok_scoped _ _ _ _ _ _ (unit_ok ports xs p s H Ho C))).
Qed.

(** * C55 *)
Lemma warnings_all : forall ports s evs, map (outcome ports s) (s_log s) = evs -> warnings ports s (fun _ => true) = refusals evs.
Proof.
  intros ports s evs <-. unfold warnings, refusals. induction (s_log s) as [|l r IH]; [reflexivity|]. cbn [map flat_map]. rewrite IH. f_equal.
  destruct l as [u w x b|n]; cbn [outcome andb]; [|reflexivity]. reflexivity.
Qed.
Lemma warnings_incl : forall ports s numbered, incl (warnings ports s numbered) (warnings ports s (fun _ => true)).
Proof.
  intros ports s numbered u Hu. unfold warnings in *. apply in_flat_map in Hu. destruct Hu as (l & Hl & Hu). apply in_flat_map. exists l. split; [exact Hl|].
  destruct l as [u' w x b|n]; [|exact Hu]. destruct (numbered b); [exact Hu|contradiction].
Qed.

(** If every block were looked at, the accesses reported would be those for which no permission was given. *)
Theorem C55_reported_partial : forall ports p s, gather_algorithm ports p = Some s -> ord p fresh <> None ->
  clean ports (labels_of p) (decls_of p) (names_of p ++ decls_of p) ->
  warnings ports s (fun _ => true) = refusals (lexical_algorithm ports p).
Proof. intros ports p s H Ho C. exact (warnings_all ports s _ (C54_algorithm_partial ports p s H Ho C)). Qed.
Theorem C55_unit_reported_partial : forall ports xs p s, gather_unit ports xs p = Some s -> ord p fresh <> None ->
  clean ports (labels_of p) (xs ++ decls_of p) (names_of p ++ xs ++ decls_of p) ->
  warnings ports s (fun _ => true) = refusals (lexical_unit ports xs p).
Proof. intros ports xs p s H Ho C. exact (warnings_all ports s _ (C54_unit_partial ports xs p s H Ho C)). Qed.

(** No access that was permitted is reported, whichever blocks are states. *)
Theorem C55_no_false_report_partial : forall ports p s numbered, gather_algorithm ports p = Some s -> ord p fresh <> None ->
  clean ports (labels_of p) (decls_of p) (names_of p ++ decls_of p) ->
  incl (warnings ports s numbered) (refusals (lexical_algorithm ports p)).
Proof. intros ports p s numbered H Ho C. rewrite <- (C55_reported_partial ports p s H Ho C). apply warnings_incl. Qed.

(** An access without permission in a block that is a state is reported. *)
Theorem C55_states_partial : forall ports p s numbered u w x b, gather_algorithm ports p = Some s -> ord p fresh <> None ->
  clean ports (labels_of p) (decls_of p) (names_of p ++ decls_of p) ->
  In (LUse u w x b) (s_log s) -> numbered b = true -> NoDup (flat_map (fun l => match l with LUse u _ _ _ => [u] | _ => [] end) (s_log s)) ->
  (In u (warnings ports s numbered) <-> exists t, In (EUse u t true) (lexical_algorithm ports p)).
Proof.
  intros ports p s numbered u w x b H Ho C Hin Hn Hd. rewrite <- (C54_algorithm_partial ports p s H Ho C). unfold warnings.
  assert (Uniq : forall u' w1 x1 b1 w2 x2 b2, In (LUse u' w1 x1 b1) (s_log s) -> In (LUse u' w2 x2 b2) (s_log s) ->
            LUse u' w1 x1 b1 = LUse u' w2 x2 b2).
  { clear - Hd. revert Hd. induction (s_log s) as [|l r IH]; intros Hd u' w1 x1 b1 w2 x2 b2 H1 H2; [contradiction|].
    assert (Hr : NoDup (flat_map (fun l => match l with LUse u _ _ _ => [u] | _ => [] end) r)).
    { destruct l; cbn [flat_map app] in Hd; [|exact Hd]. inversion Hd; assumption. }
    assert (Hnot : forall w' x' b', In (LUse u' w' x' b') r -> forall w'' x'' b'', l = LUse u' w'' x'' b'' -> False).
    { intros w' x' b' Hi w'' x'' b'' ->. cbn [flat_map app] in Hd. inversion Hd as [|? ? Hno _]. apply Hno. apply in_flat_map.
      exists (LUse u' w' x' b'). split; [exact Hi|left; reflexivity]. }
    destruct H1 as [H1|H1]; destruct H2 as [H2|H2].
    - congruence.
    - exfalso. exact (Hnot _ _ _ H2 _ _ _ H1).
    - exfalso. exact (Hnot _ _ _ H1 _ _ _ H2).
    - exact (IH Hr u' w1 x1 b1 w2 x2 b2 H1 H2). }
  split.
  - intros Hw. apply in_flat_map in Hw. destruct Hw as (l & Hl & Hu). destruct l as [u' w' x' b'|n]; [|contradiction].
    destruct (numbered b' && denied ports s b' w' x') eqn:E; [|contradiction]. destruct Hu as [<-|[]]. apply andb_true_iff in E. destruct E as [_ E].
    exists (resolve ports s b' x'). apply in_map_iff. exists (LUse u' w' x' b'). split; [|exact Hl]. cbn [outcome]. rewrite E. reflexivity.
  - intros (t & Ht). apply in_map_iff in Ht. destruct Ht as (l & El & Hl). destruct l as [u' w' x' b'|n]; [|discriminate].
    cbn [outcome] in El. injection El as -> Et Ed. pose proof (Uniq _ _ _ _ _ _ _ Hl Hin) as Eq. injection Eq as -> -> ->.
    apply in_flat_map. exists (LUse u w x b). split; [exact Hin|]. rewrite Hn, Ed. left. reflexivity.
Qed.

(** * Examples *)
Definition cleanb (ls ds : list string) (x : string) : bool :=
  negb (match x with String "_" _ => true | _ => false end) && forallb (fun l => forallb (fun d => negb (String.eqb x (l ++ "_" ++ d))) ds) ls.
Lemma cleanb_ok : forall ls ds x, cleanb ls ds x = true -> ~ generated ls ds x.
Proof.
  intros ls ds x H. unfold cleanb in H. apply andb_true_iff in H. destruct H as [H1 H2]. intros [(r & ->)|(l & d & Hl & Hd & ->)]; [discriminate|].
  rewrite forallb_forall in H2. specialize (H2 l Hl). rewrite forallb_forall in H2. specialize (H2 d Hd). rewrite String.eqb_refl in H2. discriminate.
Qed.
Definition cleansb (ports ls ds xs : list string) : bool :=
  forallb (cleanb ls ds) ports && forallb (cleanb ls ds) xs && forallb (fun l => negb (String.eqb l "_top")) ls.
Lemma cleansb_ok : forall ports ls ds xs, cleansb ports ls ds xs = true -> clean ports ls ds xs.
Proof.
  intros ports ls ds xs H. unfold cleansb in H. apply andb_true_iff in H. destruct H as [H H3]. apply andb_true_iff in H. destruct H as [H1 H2].
  rewrite forallb_forall in H1, H2, H3. split; [|split].
  - intros q Hq. apply cleanb_ok, H1, Hq.
  - intros x Hx. apply cleanb_ok, H2, Hx.
  - intros l Hl. specialize (H3 l Hl). intros ->. discriminate.
Qed.

(** Variables a and b; a subroutine with read permission on a and a local variable b; then a loop, a block where a is hidden, a label, a
    pipeline whose second stage reads what the first one declares. i and o are ports. *)
Definition ex : code :=
  KDecl "a" (KDecl "b"
  (KSub "f" ["a"] ["o"] (KDecl "t" (KUse 0 false "a" (KUse 1 true "t" (KUse 2 true "o" (KUse 3 true "a" (KUse 4 false "i" KEnd))))))
  (KUse 5 false "a"
  (KWhile 6 "i" (KDecl "c" (KUse 7 true "c" (KBlock (KDecl "a" (KUse 8 true "a" KEnd)) (KUse 9 true "a" (KBreak KEnd)))))
  (KLabel "again" (KDecl "d" (KUse 10 true "d"
  (KPipe (CCons (KDecl "v" (KUse 11 true "v" KEnd)) (CCons (KUse 12 false "v" (KUse 13 true "o" KEnd)) CNil))
  (KSwitch 14 "b" (CCons (KUse 15 false "d" KEnd) (CCons (KDecl "d" (KUse 16 true "d" KEnd)) CNil)) (KGoto "again" KEnd)))))))))).

Example ex_gathered : exists s, gather_algorithm ["i"; "o"] ex = Some s /\ ord ex fresh <> None
  /\ clean ["i"; "o"] (labels_of ex) (decls_of ex) (names_of ex ++ decls_of ex)
  /\ lexical_algorithm ["i"; "o"] ex =
     [EUse 0 (Some (TVar 0)) false; EUse 1 (Some (TVar 2)) false; EUse 2 (Some (TPort "o")) false; EUse 3 (Some (TVar 0)) true;
      EUse 4 (Some (TPort "i")) true; EUse 5 (Some (TVar 0)) false; EUse 6 (Some (TPort "i")) false; EUse 7 (Some (TVar 3)) false;
      EShadow 4; EUse 8 (Some (TVar 4)) false; EUse 9 (Some (TVar 0)) false; EUse 10 (Some (TVar 5)) false; EUse 11 (Some (TVar 6)) false;
      EUse 12 (Some (TVar 6)) false; EUse 13 (Some (TPort "o")) false; EUse 14 (Some (TVar 1)) false; EUse 15 (Some (TVar 5)) false;
      EShadow 7; EUse 16 (Some (TVar 7)) false]
  /\ accepted ["i"; "o"] s (fun _ => true) (fun _ => true) = true /\ warnings ["i"; "o"] s (fun _ => true) = [3; 4].
Proof.
  destruct (gather_algorithm ["i"; "o"] ex) as [s|] eqn:E; [|vm_compute in E; discriminate]. exists s. split; [reflexivity|].
  split; [vm_compute; discriminate|]. split; [apply cleansb_ok; vm_compute; reflexivity|]. split; [vm_compute; reflexivity|].
  vm_compute in E. injection E as <-. split; vm_compute; reflexivity.
Qed.
Example ex_unit : exists s, gather_unit ["i"] ["a"] (KUse 0 true "a" (KDecl "x" (KStep (KIfElse 1 "i" (KUse 2 true "x" KEnd) (KUse 3 true "z" KEnd) KEnd)))) = Some s
  /\ lexical_unit ["i"] ["a"] (KUse 0 true "a" (KDecl "x" (KStep (KIfElse 1 "i" (KUse 2 true "x" KEnd) (KUse 3 true "z" KEnd) KEnd))))
     = [EUse 0 (Some (TVar 0)) false; EUse 1 (Some (TPort "i")) false; EUse 2 (Some (TVar 1)) false; EUse 3 None false]
  /\ ord (KUse 0 true "a" (KDecl "x" (KStep (KIfElse 1 "i" (KUse 2 true "x" KEnd) (KUse 3 true "z" KEnd) KEnd)))) fresh <> None
  /\ clean ["i"] [] ["a"; "x"] ["a"; "i"; "x"; "z"; "a"; "x"]
  /\ accepted ["i"] s (fun _ => false) (fun _ => true) = false.
Proof.
  match goal with |- context[gather_unit ?a ?b ?c] => destruct (gather_unit a b c) as [s|] eqn:E; [|vm_compute in E; discriminate] end.
  exists s. split; [reflexivity|]. split; [vm_compute; reflexivity|]. split; [vm_compute; discriminate|].
  split; [apply cleansb_ok; vm_compute; reflexivity|]. vm_compute in E. injection E as <-. vm_compute. reflexivity.
Qed.

(** * Where it does not hold *)
(** A use that comes before a declaration in the same block designates that declaration, and not the one that encloses it. *)
Theorem C54_use_before_declaration_refuted : exists p s, gather_algorithm [] p = Some s
  /\ clean [] (labels_of p) (decls_of p) (names_of p ++ decls_of p)
  /\ (forall numbered written, accepted [] s numbered written = true)
  /\ In (EUse 0 (Some (TVar 0)) false) (lexical_algorithm [] p)
  /\ exists w x b, In (LUse 0 w x b) (s_log s) /\ resolve [] s b x = Some (TVar 1).
Proof.
  exists (KDecl "a" (KBlock (KUse 0 true "a" (KDecl "a" KEnd)) KEnd)).
  destruct (gather_algorithm [] (KDecl "a" (KBlock (KUse 0 true "a" (KDecl "a" KEnd)) KEnd))) as [s|] eqn:E; [|vm_compute in E; discriminate].
  exists s. split; [reflexivity|]. split; [apply cleansb_ok; vm_compute; reflexivity|]. vm_compute in E. injection E as <-. split.
  - intros numbered written. unfold accepted. cbn [s_log forallb]. rewrite andb_true_r.
    match goal with |- ((_ || ?a) && (_ || ?b) = true)%bool => assert (Ea : a = true) by (vm_compute; reflexivity); assert (Eb : b = true) by (vm_compute; reflexivity); rewrite Ea, Eb end.
    rewrite !orb_true_r. reflexivity.
  - split; [vm_compute; left; reflexivity|]. exists true, "a", 1. split; [vm_compute; left; reflexivity|vm_compute; reflexivity].
Qed.

(** After a switch, the last block of the machine is not the current one: what the end of a stage declares is not visible in the next stage. *)
Theorem C54_stage_after_switch_refuted : exists p s, gather_algorithm ["i"] p = Some s
  /\ clean ["i"] (labels_of p) (decls_of p) (names_of p ++ decls_of p)
  /\ In (EUse 2 (Some (TVar 0)) false) (lexical_algorithm ["i"] p)
  /\ (forall numbered, accepted ["i"] s numbered (fun _ => true) = false)
  /\ exists w x b, In (LUse 2 w x b) (s_log s) /\ resolve ["i"] s b x = None.
Proof.
  exists (KPipe (CCons (KSwitch 0 "i" (CCons KEnd CNil) (KDecl "v" (KUse 1 true "v" KEnd))) (CCons (KUse 2 false "v" KEnd) CNil)) KEnd).
  match goal with |- context[gather_algorithm ?a ?b] => destruct (gather_algorithm a b) as [s|] eqn:E; [|vm_compute in E; discriminate] end.
  exists s. split; [reflexivity|]. split; [apply cleansb_ok; vm_compute; reflexivity|]. vm_compute in E. injection E as <-.
  split; [vm_compute; tauto|]. split.
  - intros numbered. unfold accepted. cbn [s_log forallb]. match goal with |- context[resolve ?a ?b ?c "v"] => idtac end.
    repeat match goal with |- context[match resolve ?a ?b ?c ?d with Some _ => true | None => false end] =>
      let r := eval vm_compute in (match resolve a b c d with Some _ => true | None => false end) in
      change (match resolve a b c d with Some _ => true | None => false end) with r end.
    cbn [negb orb]. rewrite !andb_false_r. reflexivity.
  - exists false, "v", 6. split; vm_compute; tauto.
Qed.

(** The variable of a labelled block has a name that can be written in the source: it is reached out of its scope in a block that is not a
    state. [b_may]: an upper bound of the blocks that are states. *)
Theorem C54_hidden_name_refuted : exists p s, gather_algorithm ["i"] p = Some s /\ ord p fresh <> None
  /\ (forall numbered written, (forall b, numbered b = true -> b_may (s_blk s b) = true) -> accepted ["i"] s numbered written = true)
  /\ In (EUse 2 None false) (lexical_algorithm ["i"] p)
  /\ exists w x b, In (LUse 2 w x b) (s_log s) /\ resolve ["i"] s b x = Some (TVar 0).
Proof.
  exists (KBlock (KLabel "l" (KDecl "x" (KUse 0 true "x" KEnd))) (KIf 1 "i" (KUse 2 true "l_x" KEnd) KEnd)).
  match goal with |- context[gather_algorithm ?a ?b] => destruct (gather_algorithm a b) as [s|] eqn:E; [|vm_compute in E; discriminate] end.
  exists s. split; [reflexivity|]. split; [vm_compute; discriminate|]. vm_compute in E. injection E as <-. split.
  - intros numbered written Hn. unfold accepted. cbn [s_log forallb].
    repeat match goal with |- context[match resolve ?a ?b ?c ?d with Some _ => true | None => false end] =>
      let r := eval vm_compute in (match resolve a b c d with Some _ => true | None => false end) in
      change (match resolve a b c d with Some _ => true | None => false end) with r end.
    repeat match goal with |- context[in_scope ?a ?b ?c ?d] =>
      let r := eval vm_compute in (in_scope a b c d) in change (in_scope a b c d) with r end.
    rewrite !orb_true_r. cbn [andb]. rewrite !andb_true_r, orb_false_r. apply negb_true_iff.
    match goal with |- numbered ?k = false => destruct (numbered k) eqn:En; [|reflexivity]; specialize (Hn k En); vm_compute in Hn; discriminate end.
  - split; [vm_compute; tauto|]. exists true, "l_x", 6. split; vm_compute; tauto.
Qed.

(** Only the blocks that are states are looked at: in a subroutine, what a conditional accesses without permission is not reported. *)
Theorem C55_conditional_refuted : exists p s, gather_algorithm ["i"] p = Some s /\ ord p fresh <> None
  /\ clean ["i"] (labels_of p) (decls_of p) (names_of p ++ decls_of p)
  /\ refusals (lexical_algorithm ["i"] p) = [1]
  /\ forall numbered, (forall b, numbered b = true -> b_may (s_blk s b) = true) ->
     warnings ["i"] s numbered = [] /\ forall written, accepted ["i"] s numbered written = true.
Proof.
  exists (KDecl "a" (KSub "f" ["i"] [] (KIf 0 "i" (KUse 1 true "a" KEnd) KEnd) KEnd)).
  match goal with |- context[gather_algorithm ?a ?b] => destruct (gather_algorithm a b) as [s|] eqn:E; [|vm_compute in E; discriminate] end.
  exists s. split; [reflexivity|]. split; [vm_compute; discriminate|]. split; [apply cleansb_ok; vm_compute; reflexivity|].
  vm_compute in E. injection E as <-. split; [vm_compute; reflexivity|]. intros numbered Hn. split.
  - unfold warnings. cbn [s_log flat_map].
    repeat match goal with |- context[denied ?a ?b ?c ?d ?f] =>
      let r := eval vm_compute in (denied a b c d f) in change (denied a b c d f) with r end.
    rewrite andb_false_r, andb_true_r. cbn [app].
    match goal with |- context[numbered ?k] => destruct (numbered k) eqn:En; [|reflexivity]; specialize (Hn k En); vm_compute in Hn; discriminate end.
  - intros written. unfold accepted. cbn [s_log forallb].
    repeat match goal with |- context[match resolve ?a ?b ?c ?d with Some _ => true | None => false end] =>
      let r := eval vm_compute in (match resolve a b c d with Some _ => true | None => false end) in
      change (match resolve a b c d with Some _ => true | None => false end) with r end.
    repeat match goal with |- context[in_scope ?a ?b ?c ?d] =>
      let r := eval vm_compute in (in_scope a b c d) in change (in_scope a b c d) with r end.
    rewrite !orb_true_r. reflexivity.
Qed.

Print Assumptions C54_algorithm_partial.
Print Assumptions C54_unit_partial.
Print Assumptions C54_accepted_partial.
Print Assumptions C54_unit_accepted_partial.
Print Assumptions C55_reported_partial.
Print Assumptions C55_unit_reported_partial.
Print Assumptions C55_no_false_report_partial.
Print Assumptions C55_states_partial.
Print Assumptions C54_use_before_declaration_refuted.
Print Assumptions C54_stage_after_switch_refuted.
Print Assumptions C54_hidden_name_refuted.
Print Assumptions C55_conditional_refuted.
