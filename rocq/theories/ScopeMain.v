(** The gathering of scopes follows lexical scope. *)
From Coq Require Import String Ascii List Bool Arith Lia.
From Verif Require Import NameModel NameProofs ScopeModel ScopeProofs ScopeRun.
Import ListNotations.
Local Open Scope string_scope.
Local Open Scope list_scope.

Scheme code_mut := Induction for code Sort Prop with codes_mut := Induction for codes Sort Prop.
Combined Scheme code_codes_ind from code_mut, codes_mut.

Section Main.
  Variable ports ls ds : list string.
  Notation mg := (generated ls ds).
  Hypothesis ports_clean : forall q, In q ports -> ~ mg q.
  Notation wf := (ScopeProofs.wf ports ls ds).
  Notation good := (ScopeProofs.good ports).
  Notation ext := (ScopeProofs.ext ports ls ds).
  Notation frame := (ScopeProofs.frame ports ls ds).
  Notation ok := (ScopeRun.ok ports ls ds).

  Definition lst (s : st) (c : nat) (os : option nat) (p : perms) (e : env) (o : ord_st) : Prop :=
    (o_sw o = false -> s_last s = c) /\ (o_late o = false -> good s (s_last s) os p e).

  Definition at_R (N : list string) (m c : nat) (l : log) : Prop :=
    match l with LUse u w x b => (b = c \/ m <= b) /\ In x N | LShadow _ => True end.

  Record R (N : list string) (s : st) (c : nat) (os : option nat) (p : perms) (e : env) (o : ord_st)
           (s' : st) (c' : nat) (n' : nat) (e' : env) (o' : ord_st) (evs : list event) : Prop := {
    r_wf : wf s';
    r_good : good s' c' os p e';
    r_lst : lst s' c' os p e' o';
    r_len : n' = length (s_vars s');
    r_frame : frame s s' c (o_pend o);
    r_cur : (c' = c /\ incl (o_pend o) (o_pend o')) \/ s_n s <= c';
    r_log : exists news, s_log s' = s_log s ++ news /\ Forall2 (fun l ev => ok s' l ev /\ where_ok l c' (o_pend o') /\ at_R N (s_n s) c l) news evs }.

  Lemma Forall2_imp : forall {A B} (P Q : A -> B -> Prop) l m, (forall a b, In a l -> P a b -> Q a b) -> Forall2 P l m -> Forall2 Q l m.
  Proof.
    intros A B P Q l m H F. induction F; constructor.
    - apply H; [left; reflexivity|assumption].
    - apply IHF. intros a b Ha. apply H. right. exact Ha.
  Qed.
  Lemma Forall2_left : forall {A B} (P : A -> B -> Prop) l m a, Forall2 P l m -> In a l -> exists b, P a b.
  Proof.
    intros A B P l m a F. induction F; intros Hin; [contradiction|]. destruct Hin as [<-|Hin]; [eexists; eassumption|apply IHF; exact Hin].
  Qed.

  Lemma R_comp : forall N1 N2 s c os p e o s1 c1 n1 e1 o1 ev1 s2 c2 n2 e2 o2 ev2, wf s -> c < s_n s ->
    R N1 s c os p e o s1 c1 n1 e1 o1 ev1 -> R N2 s1 c1 os p e1 o1 s2 c2 n2 e2 o2 ev2 ->
    R (N1 ++ N2) s c os p e o s2 c2 n2 e2 o2 (ev1 ++ ev2).
  Proof.
    intros N1 N2 s c os p e o s1 c1 n1 e1 o1 ev1 s2 c2 n2 e2 o2 ev2 W Hc A B.
    pose proof (f_n _ _ _ _ _ _ _ (r_frame _ _ _ _ _ _ _ _ _ _ _ _ _ A)) as Hn1. pose proof (w_0 _ _ _ _ W) as H0.
    constructor.
    - exact (r_wf _ _ _ _ _ _ _ _ _ _ _ _ _ B).
    - exact (r_good _ _ _ _ _ _ _ _ _ _ _ _ _ B).
    - exact (r_lst _ _ _ _ _ _ _ _ _ _ _ _ _ B).
    - exact (r_len _ _ _ _ _ _ _ _ _ _ _ _ _ B).
    - exact (frame_trans ports ls ds s s1 s2 c (o_pend o) c1 (o_pend o1) (r_frame _ _ _ _ _ _ _ _ _ _ _ _ _ A)
               (r_frame _ _ _ _ _ _ _ _ _ _ _ _ _ B) W Hc (r_cur _ _ _ _ _ _ _ _ _ _ _ _ _ A)).
    - destruct (r_cur _ _ _ _ _ _ _ _ _ _ _ _ _ A) as [[A1 A2]|A1]; destruct (r_cur _ _ _ _ _ _ _ _ _ _ _ _ _ B) as [[B1 B2]|B1].
      + left. split; [congruence|]. intros x Hx. apply B2, A2, Hx.
      + right. lia.
      + right. lia.
      + right. lia.
    - destruct (r_log _ _ _ _ _ _ _ _ _ _ _ _ _ A) as (w1 & L1 & F1). destruct (r_log _ _ _ _ _ _ _ _ _ _ _ _ _ B) as (w2 & L2 & F2).
      exists (w1 ++ w2). split; [rewrite L2, L1, app_assoc; reflexivity|]. apply Forall2_app.
      + revert F1. apply Forall2_imp. intros l ev _ (K1 & K2 & K3). split; [|split].
        * exact (ok_lift ports ls ds s1 s2 c1 (o_pend o1) l ev (r_wf _ _ _ _ _ _ _ _ _ _ _ _ _ A) (r_wf _ _ _ _ _ _ _ _ _ _ _ _ _ B)
                   (r_frame _ _ _ _ _ _ _ _ _ _ _ _ _ B) K1 K2).
        * destruct l as [u w x b|k]; [|exact I]. destruct ev as [u' t d|m]; [|contradiction]. cbn [where_ok ScopeRun.ok] in *.
          destruct K1 as (_ & Hb & _). destruct (r_cur _ _ _ _ _ _ _ _ _ _ _ _ _ B) as [[-> B2]|B1].
          -- destruct K2 as [K2a K2b]. split; intros Z; apply B2; auto.
          -- split; intros Z; lia.
        * destruct l as [u w x b|k]; [|exact I]. cbn [at_R] in *. destruct K3 as [K3 K4]. split; [exact K3|apply in_or_app; left; exact K4].
      + revert F2. apply Forall2_imp. intros l ev _ (K1 & K2 & K3). split; [exact K1|]. split; [exact K2|].
        destruct l as [u w x b|k]; [|exact I]. cbn [at_R] in *. destruct K3 as [K3 K4]. split; [|apply in_or_app; right; exact K4].
        destruct (r_cur _ _ _ _ _ _ _ _ _ _ _ _ _ A) as [[A1 A2]|A1]; [|right; destruct K3; lia]. destruct K3 as [K3|K3]; [left; congruence|right; lia].
  Qed.

  Lemma R_weaken : forall N N' s c os p e o s' c' n' e' o' evs, incl N N' -> R N s c os p e o s' c' n' e' o' evs -> R N' s c os p e o s' c' n' e' o' evs.
  Proof.
    intros N N' s c os p e o s' c' n' e' o' evs Hi A. destruct A as [A1 A2 A3 A4 A5 A6 (w & L & F)]. constructor; try assumption.
    exists w. split; [exact L|]. revert F. apply Forall2_imp. intros l ev _ (K1 & K2 & K3). split; [exact K1|]. split; [exact K2|].
    destruct l as [u w0 x b|k]; [|exact I]. cbn [at_R] in *. split; [tauto|apply Hi; tauto].
  Qed.

  Lemma lst_eqv : forall s s' c os p e o, wf s -> ScopeProofs.eqv s s' -> s_last s' = s_last s -> lst s c os p e o -> lst s' c os p e o.
  Proof.
    intros s s' c os p e o W E L [A B]. split; rewrite L; [exact A|]. intros H. exact (good_ext ports ls ds s s' _ os p e W (eqv_ext ports ls ds s s' E) (B H)).
  Qed.
  Lemma good_eqv : forall s s' c os p e, wf s -> ScopeProofs.eqv s s' -> good s c os p e -> good s' c os p e.
  Proof. intros s s' c os p e W E G. exact (good_ext ports ls ds s s' c os p e W (eqv_ext ports ls ds s s' E) G). Qed.

  (** A step that stays in the current block. *)
  Lemma R_eqv : forall s s' c os p e o o', wf s -> good s c os p e -> ScopeProofs.eqv s s' -> s_log s' = s_log s ->
    lst s' c os p e o' -> incl (o_pend o) (o_pend o') -> R [] s c os p e o s' c (length (s_vars s)) e o' [].
  Proof.
    intros s s' c os p e o o' W G E L H Hi. pose proof E as (N & S & V & U). constructor.
    - exact (eqv_wf ports ls ds s s' E W).
    - exact (good_eqv s s' c os p e W E G).
    - exact H.
    - rewrite V. reflexivity.
    - exact (ext_frame ports ls ds s s' c (o_pend o) (eqv_ext ports ls ds s s' E) (g_lt _ _ _ _ _ _ G)).
    - left. split; [reflexivity|exact Hi].
    - exists []. split; [rewrite L, app_nil_r; reflexivity|constructor].
  Qed.

  Lemma R_use : forall s s' c os p e o u w x, wf s -> good s c os p e -> ~ mg x -> ScopeProofs.eqv s s' -> s_log s' = s_log s ++ [LUse u w x c] ->
    s_last s' = s_last s -> lst s c os p e o ->
    R [x] s c os p e o s' c (length (s_vars s)) e {| o_pend := x :: o_pend o; o_sw := o_sw o; o_late := o_late o |} [use ports p e u w x].
  Proof.
    intros s s' c os p e o u w x W G Hx E L La Hl. pose proof E as (N & S & V & U).
    pose proof (eqv_wf ports ls ds s s' E W) as W'. pose proof (good_eqv s s' c os p e W E G) as G'. constructor.
    - exact W'.
    - exact G'.
    - destruct (lst_eqv s s' c os p e o W E La Hl) as [A B]. split; assumption.
    - rewrite V. reflexivity.
    - exact (ext_frame ports ls ds s s' c (o_pend o) (eqv_ext ports ls ds s s' E) (g_lt _ _ _ _ _ _ G)).
    - left. split; [reflexivity|]. intros y Hy. right. exact Hy.
    - exists [LUse u w x c]. split; [exact L|]. constructor; [|constructor]. split; [|split].
      + exact (use_ok ports ls ds s' c os p e u w x W' G' Hx).
      + cbn [where_ok o_pend]. split; intros _; left; reflexivity.
      + cbn [at_R]. split; [left; reflexivity|left; reflexivity].
  Qed.

  (** Runs that leave the existing blocks as they are. *)
  Definition at_Q (N : list string) (m : nat) (l : log) : Prop :=
    match l with LUse u w x b => m <= b /\ In x N | LShadow _ => True end.
  Record Q (N : list string) (s s' : st) (n' : nat) (news : list log) (evs : list event) : Prop := {
    q_wf : wf s';
    q_ext : ext s s';
    q_len : n' = length (s_vars s');
    q_log : s_log s' = s_log s ++ news;
    q_ok : Forall2 (fun l ev => ok s' l ev /\ at_Q N (s_n s) l) news evs }.

  Lemma where_out : forall s l ev m q, ok s l ev -> s_n s <= m -> 0 < s_n s -> where_ok l m q.
  Proof.
    intros s l ev m q H Hm H0. destruct l as [u w x b|k]; [|exact I]. destruct ev as [u' t d|n]; [|contradiction]. cbn [where_ok ScopeRun.ok] in *.
    destruct H as (_ & Hb & _). split; intros; lia.
  Qed.

  Lemma ok_ext : forall s s' l ev, wf s -> wf s' -> ext s s' -> ok s l ev -> ok s' l ev.
  Proof.
    intros s s' l ev W W' X H. pose proof (w_0 _ _ _ _ W) as H0.
    destruct l as [u w x b|k]; [|destruct ev; exact H]. destruct ev as [u' t d|m]; [|contradiction].
    apply (ok_lift ports ls ds s s' (if Nat.eqb b 0 then 0 else 0) [x] (LUse u w x b) (EUse u' t d) W W'); [|exact H|].
    - destruct (Nat.eqb b 0); apply (ext_frame ports ls ds s s' 0 [x] X H0).
    - cbn [where_ok]. split; intros _; left; reflexivity.
  Qed.

  Lemma Q_comp : forall N1 N2 s s1 s2 n1 n2 w1 w2 ev1 ev2, wf s -> Q N1 s s1 n1 w1 ev1 -> Q N2 s1 s2 n2 w2 ev2 ->
    Q (N1 ++ N2) s s2 n2 (w1 ++ w2) (ev1 ++ ev2).
  Proof.
    intros N1 N2 s s1 s2 n1 n2 w1 w2 ev1 ev2 W A B. destruct A as [A1 A2 A3 A4 A5]. destruct B as [B1 B2 B3 B4 B5]. constructor.
    - exact B1.
    - exact (ext_trans ports ls ds s s1 s2 A2 B2).
    - exact B3.
    - rewrite B4, A4, app_assoc. reflexivity.
    - pose proof (proj1 A2) as Hn. apply Forall2_app.
      + revert A5. apply Forall2_imp. intros l ev _ [K1 K2]. split; [exact (ok_ext s1 s2 l ev A1 B1 B2 K1)|].
        destruct l; [|exact I]. cbn [at_Q] in *. split; [tauto|apply in_or_app; left; tauto].
      + revert B5. apply Forall2_imp. intros l ev _ [K1 K2]. split; [exact K1|].
        destruct l; [|exact I]. cbn [at_Q] in *. split; [lia|apply in_or_app; right; tauto].
  Qed.

  Lemma Q_weaken : forall N N' s s' n' w evs, incl N N' -> Q N s s' n' w evs -> Q N' s s' n' w evs.
  Proof.
    intros N N' s s' n' w evs Hi [A B C D E]. constructor; try assumption. revert E. apply Forall2_imp. intros l ev _ [K1 K2]. split; [exact K1|].
    destruct l; [|exact I]. cbn [at_Q] in *. split; [tauto|apply Hi; tauto].
  Qed.

  Lemma Q_plain : forall s s', wf s' -> ext s s' -> s_log s' = s_log s -> s_vars s' = s_vars s -> Q [] s s' (length (s_vars s)) [] [].
  Proof. intros s s' W X L V. constructor; [exact W|exact X|rewrite V; reflexivity|rewrite L, app_nil_r; reflexivity|constructor]. Qed.
  Lemma Q_eqv : forall s s', wf s -> ScopeProofs.eqv s s' -> s_log s' = s_log s -> Q [] s s' (length (s_vars s)) [] [].
  Proof.
    intros s s' W E L. apply Q_plain; [exact (eqv_wf ports ls ds s s' E W)|exact (eqv_ext ports ls ds s s' E)|exact L|]. destruct E as (_ & _ & V & _). exact V.
  Qed.
  Lemma Q_new : forall s pre post c nb s1, wf s -> c < s_n s -> pre = "" \/ pre = "__while" -> new s pre post c = (nb, s1) ->
    Q [] s s1 (length (s_vars s)) [] [].
  Proof.
    intros s pre post c nb s1 W Hc Hp H. destruct (new_spec ports ls ds s pre post c nb s1 W Hc Hp H) as (_ & _ & W1 & X & _ & _ & _ & _ & _ & L & V).
    apply Q_plain; assumption.
  Qed.

  Lemma Q_R : forall N s c os p e o s' af n' o' w evs, wf s -> c < s_n s -> Q N s s' n' w evs -> good s' af os p e -> s_n s <= af ->
    (forall u k x, ~ In (LUse u k x af) w) -> lst s' af os p e o' -> R N s c os p e o s' af n' e o' evs.
  Proof.
    intros N s c os p e o s' af n' o' w evs W Hc A G Ha Hw Hl. destruct A as [A1 A2 A3 A4 A5]. pose proof (w_0 _ _ _ _ W) as H0. constructor.
    - exact A1.
    - exact G.
    - exact Hl.
    - exact A3.
    - exact (ext_frame ports ls ds s s' c (o_pend o) A2 Hc).
    - right. exact Ha.
    - exists w. split; [exact A4|]. revert A5. apply Forall2_imp. intros l ev Hin [K1 K2]. split; [exact K1|]. split.
      + destruct l as [u k x b|m]; [|exact I]. cbn [where_ok]. split; [intros ->; exfalso; exact (Hw u k x Hin)|intros Z; lia].
      + destruct l as [u k x b|m]; [|exact I]. cbn [at_R at_Q] in *. split; [right; tauto|tauto].
  Qed.

  Lemma R_Q : forall N s s1 nb os p e o s2 c2 n2 e2 o2 evs, wf s -> ext s s1 -> s_log s1 = s_log s -> s_n s <= nb ->
    R N s1 nb os p e o s2 c2 n2 e2 o2 evs -> exists w, Q N s s2 n2 w evs.
  Proof.
    intros N s s1 nb os p e o s2 c2 n2 e2 o2 evs W X L Hn A. destruct A as [A1 A2 A3 A4 A5 A6 (w & L2 & F)]. exists w. constructor.
    - exact A1.
    - exact (ext_step ports ls ds s s1 s2 nb (o_pend o) X A5 Hn W).
    - exact A4.
    - rewrite L2, L. reflexivity.
    - revert F. apply Forall2_imp. intros l ev _ (K1 & _ & K2). split; [exact K1|]. destruct l as [u k x b|m]; [|exact I]. cbn [at_R at_Q] in *.
      pose proof (proj1 X). split; [|tauto]. destruct K2 as [[K2|K2] _]; lia.
  Qed.

  Lemma Q_before : forall N s s' n' w evs u k x b, Q N s s' n' w evs -> In (LUse u k x b) w -> s_n s <= b /\ b < s_n s'.
  Proof.
    intros N s s' n' w evs u k x b A Hin. destruct (Forall2_left _ _ _ _ (q_ok _ _ _ _ _ _ A) Hin) as (ev & K1 & K2).
    cbn [at_Q] in K2. split; [tauto|]. destruct ev as [u' t d|m]; [|contradiction]. cbn [ScopeRun.ok] in K1. tauto.
  Qed.

  Definition cl (c : code) : Prop :=
    (forall x, In x (names_of c) -> ~ mg x) /\ (forall x, In x (decls_of c) -> ~ mg x /\ In x ds) /\ (forall l, In l (labels_of c) -> In l ls /\ l <> "_top").
  Definition cls (c : codes) : Prop :=
    (forall x, In x (names_ofs c) -> ~ mg x) /\ (forall x, In x (decls_ofs c) -> ~ mg x /\ In x ds) /\ (forall l, In l (labels_ofs c) -> In l ls /\ l <> "_top").

  Definition P (c : code) : Prop :=
    forall brk cur s cur' s' os p e o n' e' evs o',
      gather ports c brk cur s = Some (cur', s') -> ord c o = Some o' -> lex ports c p (length (s_vars s)) e = (n', e', evs) ->
      wf s -> good s cur os p e -> lst s cur os p e o -> cl c ->
      R (names_of c) s cur os p e o s' cur' n' e' o' evs.

  Definition Pc (cs : codes) : Prop :=
    forall brk cur s s' os p e n' evs,
      gcases ports cs brk cur s = Some s' -> ord_cases cs = true -> lex_cases ports cs p (length (s_vars s)) e = (n', evs) ->
      wf s -> good s cur os p e -> good s (s_last s) os p e -> cls cs ->
      (exists w, Q (names_ofs cs) s s' n' w evs) /\ good s' (s_last s') os p e /\ (no_case cs = true -> s' = s).

  Definition Ps (ss : codes) : Prop :=
    forall cur from s s' os p e n' evs,
      gstages ports ss cur from s = Some s' -> ord_stages ss = true -> lex_stages ports ss p (length (s_vars s)) e = (n', evs) ->
      wf s -> cur < s_n s -> b_sub (s_blk s cur) = os -> (no_case ss = false -> good s from os p e) -> cls ss ->
      exists w, Q (names_ofs ss) s s' n' w evs.

  Lemma lst_fresh : forall s c os p e q, s_last s = c -> good s c os p e -> lst s c os p e {| o_pend := q; o_sw := false; o_late := false |}.
  Proof. intros s c os p e q L G. split; [intros _; exact L|]. intros _. rewrite L. exact G. Qed.

  (** The block of a conditional, loop or case. *)
  Lemma block_Q : forall b brk cur s a s' os p e n' e' evs o', P b -> gblock ports b brk cur s = Some (a, s') -> ord b fresh = Some o' ->
    lex ports b p (length (s_vars s)) e = (n', e', evs) -> wf s -> good s cur os p e -> cl b ->
    exists w, Q (names_of b) s s' n' w evs /\ good s' a os p e /\ s_last s' = a /\ s_n s <= a /\ (forall u k x, ~ In (LUse u k x a) w).
  Proof.
    intros b brk cur s a s' os p e n' e' evs o' IH H Ho Hx W G C. unfold gblock in H.
    destruct (new s "" "" cur) as [nb s1] eqn:E1. pose proof (g_lt _ _ _ _ _ _ G) as Hc.
    destruct (new_spec ports ls ds s "" "" cur nb s1 W Hc (or_introl eq_refl) E1) as (A1 & A2 & W1 & X1 & _ & _ & _ & _ & La & Lo & V1).
    pose proof (new_good ports ls ds s "" "" cur nb s1 os p e W (or_introl eq_refl) E1 G) as G1.
    destruct (gather ports b brk nb s1) as [[c2 s2]|] eqn:E2; [|discriminate]. cbn [obind] in H.
    destruct (new s2 "" "" cur) as [a0 s0] eqn:H3. injection H as -> ->. rename H3 into H.
    rewrite <- V1 in Hx.
    pose proof (IH brk nb s1 c2 s2 os p e fresh n' e' evs o' E2 Ho Hx W1 G1 (lst_fresh s1 nb os p e [] La G1) C) as RR.
    destruct (R_Q _ s s1 nb os p e fresh s2 c2 n' e' o' evs W X1 Lo ltac:(lia) RR) as (w & QQ).
    pose proof (good_ext ports ls ds s s2 cur os p e W (q_ext _ _ _ _ _ _ QQ) G) as G2.
    destruct (new_spec ports ls ds s2 "" "" cur a s' (q_wf _ _ _ _ _ _ QQ) (g_lt _ _ _ _ _ _ G2) (or_introl eq_refl) H) as (B1 & B2 & W3 & X3 & _ & _ & _ & _ & Lb & Lc & V3).
    pose proof (new_good ports ls ds s2 "" "" cur a s' os p e (q_wf _ _ _ _ _ _ QQ) (or_introl eq_refl) H G2) as G3.
    pose proof (Q_new s2 "" "" cur a s' (q_wf _ _ _ _ _ _ QQ) (g_lt _ _ _ _ _ _ G2) (or_introl eq_refl) H) as Q3.
    exists w. split; [|split; [exact G3|split; [exact Lb|split]]].
    - pose proof (Q_comp _ _ s s2 s' n' _ w [] evs [] W QQ Q3) as QC. rewrite !app_nil_r in QC.
      rewrite <- (q_len _ _ _ _ _ _ QQ) in QC. exact QC.
    - pose proof (proj1 (q_ext _ _ _ _ _ _ QQ)). lia.
    - intros u k x Hin. destruct (Q_before _ _ _ _ _ _ u k x a QQ Hin). lia.
  Qed.

  Lemma lst_any : forall s c os p e o, s_last s = c -> good s c os p e -> lst s c os p e o.
  Proof. intros s c os p e o L G. split; intros _; [exact L|rewrite L; exact G]. Qed.

  Lemma P_cont : forall k N1 s c os p e o s1 c1 n1 e1 o1 ev1 brk c2 s2 n2 e2 o2 ev2, wf s -> c < s_n s ->
    R N1 s c os p e o s1 c1 n1 e1 o1 ev1 -> P k -> gather ports k brk c1 s1 = Some (c2, s2) -> ord k o1 = Some o2 ->
    lex ports k p n1 e1 = (n2, e2, ev2) -> cl k -> R (N1 ++ names_of k) s c os p e o s2 c2 n2 e2 o2 (ev1 ++ ev2).
  Proof.
    intros k N1 s c os p e o s1 c1 n1 e1 o1 ev1 brk c2 s2 n2 e2 o2 ev2 W Hc A IH H Ho Hx C.
    rewrite (r_len _ _ _ _ _ _ _ _ _ _ _ _ _ A) in Hx.
    apply (R_comp N1 (names_of k) s c os p e o s1 c1 n1 e1 o1 ev1 s2 c2 n2 e2 o2 ev2 W Hc A).
    exact (IH brk c1 s1 c2 s2 os p e1 o1 n2 e2 ev2 o2 H Ho Hx (r_wf _ _ _ _ _ _ _ _ _ _ _ _ _ A) (r_good _ _ _ _ _ _ _ _ _ _ _ _ _ A)
             (r_lst _ _ _ _ _ _ _ _ _ _ _ _ _ A) C).
  Qed.

  (** A new block becomes the current one. *)
  Lemma split_R : forall s s0 s1 s2 cur nb os p e o o', wf s -> good s cur os p e -> ScopeProofs.eqv s s0 -> s_log s0 = s_log s ->
    new s0 "" "" cur = (nb, s1) -> ScopeProofs.eqv s1 s2 -> s_log s2 = s_log s1 -> s_last s2 = s_last s1 ->
    R [] s cur os p e o s2 nb (length (s_vars s)) e o' [].
  Proof.
    intros s s0 s1 s2 cur nb os p e o o' W G E0 L0 E1 E2 L2 La2. pose proof (g_lt _ _ _ _ _ _ G) as Hc.
    pose proof (eqv_wf ports ls ds s s0 E0 W) as W0. pose proof (good_eqv s s0 cur os p e W E0 G) as G0.
    destruct (new_spec ports ls ds s0 "" "" cur nb s1 W0 (g_lt _ _ _ _ _ _ G0) (or_introl eq_refl) E1) as (A1 & A2 & W1 & X1 & _ & _ & _ & _ & La & Lo & V1).
    pose proof (new_good ports ls ds s0 "" "" cur nb s1 os p e W0 (or_introl eq_refl) E1 G0) as G1.
    pose proof (good_eqv s1 s2 nb os p e W1 E2 G1) as G2. destruct E0 as (N0 & S0 & V0 & U0). 
    apply (Q_R [] s cur os p e o s2 nb (length (s_vars s)) o' [] [] W Hc).
    - apply Q_plain.
      + exact (eqv_wf ports ls ds s1 s2 E2 W1).
      + apply (ext_trans ports ls ds s s1 s2); [|exact (eqv_ext ports ls ds s1 s2 E2)].
        apply (ext_trans ports ls ds s s0 s1); [|exact X1]. apply eqv_ext. repeat split; try assumption; apply S0.
      + congruence.
      + destruct E2 as (_ & _ & V2 & _). congruence.
    - exact G2.
    - lia.
    - intros u k x [].
    - apply lst_any; [congruence|exact G2].
  Qed.

  Ltac clean C := let C1 := fresh in let C2 := fresh in let C3 := fresh in
    destruct C as (C1 & C2 & C3); split; [|split]; intros ? ?; [apply C1|apply C2|apply C3];
    cbn [names_of decls_of labels_of names_ofs decls_ofs labels_ofs In]; rewrite ?in_app_iff; tauto.

  Lemma case_use : forall u w x k, P k -> P (KUse u w x k).
  Proof.
    intros u w x k IH brk cur s cur' s' os p e o n' e' evs o' H Ho Hx W G L C. cbn [gather ord lex names_of] in *.
    destruct (lex ports k p (length (s_vars s)) e) as [[n2 e2] l2] eqn:E2. injection Hx as <- <- <-.
    change (x :: names_of k) with ([x] ++ names_of k). change (use ports p e u w x :: l2) with ([use ports p e u w x] ++ l2).
    eapply (P_cont k [x] s cur os p e o _ cur (length (s_vars s)) e); [exact W|exact (g_lt _ _ _ _ _ _ G)| |exact IH|exact H|exact Ho|exact E2|clean C].
    apply R_use; [exact W|exact G| |repeat split|reflexivity|reflexivity|exact L].
    destruct C as (C1 & _). apply C1. left. reflexivity.
  Qed.

  Lemma case_decl : forall x k, P k -> P (KDecl x k).
  Proof.
    intros x k IH brk cur s cur' s' os p e o n' e' evs o' H Ho Hx W G L C. cbn [gather ord lex names_of] in *.
    destruct (add_var ports s cur x) as [s1|] eqn:E1; [|discriminate]. cbn [obind] in H.
    destruct (mem x (o_pend o)) eqn:Em; [discriminate|]. apply mem_false in Em.
    destruct (lex ports k p (S (length (s_vars s))) ((x, (length (s_vars s), true)) :: e)) as [[n2 e2] l2] eqn:E2.
    destruct C as (C1 & C2 & C3). destruct (C2 x (or_introl eq_refl)) as [Cx Cd].
    destruct (decl_spec ports ls ds ports_clean s cur os p e x s1 (o_pend o) W G E1 Cx Cd Em) as (W1 & G1 & F1 & Lo & La & Nn & Le).
    assert (R1 : R [] s cur os p e o s1 cur (S (length (s_vars s))) ((x, (length (s_vars s), true)) :: e)
                   {| o_pend := o_pend o; o_sw := o_sw o; o_late := o_late o || o_sw o |}
                   (match elook x e with Some _ => [EShadow (length (s_vars s))] | None => [] end)).
    { constructor.
      - exact W1.
      - exact G1.
      - destruct L as [L1 L2]. split; cbn [o_sw o_late]; [rewrite La; exact L1|]. intros Z. apply orb_false_iff in Z. destruct Z as [Z1 Z2].
        rewrite La, (L1 Z2). exact G1.
      - symmetry. exact Le.
      - exact F1.
      - left. split; [reflexivity|apply incl_refl].
      - eexists. split; [exact Lo|]. destruct (elook x e) as [[i own]|]; [|constructor]. constructor; [|constructor].
        split; [reflexivity|split; exact I]. }
    assert (Hev : evs = (match elook x e with Some _ => [EShadow (length (s_vars s))] | None => [] end) ++ l2 /\ n' = n2 /\ e' = e2).
    { destruct (elook x e); injection Hx as <- <- <-; repeat split. }
    destruct Hev as (-> & -> & ->).
    change (names_of k) with ([] ++ names_of k).
    apply (P_cont k [] s cur os p e o s1 cur (S (length (s_vars s))) _ _ _ brk cur' s' n2 e2 o' l2 W (g_lt _ _ _ _ _ _ G) R1 IH H Ho E2).
    split; [exact C1|]. split; [intros y Hy; apply C2; right; exact Hy|exact C3].
  Qed.

  Lemma case_block : forall b k, P b -> P k -> P (KBlock b k).
  Proof.
    intros b k IHb IH brk cur s cur' s' os p e o n' e' evs o' H Ho Hx W G L C. cbn [ord lex names_of] in *.
    change (gather ports (KBlock b k) brk cur s) with (do (a, s1) <- gblock ports b brk cur (with_pre s false); gather ports k brk a s1) in H.
    destruct (gblock ports b brk cur (with_pre s false)) as [[a s1]|] eqn:E1; [|discriminate]. cbn [obind] in H.
    destruct (ord b fresh) as [ob|] eqn:Eo; [|discriminate]. cbn [obind] in Ho.
    destruct (lex ports b p (length (s_vars s)) e) as [[n1 e1] l1] eqn:X1.
    destruct (lex ports k p n1 e) as [[n2 e2] l2] eqn:X2. injection Hx as <- <- <-.
    pose proof (eqv_pre s false) as E0. pose proof (eqv_wf ports ls ds _ _ E0 W) as W0. pose proof (good_eqv _ _ cur os p e W E0 G) as G0.
    destruct (block_Q b brk cur (with_pre s false) a s1 os p e n1 e1 l1 ob IHb E1 Eo X1 W0 G0 ltac:(clean C)) as (w & QQ & G1 & La & Hn & Hw).
    pose proof (Q_comp _ _ s _ s1 _ n1 _ _ _ _ W (Q_eqv s _ W E0 eq_refl) QQ) as Q1. cbn [app] in Q1.
    apply (P_cont k (names_of b) s cur os p e o s1 a n1 e fresh l1 brk cur' s' n2 e2 o' l2 W (g_lt _ _ _ _ _ _ G)); try assumption; [|clean C].
    apply (Q_R _ s cur os p e o s1 a n1 fresh w l1 W (g_lt _ _ _ _ _ _ G) Q1 G1 Hn Hw). apply lst_any; assumption.
  Qed.

  Lemma case_if : forall u x b k, P b -> P k -> P (KIf u x b k).
  Proof.
    intros u x b k IHb IH brk cur s cur' s' os p e o n' e' evs o' H Ho Hx W G L C. cbn [ord lex names_of] in *.
    change (gather ports (KIf u x b k) brk cur s) with
      (let s0 := say (with_pre s false) (LUse u false x cur) in
       let (ib, s1) := new s0 "" "" cur in
       let (eb, s2) := new s1 "" "" cur in
       do (_, s3) <- gblock ports b brk ib s2;
       let (af, s4) := new s3 "" "" cur in
       gather ports k brk af (set_may s4 af)) in H. cbv zeta in H.
    set (s0 := say (with_pre s false) (LUse u false x cur)) in *.
    destruct (new s0 "" "" cur) as [ib s1] eqn:E1. destruct (new s1 "" "" cur) as [eb s2] eqn:E2.
    destruct (gblock ports b brk ib s2) as [[a s3]|] eqn:E3; [|discriminate]. cbn [obind] in H.
    destruct (new s3 "" "" cur) as [af s4] eqn:E4.
    destruct (ord b fresh) as [ob|] eqn:Eo; [|discriminate]. cbn [obind] in Ho.
    destruct (lex ports b p (length (s_vars s)) e) as [[n1 e1] l1] eqn:X1.
    destruct (lex ports k p n1 e) as [[n2 e2] l2] eqn:X2. injection Hx as <- <- <-.
    assert (Hm : ~ mg x) by (destruct C as (C1 & _); apply C1; left; reflexivity).
    assert (E0 : ScopeProofs.eqv s s0) by (repeat split). pose proof (eqv_wf ports ls ds _ _ E0 W) as W0. pose proof (good_eqv _ _ cur os p e W E0 G) as G0.
    pose proof (g_lt _ _ _ _ _ _ G0) as Hc0.
    destruct (new_spec ports ls ds s0 "" "" cur ib s1 W0 Hc0 (or_introl eq_refl) E1) as (A1 & A2 & W1 & Y1 & _ & _ & _ & _ & La1 & Lo1 & V1).
    pose proof (new_good ports ls ds s0 "" "" cur ib s1 os p e W0 (or_introl eq_refl) E1 G0) as G1.
    pose proof (good_ext ports ls ds s0 s1 cur os p e W0 Y1 G0) as G1c.
    destruct (new_spec ports ls ds s1 "" "" cur eb s2 W1 (g_lt _ _ _ _ _ _ G1c) (or_introl eq_refl) E2) as (B1 & B2 & W2 & Y2 & _ & _ & _ & _ & La2 & Lo2 & V2).
    pose proof (good_ext ports ls ds s1 s2 ib os p e W1 Y2 G1) as G2.
    pose proof (good_ext ports ls ds s1 s2 cur os p e W1 Y2 G1c) as G2c.
    assert (X1' : lex ports b p (length (s_vars s2)) e = (n1, e1, l1)) by (rewrite V2, V1; exact X1).
    destruct (block_Q b brk ib s2 a s3 os p e n1 e1 l1 ob IHb E3 Eo X1' W2 G2 ltac:(clean C)) as (w & Q3 & G3 & La3 & Hn3 & Hw3).
    pose proof (q_wf _ _ _ _ _ _ Q3) as W3.
    pose proof (good_ext ports ls ds s2 s3 cur os p e W2 (q_ext _ _ _ _ _ _ Q3) G2c) as G3c.
    destruct (new_spec ports ls ds s3 "" "" cur af s4 W3 (g_lt _ _ _ _ _ _ G3c) (or_introl eq_refl) E4) as (D1 & D2 & W4 & Y4 & _ & _ & _ & _ & La4 & Lo4 & V4).
    pose proof (new_good ports ls ds s3 "" "" cur af s4 os p e W3 (or_introl eq_refl) E4 G3c) as G4.
    pose proof (eqv_may s4 af) as E5. pose proof (good_eqv _ _ af os p e W4 E5 G4) as G5.
    (* from s0 to the block after *)
    assert (QQ : Q (names_of b) s0 (set_may s4 af) n1 w l1).
    { pose proof (Q_comp _ _ s0 s1 s2 _ _ _ _ _ _ W0 (Q_new s0 "" "" cur ib s1 W0 Hc0 (or_introl eq_refl) E1)
                    (Q_new s1 "" "" cur eb s2 W1 (g_lt _ _ _ _ _ _ G1c) (or_introl eq_refl) E2)) as Qa.
      pose proof (Q_comp _ _ s0 s2 s3 _ _ _ _ _ _ W0 Qa Q3) as Qb.
      pose proof (Q_comp _ _ s0 s3 s4 _ _ _ _ _ _ W0 Qb (Q_new s3 "" "" cur af s4 W3 (g_lt _ _ _ _ _ _ G3c) (or_introl eq_refl) E4)) as Qc.
      pose proof (Q_comp _ _ s0 s4 _ _ _ _ _ _ _ W0 Qc (Q_eqv s4 _ W4 E5 eq_refl)) as Qd.
      cbn [app] in Qd. rewrite !app_nil_r in Qd.
      rewrite V4, <- (q_len _ _ _ _ _ _ Q3) in Qd. exact Qd. }
    assert (Ra : R (names_of b) s0 cur os p e {| o_pend := x :: o_pend o; o_sw := o_sw o; o_late := o_late o |} (set_may s4 af) af n1 e fresh l1).
    { apply (Q_R _ s0 cur os p e _ _ af n1 fresh w l1 W0 Hc0 QQ G5).
      - pose proof (proj1 (q_ext _ _ _ _ _ _ Q3)). lia.
      - intros u' k' x' Hin. destruct (Q_before _ _ _ _ _ _ u' k' x' af Q3 Hin). lia.
      - apply lst_any; [exact La4|exact G5]. }
    pose proof (R_use s s0 cur os p e o u false x W G Hm E0 eq_refl eq_refl L) as Ru.
    pose proof (R_comp _ _ s cur os p e o s0 cur _ e _ _ _ af n1 e fresh l1 W (g_lt _ _ _ _ _ _ G) Ru Ra) as Rb.
    pose proof (P_cont k _ s cur os p e o _ af n1 e fresh _ brk cur' s' n2 e2 o' l2 W (g_lt _ _ _ _ _ _ G) Rb IH H Ho X2 ltac:(clean C)) as Rc.
    rewrite <- !app_assoc in Rc. exact Rc.
  Qed.

  Lemma new_step : forall s pre post c nb s1 os p e, wf s -> good s c os p e -> pre = "" \/ pre = "__while" -> new s pre post c = (nb, s1) ->
    nb = s_n s /\ s_n s1 = S (s_n s) /\ wf s1 /\ ext s s1 /\ good s1 nb os p e /\ good s1 c os p e /\ s_last s1 = nb /\ s_log s1 = s_log s
    /\ s_vars s1 = s_vars s /\ Q [] s s1 (length (s_vars s)) [] [].
  Proof.
    intros s pre post c nb s1 os p e W G Hp H. pose proof (g_lt _ _ _ _ _ _ G) as Hc.
    destruct (new_spec ports ls ds s pre post c nb s1 W Hc Hp H) as (A & B & C & D & _ & _ & _ & _ & La & Lo & V).
    split; [exact A|]. split; [exact B|]. split; [exact C|]. split; [exact D|].
    split; [exact (new_good ports ls ds s pre post c nb s1 os p e W Hp H G)|]. split; [exact (good_ext ports ls ds s s1 c os p e W D G)|].
    split; [exact La|]. split; [exact Lo|]. split; [exact V|]. exact (Q_new s pre post c nb s1 W Hc Hp H).
  Qed.

  Lemma case_ifelse : forall u x b1 b2 k, P b1 -> P b2 -> P k -> P (KIfElse u x b1 b2 k).
  Proof.
    intros u x b b2 k IHb IHb2 IH brk cur s cur' s' os p e o n' e' evs o' H Ho Hx W G L C. cbn [ord lex names_of] in *.
    change (gather ports (KIfElse u x b b2 k) brk cur s) with
      (let s0 := say (with_pre s false) (LUse u false x cur) in
       let (ib, s1) := new s0 "" "" cur in
       let (eb, s2) := new s1 "" "" cur in
       do (_, s3) <- gblock ports b brk ib s2;
       do (_, s4) <- gblock ports b2 brk eb s3;
       let (af, s5) := new s4 "" "" cur in
       gather ports k brk af (set_may s5 af)) in H. cbv zeta in H.
    set (s0 := say (with_pre s false) (LUse u false x cur)) in *.
    destruct (new s0 "" "" cur) as [ib s1] eqn:E1. destruct (new s1 "" "" cur) as [eb s2] eqn:E2.
    destruct (gblock ports b brk ib s2) as [[a s3]|] eqn:E3; [|discriminate]. cbn [obind] in H.
    destruct (gblock ports b2 brk eb s3) as [[a' s4]|] eqn:E4; [|discriminate]. cbn [obind] in H.
    destruct (new s4 "" "" cur) as [af s5] eqn:E5.
    destruct (ord b fresh) as [ob|] eqn:Eo; [|discriminate]. cbn [obind] in Ho.
    destruct (ord b2 fresh) as [ob2|] eqn:Eo2; [|discriminate]. cbn [obind] in Ho.
    destruct (lex ports b p (length (s_vars s)) e) as [[n1 e1] l1] eqn:X1.
    destruct (lex ports b2 p n1 e) as [[n2 e2] l2] eqn:X2.
    destruct (lex ports k p n2 e) as [[n3 e3] l3] eqn:X3. injection Hx as <- <- <-.
    assert (Hm : ~ mg x) by (destruct C as (C1 & _); apply C1; left; reflexivity).
    assert (E0 : ScopeProofs.eqv s s0) by (repeat split). pose proof (eqv_wf ports ls ds _ _ E0 W) as W0. pose proof (good_eqv _ _ cur os p e W E0 G) as G0.
    pose proof (g_lt _ _ _ _ _ _ G0) as Hc0.
    destruct (new_step s0 "" "" cur ib s1 os p e W0 G0 (or_introl eq_refl) E1) as (A1 & A2 & W1 & Y1 & G1 & G1c & _ & _ & V1 & Q1).
    destruct (new_step s1 "" "" cur eb s2 os p e W1 G1c (or_introl eq_refl) E2) as (B1 & B2 & W2 & Y2 & G2 & G2c & _ & _ & V2 & Q2).
    pose proof (good_ext ports ls ds s1 s2 ib os p e W1 Y2 G1) as G2i.
    assert (X1' : lex ports b p (length (s_vars s2)) e = (n1, e1, l1)) by (rewrite V2, V1; exact X1).
    destruct (block_Q b brk ib s2 a s3 os p e n1 e1 l1 ob IHb E3 Eo X1' W2 G2i ltac:(clean C)) as (w & Q3 & _ & _ & Hn3 & Hw3).
    pose proof (q_wf _ _ _ _ _ _ Q3) as W3. pose proof (q_ext _ _ _ _ _ _ Q3) as Y3.
    pose proof (good_ext ports ls ds s2 s3 cur os p e W2 Y3 G2c) as G3c. pose proof (good_ext ports ls ds s2 s3 eb os p e W2 Y3 G2) as G3.
    assert (X2' : lex ports b2 p (length (s_vars s3)) e = (n2, e2, l2)) by (rewrite <- (q_len _ _ _ _ _ _ Q3); exact X2).
    destruct (block_Q b2 brk eb s3 a' s4 os p e n2 e2 l2 ob2 IHb2 E4 Eo2 X2' W3 G3 ltac:(clean C)) as (w2 & Q4 & _ & _ & Hn4 & Hw4).
    pose proof (q_wf _ _ _ _ _ _ Q4) as W4. pose proof (q_ext _ _ _ _ _ _ Q4) as Y4.
    pose proof (good_ext ports ls ds s3 s4 cur os p e W3 Y4 G3c) as G4c.
    destruct (new_step s4 "" "" cur af s5 os p e W4 G4c (or_introl eq_refl) E5) as (D1 & D2 & W5 & Y5 & G5 & _ & La5 & _ & V5 & Q5).
    pose proof (eqv_may s5 af) as E6. pose proof (good_eqv _ _ af os p e W5 E6 G5) as G6.
    assert (QQ : Q (names_of b ++ names_of b2) s0 (set_may s5 af) n2 (w ++ w2) (l1 ++ l2)).
    { pose proof (Q_comp _ _ s0 s1 s2 _ _ _ _ _ _ W0 Q1 Q2) as Qa.
      pose proof (Q_comp _ _ s0 s2 s3 _ _ _ _ _ _ W0 Qa Q3) as Qb.
      pose proof (Q_comp _ _ s0 s3 s4 _ _ _ _ _ _ W0 Qb Q4) as Qb2.
      pose proof (Q_comp _ _ s0 s4 s5 _ _ _ _ _ _ W0 Qb2 Q5) as Qc.
      pose proof (Q_comp _ _ s0 s5 _ _ _ _ _ _ _ W0 Qc (Q_eqv s5 _ W5 E6 eq_refl)) as Qd.
      cbn [app] in Qd. rewrite !app_nil_r in Qd.
      rewrite V5, <- (q_len _ _ _ _ _ _ Q4) in Qd. exact Qd. }
    assert (Ra : R (names_of b ++ names_of b2) s0 cur os p e {| o_pend := x :: o_pend o; o_sw := o_sw o; o_late := o_late o |} (set_may s5 af) af n2 e fresh (l1 ++ l2)).
    { apply (Q_R _ s0 cur os p e _ _ af n2 fresh (w ++ w2) (l1 ++ l2) W0 Hc0 QQ G6).
      - pose proof (proj1 Y3). pose proof (proj1 Y4). lia.
      - intros u' k' x' Hin. apply in_app_or in Hin. destruct Hin as [Hin|Hin];
          [destruct (Q_before _ _ _ _ _ _ u' k' x' af Q3 Hin); pose proof (proj1 Y4)|destruct (Q_before _ _ _ _ _ _ u' k' x' af Q4 Hin)]; lia.
      - apply lst_any; [exact La5|exact G6]. }
    pose proof (R_use s s0 cur os p e o u false x W G Hm E0 eq_refl eq_refl L) as Ru.
    pose proof (R_comp _ _ s cur os p e o s0 cur _ e _ _ _ af n2 e fresh _ W (g_lt _ _ _ _ _ _ G) Ru Ra) as Rb.
    pose proof (P_cont k _ s cur os p e o _ af n2 e fresh _ brk cur' s' n3 e3 o' l3 W (g_lt _ _ _ _ _ _ G) Rb IH H Ho X3 ltac:(clean C)) as Rc.
    rewrite <- !app_assoc in Rc. exact Rc.
  Qed.

  Lemma Q_say : forall s s' b os p e u w x, wf s -> good s b os p e -> ~ mg x -> ScopeProofs.eqv s s' -> s_log s' = s_log s ++ [LUse u w x b] ->
    forall s0, s_n s0 <= b -> ext s0 s -> s_log s = s_log s0 -> Q [x] s0 s' (length (s_vars s)) [LUse u w x b] [use ports p e u w x].
  Proof.
    intros s s' b os p e u w x W G Hm E L s0 Hb X0 L0. pose proof (eqv_wf ports ls ds s s' E W) as W'. constructor.
    - exact W'.
    - exact (ext_trans ports ls ds s0 s s' X0 (eqv_ext ports ls ds s s' E)).
    - destruct E as (_ & _ & V & _). rewrite V. reflexivity.
    - congruence.
    - constructor; [|constructor]. split; [exact (use_ok ports ls ds s' b os p e u w x W' (good_eqv s s' b os p e W E G) Hm)|].
      split; [exact Hb|left; reflexivity].
  Qed.

  Lemma case_while : forall u x b k, P b -> P k -> P (KWhile u x b k).
  Proof.
    intros u x b k IHb IH brk cur s cur' s' os p e o n' e' evs o' H Ho Hx W G L C. cbn [ord lex names_of] in *.
    change (gather ports (KWhile u x b k) brk cur s) with
      (let (h, s1) := new (with_pre s false) "__while" "" cur in
       let s2 := say (set_may s1 h) (LUse u false x h) in
       let (it, s3) := new s2 "" "" cur in
       let (af, s4) := new s3 "" "" cur in
       do (_, s5) <- gblock ports b (Some af) it s4;
       gather ports k brk af (with_fsm s5 af (s_lbl s5) (s_fwd s5))) in H. 
    destruct (new (with_pre s false) "__while" "" cur) as [h s1] eqn:E1. cbv zeta in H.
    set (s2 := say (set_may s1 h) (LUse u false x h)) in *.
    destruct (new s2 "" "" cur) as [it s3] eqn:E3. destruct (new s3 "" "" cur) as [af s4] eqn:E4.
    destruct (gblock ports b (Some af) it s4) as [[a s5]|] eqn:E5; [|discriminate]. cbn [obind] in H.
    destruct (ord b fresh) as [ob|] eqn:Eo; [|discriminate]. cbn [obind] in Ho.
    destruct (lex ports b p (length (s_vars s)) e) as [[n1 e1] l1] eqn:X1.
    destruct (lex ports k p n1 e) as [[n2 e2] l2] eqn:X2. injection Hx as <- <- <-.
    assert (Hm : ~ mg x) by (destruct C as (C1 & _); apply C1; left; reflexivity).
    pose proof (eqv_pre s false) as E0. pose proof (eqv_wf ports ls ds _ _ E0 W) as W0. pose proof (good_eqv _ _ cur os p e W E0 G) as G0.
    pose proof (g_lt _ _ _ _ _ _ G) as Hc.
    destruct (new_step _ "__while" "" cur h s1 os p e W0 G0 (or_intror eq_refl) E1) as (A1 & A2 & W1 & Y1 & G1 & G1c & _ & Lo1 & V1 & _).
    assert (E2 : ScopeProofs.eqv s1 s2) by (exact (eqv_trans _ _ _ (eqv_may s1 h) (eqv_say (set_may s1 h) (LUse u false x h)))).
    assert (Q2 : Q [x] s s2 (length (s_vars s1)) [LUse u false x h] [use ports p e u false x]).
    { apply (Q_say s1 s2 h os p e u false x W1 G1 Hm E2); [reflexivity|rewrite A1; apply Nat.le_refl|exact Y1|exact Lo1]. }
    pose proof (q_wf _ _ _ _ _ _ Q2) as W2. pose proof (good_eqv _ _ cur os p e W1 E2 G1c) as G2c.
    pose proof (proj1 E2) as N2.
    destruct (new_step s2 "" "" cur it s3 os p e W2 G2c (or_introl eq_refl) E3) as (B1 & B2 & W3 & Y3 & G3 & G3c & _ & _ & V3 & Q3).
    destruct (new_step s3 "" "" cur af s4 os p e W3 G3c (or_introl eq_refl) E4) as (D1 & D2 & W4 & Y4 & G4 & G4c & _ & _ & V4 & Q4).
    pose proof (good_ext ports ls ds s3 s4 it os p e W3 Y4 G3) as G4i.
    assert (V2 : s_vars s2 = s_vars s1) by (destruct E2 as (_ & _ & V & _); exact V).
    assert (X1' : lex ports b p (length (s_vars s4)) e = (n1, e1, l1)) by (rewrite V4, V3, V2, V1; exact X1).
    destruct (block_Q b (Some af) it s4 a s5 os p e n1 e1 l1 ob IHb E5 Eo X1' W4 G4i ltac:(clean C)) as (w & Q5 & _ & _ & Hn5 & Hw5).
    pose proof (q_wf _ _ _ _ _ _ Q5) as W5. pose proof (q_ext _ _ _ _ _ _ Q5) as Y5.
    pose proof (good_ext ports ls ds s4 s5 af os p e W4 Y5 G4) as G5.
    pose proof (eqv_fsm s5 af (s_lbl s5) (s_fwd s5)) as E6. pose proof (good_eqv _ _ af os p e W5 E6 G5) as G6.
    assert (QQ : Q ([x] ++ names_of b) s (with_fsm s5 af (s_lbl s5) (s_fwd s5)) n1 ([LUse u false x h] ++ w) ([use ports p e u false x] ++ l1)).
    { pose proof (Q_comp _ _ s s2 s3 _ _ _ _ _ _ W Q2 Q3) as Qa.
      pose proof (Q_comp _ _ s s3 s4 _ _ _ _ _ _ W Qa Q4) as Qb.
      pose proof (Q_comp _ _ s s4 s5 _ _ _ _ _ _ W Qb Q5) as Qc.
      pose proof (Q_comp _ _ s s5 _ _ _ _ _ _ _ W Qc (Q_eqv s5 _ W5 E6 eq_refl)) as Qd.
      rewrite !app_nil_r in Qd. rewrite <- (q_len _ _ _ _ _ _ Q5) in Qd. exact Qd. }
    change (s_n (with_pre s false)) with (s_n s) in *.
    assert (Ra : R ([x] ++ names_of b) s cur os p e o (with_fsm s5 af (s_lbl s5) (s_fwd s5)) af n1 e fresh ([use ports p e u false x] ++ l1)).
    { apply (Q_R _ s cur os p e _ _ af n1 fresh _ _ W Hc QQ G6).
      - lia.
      - intros u' k' x' Hin. apply in_app_or in Hin. destruct Hin as [[Hin|[]]|Hin]; [injection Hin as _ _ _ Hin; lia|].
        destruct (Q_before _ _ _ _ _ _ u' k' x' af Q5 Hin). lia.
      - apply lst_any; [reflexivity|exact G6]. }
    pose proof (P_cont k _ s cur os p e o _ af n1 e fresh _ brk cur' s' n2 e2 o' l2 W Hc Ra IH H Ho X2 ltac:(clean C)) as Rc.
    rewrite <- !app_assoc in Rc. exact Rc.
  Qed.

  Lemma case_split : forall k N1 s0 s1 s2 brk nb cur s cur' s' os p e o n' e' evs o' o1, P k -> cl k -> wf s -> good s cur os p e ->
    ScopeProofs.eqv s s0 -> s_log s0 = s_log s -> new s0 "" "" cur = (nb, s1) -> ScopeProofs.eqv s1 s2 -> s_log s2 = s_log s1 -> s_last s2 = s_last s1 ->
    gather ports k brk nb s2 = Some (cur', s') -> ord k o1 = Some o' -> lex ports k p (length (s_vars s)) e = (n', e', evs) -> N1 = names_of k ->
    R N1 s cur os p e o s' cur' n' e' o' evs.
  Proof.
    intros k N1 s0 s1 s2 brk nb cur s cur' s' os p e o n' e' evs o' o1 IH C W G E0 L0 E1 E2 L2 La H Ho Hx ->.
    pose proof (split_R s s0 s1 s2 cur nb os p e o o1 W G E0 L0 E1 E2 L2 La) as Ra.
    exact (P_cont k [] s cur os p e o s2 nb _ e o1 [] brk cur' s' n' e' o' evs W (g_lt _ _ _ _ _ _ G) Ra IH H Ho Hx C).
  Qed.

  Lemma case_step : forall k, P k -> P (KStep k).
  Proof.
    intros k IH brk cur s cur' s' os p e o n' e' evs o' H Ho Hx W G L C. cbn [gather ord lex names_of] in *.
    destruct (new (with_pre s false) "" "" cur) as [nb s1] eqn:E1.
    exact (case_split k _ _ s1 (set_may s1 nb) brk nb cur s cur' s' os p e o n' e' evs o' fresh IH C W G (eqv_pre s false) eq_refl E1
             (eqv_may s1 nb) eq_refl eq_refl H Ho Hx eq_refl).
  Qed.
  Lemma case_break : forall k, P k -> P (KBreak k).
  Proof.
    intros k IH brk cur s cur' s' os p e o n' e' evs o' H Ho Hx W G L C. cbn [gather ord lex names_of] in *.
    destruct brk as [t|]; [|discriminate]. destruct (new (set_may (with_pre s false) t) "" "" cur) as [nb s1] eqn:E1.
    exact (case_split k _ _ s1 s1 (Some t) nb cur s cur' s' os p e o n' e' evs o' fresh IH C W G
             (eqv_trans _ _ _ (eqv_pre s false) (eqv_may (with_pre s false) t)) eq_refl E1 (eqv_refl s1) eq_refl eq_refl H Ho Hx eq_refl).
  Qed.
  Lemma case_goto : forall l k, P k -> P (KGoto l k).
  Proof.
    intros l k IH brk cur s cur' s' os p e o n' e' evs o' H Ho Hx W G L C. cbn [gather ord lex names_of] in *. cbv zeta in H.
    destruct (sassoc l (s_lbl (with_pre s false))) as [b|].
    - destruct (new (set_may (with_pre s false) b) "" "" cur) as [nb s1] eqn:E1.
      exact (case_split k _ _ s1 s1 brk nb cur s cur' s' os p e o n' e' evs o' fresh IH C W G
             (eqv_trans _ _ _ (eqv_pre s false) (eqv_may (with_pre s false) b)) eq_refl E1 (eqv_refl s1) eq_refl eq_refl H Ho Hx eq_refl).
    - destruct (new _ "" "" cur) as [nb s1] eqn:E1 in H.
      exact (case_split k _ _ s1 s1 brk nb cur s cur' s' os p e o n' e' evs o' fresh IH C W G
             (eqv_trans _ _ _ (eqv_pre s false) (eqv_fsm (with_pre s false) _ _ _)) eq_refl E1 (eqv_refl s1) eq_refl eq_refl H Ho Hx eq_refl).
  Qed.
  Lemma case_return : forall k, P k -> P (KReturn k).
  Proof.
    intros k IH brk cur s cur' s' os p e o n' e' evs o' H Ho Hx W G L C. cbn [gather ord lex names_of] in *. cbv zeta in H.
    destruct (b_sub (s_blk (with_pre s false) cur)) as [i|].
    - destruct (new (with_pre s false) "" "" cur) as [nb s1] eqn:E1.
      exact (case_split k _ _ s1 (set_may s1 cur) brk nb cur s cur' s' os p e o n' e' evs o' _ IH C W G (eqv_pre s false) eq_refl E1
             (eqv_may s1 cur) eq_refl eq_refl H Ho Hx eq_refl).
    - assert (Ra : R [] s cur os p e o (with_pre s false) cur (length (s_vars s)) e {| o_pend := o_pend o; o_sw := true; o_late := o_late o |} []).
      { apply R_eqv; [exact W|exact G|apply eqv_pre|reflexivity| |apply incl_refl].
        destruct (lst_eqv s _ cur os p e o W (eqv_pre s false) eq_refl L) as [L1 L2]. split; [discriminate|exact L2]. }
      exact (P_cont k [] s cur os p e o _ cur _ e _ [] brk cur' s' n' e' o' evs W (g_lt _ _ _ _ _ _ G) Ra IH H Ho Hx C).
  Qed.
  Lemma case_label : forall l k, P k -> P (KLabel l k).
  Proof.
    intros l k IH brk cur s cur' s' os p e o n' e' evs o' H Ho Hx W G L C. cbn [gather ord lex names_of] in *. pose proof C as C0.
    destruct (sassoc l (s_lbl s)); [discriminate|]. destruct (add (with_pre s false) l cur) as [nb s1] eqn:E1. unfold add in E1.
    destruct C0 as (_ & _ & C3). destruct (C3 l (or_introl eq_refl)) as [Hl Ht].
    pose proof (eqv_pre s false) as E0. pose proof (eqv_wf ports ls ds _ _ E0 W) as W0. pose proof (good_eqv _ _ cur os p e W E0 G) as G0.
    pose proof (g_lt _ _ _ _ _ _ G) as Hc.
    destruct (add_spec ports ls ds _ l cur _ nb s1 W0 (g_lt _ _ _ _ _ _ G0) E1 Ht (or_intror Hl)) as (A & B & W1 & X1 & Pa & Re & De & Su & La & Lo & V).
    assert (G1 : good s1 nb os p e).
    { apply (good_child ports ls ds s1 cur nb os p e W1 (good_ext ports ls ds _ s1 cur os p e W0 X1 G0)); try assumption.
      - lia.
      - rewrite A. exact Hc.
      - rewrite Su. exact (g_sub _ _ _ _ _ _ G0). }
    pose proof (eqv_fsm s1 (s_last s1) ((l, nb) :: s_lbl s1) (s_fwd s1)) as E2. pose proof (good_eqv _ _ nb os p e W1 E2 G1) as G2.
    assert (Ra : R [] s cur os p e o (with_fsm s1 (s_last s1) ((l, nb) :: s_lbl s1) (s_fwd s1)) nb (length (s_vars s)) e fresh []).
    { apply (Q_R [] s cur os p e o _ nb _ fresh [] [] W Hc).
      - apply Q_plain; [exact (eqv_wf ports ls ds _ _ E2 W1)|exact (ext_trans ports ls ds s s1 _ X1 (eqv_ext ports ls ds _ _ E2))|exact Lo|exact V].
      - exact G2.
      - rewrite A. apply Nat.le_refl.
      - intros ? ? ? [].
      - apply lst_any; [exact La|exact G2]. }
    exact (P_cont k [] s cur os p e o _ nb _ e fresh [] brk cur' s' n' e' o' evs W Hc Ra IH H Ho Hx ltac:(clean C)).
  Qed.

  Lemma case_end : P KEnd.
  Proof.
    intros brk cur s cur' s' os p e o n' e' evs o' H Ho Hx W G L C. cbn [gather ord lex names_of] in *.
    injection H as <- <-. injection Ho as <-. injection Hx as <- <- <-.
    apply R_eqv; [exact W|exact G|apply eqv_refl|reflexivity|exact L|apply incl_refl].
  Qed.

  Lemma rep_R : forall b, P b -> cl b -> forall n brk cur s a s' os p e o n' e' evs o', rep_gather ports b brk n cur s = Some (a, s') ->
    rep_ord b n o = Some o' -> rep_lex ports b p n (length (s_vars s)) e = (n', e', evs) -> wf s -> good s cur os p e -> lst s cur os p e o ->
    R (names_of b) s cur os p e o s' a n' e' o' evs.
  Proof.
    intros b IH C n. induction n as [|n IHn]; intros brk cur s a s' os p e o n' e' evs o' H Ho Hx W G L; cbn [rep_gather rep_ord rep_lex] in *.
    - injection H as <- <-. injection Ho as <-. injection Hx as <- <- <-. apply (R_weaken []); [intros y []|].
      apply R_eqv; [exact W|exact G|apply eqv_refl|reflexivity|exact L|apply incl_refl].
    - destruct (gather ports b brk cur s) as [[c1 s1]|] eqn:E1; [|discriminate]. cbn [obind] in H.
      destruct (ord b o) as [o1|] eqn:Eo; [|discriminate]. cbn [obind] in Ho.
      destruct (lex ports b p (length (s_vars s)) e) as [[n1 e1] l1] eqn:X1.
      destruct (rep_lex ports b p n n1 e1) as [[n2 e2] l2] eqn:X2. 
      injection Hx as <- <- <-.
      pose proof (IH brk cur s c1 s1 os p e o n1 e1 l1 o1 E1 Eo X1 W G L C) as Ra.
      rewrite (r_len _ _ _ _ _ _ _ _ _ _ _ _ _ Ra) in X2.
      pose proof (IHn brk c1 s1 a s' os p e1 o1 n2 e2 l2 o' H Ho X2 (r_wf _ _ _ _ _ _ _ _ _ _ _ _ _ Ra) (r_good _ _ _ _ _ _ _ _ _ _ _ _ _ Ra)
             (r_lst _ _ _ _ _ _ _ _ _ _ _ _ _ Ra)) as Rb.
      apply (R_weaken (names_of b ++ names_of b)); [intros y Hy; apply in_app_or in Hy; tauto|].
      exact (R_comp _ _ s cur os p e o s1 c1 n1 e1 o1 l1 s' a n2 e2 o' l2 W (g_lt _ _ _ _ _ _ G) Ra Rb).
  Qed.

  Lemma case_repeat : forall n b k, P b -> P k -> P (KRepeat n b k).
  Proof.
    intros n b k IHb IH brk cur s cur' s' os p e o n' e' evs o' H Ho Hx W G L C.
    change (gather ports (KRepeat n b k) brk cur s) with
      (let s0 := with_pre s false in
       if s_rep s0 then None
       else if Nat.eqb n 0 then None
       else do (a, s1) <- rep_gather ports b brk n cur (with_rep s0 true); gather ports k brk a (with_rep s1 false)) in H.
    change (ord (KRepeat n b k) o) with (do o1 <- rep_ord b n o; ord k o1) in Ho.
    change (lex ports (KRepeat n b k) p (length (s_vars s)) e) with
      (let '(n1, e1, l1) := rep_lex ports b p n (length (s_vars s)) e in
       let '(n2, e2, l2) := lex ports k p n1 e1 in (n2, e2, l1 ++ l2)) in Hx.
    cbn [names_of]. cbv zeta in H. destruct (s_rep (with_pre s false)); [discriminate|]. destruct (Nat.eqb n 0); [discriminate|].
    destruct (rep_gather ports b brk n cur (with_rep (with_pre s false) true)) as [[a s1]|] eqn:E1; [|discriminate]. cbn [obind] in H.
    destruct (rep_ord b n o) as [o1|] eqn:Eo; [|discriminate]. cbn [obind] in Ho.
    destruct (rep_lex ports b p n (length (s_vars s)) e) as [[n1 e1] l1] eqn:X1.
    destruct (lex ports k p n1 e1) as [[n2 e2] l2] eqn:X2. injection Hx as <- <- <-.
    assert (E0 : ScopeProofs.eqv s (with_rep (with_pre s false) true)) by (repeat split).
    pose proof (eqv_wf ports ls ds _ _ E0 W) as W0. pose proof (good_eqv _ _ cur os p e W E0 G) as G0.
    pose proof (lst_eqv s _ cur os p e o W E0 eq_refl L) as L0.
    pose proof (R_eqv s _ cur os p e o o W G E0 eq_refl L0 (incl_refl _)) as Ra.
    pose proof (rep_R b IHb ltac:(clean C) n brk cur _ a s1 os p e o n1 e1 l1 o1 E1 Eo X1 W0 G0 L0) as Rb.
    pose proof (R_comp _ _ s cur os p e o _ cur _ e o [] s1 a n1 e1 o1 l1 W (g_lt _ _ _ _ _ _ G) Ra Rb) as Rc. cbn [app] in Rc.
    pose proof (r_wf _ _ _ _ _ _ _ _ _ _ _ _ _ Rc) as W1. pose proof (eqv_rep s1 false) as E2.
    pose proof (R_eqv s1 (with_rep s1 false) a os p e1 o1 o1 W1 (r_good _ _ _ _ _ _ _ _ _ _ _ _ _ Rc) E2 eq_refl
                  (lst_eqv s1 _ a os p e1 o1 W1 E2 eq_refl (r_lst _ _ _ _ _ _ _ _ _ _ _ _ _ Rc)) (incl_refl _)) as Rd.
    pose proof (R_comp _ _ s cur os p e o s1 a n1 e1 o1 l1 _ a _ e1 o1 [] W (g_lt _ _ _ _ _ _ G) Rc Rd) as Re. rewrite !app_nil_r in Re.
    rewrite (r_len _ _ _ _ _ _ _ _ _ _ _ _ _ Rc) in X2.
    exact (P_cont k _ s cur os p e o _ a _ e1 o1 l1 brk cur' s' n2 e2 o' l2 W (g_lt _ _ _ _ _ _ G) Re IH H Ho X2 ltac:(clean C)).
  Qed.

  Lemma case_switch : forall u x cs k, Pc cs -> P k -> P (KSwitch u x cs k).
  Proof.
    intros u x cs k IHc IH brk cur s cur' s' os p e o n' e' evs o' H Ho Hx W G L C.
    change (gather ports (KSwitch u x cs k) brk cur s) with
      (let s0 := say (with_pre s false) (LUse u false x cur) in
       let (af, s1) := new s0 "" "" cur in
       do s2 <- gcases ports cs brk cur s1;
       gather ports k brk af (set_may s2 af)) in H.
    change (ord (KSwitch u x cs k) o) with (if ord_cases cs then ord k {| o_pend := []; o_sw := negb (no_case cs); o_late := false |} else None) in Ho.
    change (lex ports (KSwitch u x cs k) p (length (s_vars s)) e) with
      (let '(n1, l1) := lex_cases ports cs p (length (s_vars s)) e in
       let '(n2, e2, l2) := lex ports k p n1 e in (n2, e2, use ports p e u false x :: l1 ++ l2)) in Hx.
    cbn [names_of]. cbv zeta in H.
    set (s0 := say (with_pre s false) (LUse u false x cur)) in *.
    destruct (new s0 "" "" cur) as [af s1] eqn:E1. destruct (gcases ports cs brk cur s1) as [s2|] eqn:E2; [|discriminate]. cbn [obind] in H.
    destruct (ord_cases cs) eqn:Eo; [|discriminate].
    destruct (lex_cases ports cs p (length (s_vars s)) e) as [n1 l1] eqn:X1.
    destruct (lex ports k p n1 e) as [[n2 e2] l2] eqn:X2. injection Hx as <- <- <-.
    assert (Hm : ~ mg x) by (destruct C as (C1 & _); apply C1; left; reflexivity).
    assert (E0 : ScopeProofs.eqv s s0) by (repeat split). pose proof (eqv_wf ports ls ds _ _ E0 W) as W0. pose proof (good_eqv _ _ cur os p e W E0 G) as G0.
    pose proof (g_lt _ _ _ _ _ _ G0) as Hc0.
    destruct (new_step s0 "" "" cur af s1 os p e W0 G0 (or_introl eq_refl) E1) as (A1 & A2 & W1 & Y1 & G1 & G1c & La1 & _ & V1 & Q1).
    assert (X1' : lex_cases ports cs p (length (s_vars s1)) e = (n1, l1)) by (rewrite V1; exact X1).
    assert (Gl : good s1 (s_last s1) os p e) by (rewrite La1; exact G1).
    destruct (IHc brk cur s1 s2 os p e n1 l1 E2 Eo X1' W1 G1c Gl ltac:(clean C)) as ((w & Q2) & Gl2 & Hno).
    pose proof (q_wf _ _ _ _ _ _ Q2) as W2. pose proof (good_ext ports ls ds s1 s2 af os p e W1 (q_ext _ _ _ _ _ _ Q2) G1) as G2.
    pose proof (eqv_may s2 af) as E3. pose proof (good_eqv _ _ af os p e W2 E3 G2) as G3.
    assert (QQ : Q (names_ofs cs) s0 (set_may s2 af) n1 w l1).
    { pose proof (Q_comp _ _ s0 s1 s2 _ _ _ _ _ _ W0 Q1 Q2) as Qa.
      pose proof (Q_comp _ _ s0 s2 _ _ _ _ _ _ _ W0 Qa (Q_eqv s2 _ W2 E3 eq_refl)) as Qb.
      cbn [app] in Qb. rewrite !app_nil_r in Qb. rewrite <- (q_len _ _ _ _ _ _ Q2) in Qb. exact Qb. }
    assert (Ra : R (names_ofs cs) s0 cur os p e {| o_pend := x :: o_pend o; o_sw := o_sw o; o_late := o_late o |} (set_may s2 af) af n1 e
                   {| o_pend := []; o_sw := negb (no_case cs); o_late := false |} l1).
    { apply (Q_R _ s0 cur os p e _ _ af n1 _ w l1 W0 Hc0 QQ G3).
      - rewrite A1. apply Nat.le_refl.
      - intros u' k' x' Hin. destruct (Q_before _ _ _ _ _ _ u' k' x' af Q2 Hin). lia.
      - split; cbn [o_sw o_late].
        + intros Z. apply negb_false_iff in Z. change (s_last (set_may s2 af)) with (s_last s2). rewrite (Hno Z). exact La1.
        + intros _. exact (good_eqv _ _ _ os p e W2 E3 Gl2). }
    pose proof (R_use s s0 cur os p e o u false x W G Hm E0 eq_refl eq_refl L) as Ru.
    pose proof (R_comp _ _ s cur os p e o s0 cur _ e _ _ _ af n1 e _ _ W (g_lt _ _ _ _ _ _ G) Ru Ra) as Rb.
    pose proof (P_cont k _ s cur os p e o _ af n1 e _ _ brk cur' s' n2 e2 o' l2 W (g_lt _ _ _ _ _ _ G) Rb IH H Ho X2 ltac:(clean C)) as Rc.
    rewrite <- !app_assoc in Rc. exact Rc.
  Qed.

  Lemma cases_nil : Pc CNil.
  Proof.
    intros brk cur s s' os p e n' evs H Ho Hx W G Gl C. cbn in H, Hx. injection H as <-. injection Hx as <- <-. cbn [names_ofs].
    split; [|split; [exact Gl|reflexivity]]. exists []. apply Q_eqv; [exact W|apply eqv_refl|reflexivity].
  Qed.
  Lemma cases_cons : forall c r, P c -> Pc r -> Pc (CCons c r).
  Proof.
    intros c r IHc IHr brk cur s s' os p e n' evs H Ho Hx W G Gl C.
    change (ord_cases (CCons c r)) with (match ord c fresh with Some _ => ord_cases r | None => false end) in Ho.
    change (lex_cases ports (CCons c r) p (length (s_vars s)) e) with
      (let '(n1, _, l1) := lex ports c p (length (s_vars s)) e in let '(n2, l2) := lex_cases ports r p n1 e in (n2, l1 ++ l2)) in Hx.
    cbn [names_ofs no_case].
    assert (H' : (let (cb, s1) := new s "" "_case" cur in do (_, s3) <- gblock ports c brk cb s1; gcases ports r brk cur s3) = Some s').
    { rewrite <- H.
      change (gcases ports (CCons c r) brk cur s) with
        (let (cb, s1) := new s "" "_case" cur in
         let (nb, s2) := new s1 "" "" cb in
         do (_, s3) <- gather ports c brk nb s2;
         gcases ports r brk cur (snd (new s3 "" "" cb))).
      destruct (new s "" "_case" cur) as [cb s1]. unfold gblock. destruct (new s1 "" "" cb) as [nb s2].
      destruct (gather ports c brk nb s2) as [[c3 s3]|]; [|reflexivity]. cbn [obind]. destruct (new s3 "" "" cb); reflexivity. }
    clear H. destruct (new s "" "_case" cur) as [cb s1] eqn:E1.
    destruct (gblock ports c brk cb s1) as [[a s3]|] eqn:E3; [|discriminate]. cbn [obind] in H'.
    destruct (ord c fresh) as [oc|] eqn:Eo; [|discriminate].
    destruct (lex ports c p (length (s_vars s)) e) as [[n1 e1] l1] eqn:X1.
    destruct (lex_cases ports r p n1 e) as [n2 l2] eqn:X2. injection Hx as <- <-.
    destruct (new_step s "" "_case" cur cb s1 os p e W G (or_introl eq_refl) E1) as (A1 & A2 & W1 & Y1 & G1 & G1c & La1 & _ & V1 & Q1).
    assert (X1' : lex ports c p (length (s_vars s1)) e = (n1, e1, l1)) by (rewrite V1; exact X1).
    destruct (block_Q c brk cb s1 a s3 os p e n1 e1 l1 oc IHc E3 Eo X1' W1 G1 ltac:(clean C)) as (w & Q3 & G3 & La3 & _ & _).
    pose proof (q_wf _ _ _ _ _ _ Q3) as W3. pose proof (good_ext ports ls ds s1 s3 cur os p e W1 (q_ext _ _ _ _ _ _ Q3) G1c) as G3c.
    rewrite (q_len _ _ _ _ _ _ Q3) in X2. rewrite <- La3 in G3.
    destruct (IHr brk cur s3 s' os p e n2 l2 H' Ho X2 W3 G3c G3 ltac:(clean C)) as ((w2 & Q4) & Gl4 & _).
    split; [|split; [exact Gl4|discriminate]]. exists (([] ++ w) ++ w2).
    exact (Q_comp _ _ s s3 s' _ _ _ _ _ _ W (Q_comp _ _ s s1 s3 _ _ _ _ _ _ W Q1 Q3) Q4).
  Qed.

  Lemma stages_nil : Ps CNil.
  Proof.
    intros cur from s s' os p e n' evs H Ho Hx W Hc Hs G C. cbn in H, Hx. injection H as <-. injection Hx as <- <-. cbn [names_ofs].
    exists []. apply Q_eqv; [exact W|apply eqv_refl|reflexivity].
  Qed.
  Lemma stages_cons : forall c r, P c -> Ps r -> Ps (CCons c r).
  Proof.
    intros c r IHc IHr cur from s s' os p e n' evs H Ho Hx W Hc Hs G C.
    change (gstages ports (CCons c r) cur from s) with
      (let (fb, s1) := add_ctx (next_gen s) ("__stage_" ++ block_name s)%string from (b_sub (s_blk s cur)) in
       do (_, s2) <- gather ports c None fb (with_fsm s1 fb [] []);
       do s3 <- forward (s_fwd s2) (s_lbl s2) s2;
       gstages ports r cur (s_last s3) s3) in H.
    change (ord_stages (CCons c r)) with
      (match ord c fresh with Some o => (no_case r || negb (o_late o)) && ord_stages r | None => false end) in Ho.
    change (lex_stages ports (CCons c r) p (length (s_vars s)) e) with
      (let '(n1, e1, l1) := lex ports c p (length (s_vars s)) e in let '(n2, l2) := lex_stages ports r p n1 e1 in (n2, l1 ++ l2)) in Hx.
    cbn [names_ofs no_case] in *.
    specialize (G eq_refl).
    destruct (add_ctx (next_gen s) ("__stage_" ++ block_name s)%string from (b_sub (s_blk s cur))) as [fb s1] eqn:E1.
    destruct (gather ports c None fb (with_fsm s1 fb [] [])) as [[a s2]|] eqn:E2; [|discriminate]. cbn [obind] in H.
    destruct (forward (s_fwd s2) (s_lbl s2) s2) as [s3|] eqn:E3; [|discriminate]. cbn [obind] in H.
    destruct (ord c fresh) as [oc|] eqn:Eo; [|discriminate]. apply andb_true_iff in Ho. destruct Ho as [Ho1 Ho2].
    destruct (lex ports c p (length (s_vars s)) e) as [[n1 e1] l1] eqn:X1.
    destruct (lex_stages ports r p n1 e1) as [n2 l2] eqn:X2. injection Hx as <- <-.
    pose proof (eqv_gen s) as E0. pose proof (eqv_wf ports ls ds _ _ E0 W) as W0. pose proof (good_eqv _ _ from os p e W E0 G) as G0.
    pose proof (g_lt _ _ _ _ _ _ G) as Hf.
    destruct (add_spec ports ls ds (next_gen s) ("__stage_" ++ block_name s)%string from _ fb s1 W0 Hf E1) as (A & B & W1 & Y1 & Pa & Re & De & Su & La & Lo & V).
    { discriminate. } { left. eexists. reflexivity. }
    assert (G1 : good s1 fb os p e).
    { apply (good_child ports ls ds s1 from fb os p e W1 (good_ext ports ls ds _ s1 from os p e W0 Y1 G0)); try assumption.
      - lia.
      - rewrite A. exact Hf.
      - rewrite Su. exact Hs. }
    pose proof (eqv_fsm s1 fb [] []) as E1'. pose proof (eqv_wf ports ls ds _ _ E1' W1) as W1'. pose proof (good_eqv _ _ fb os p e W1 E1' G1) as G1'.
    assert (X1' : lex ports c p (length (s_vars (with_fsm s1 fb [] []))) e = (n1, e1, l1)).
    { change (s_vars (with_fsm s1 fb [] [])) with (s_vars s1). rewrite V. exact X1. }
    pose proof (IHc None fb _ a s2 os p e fresh n1 e1 l1 oc E2 Eo X1' W1' G1' (lst_any (with_fsm s1 fb [] []) fb os p e fresh eq_refl G1') ltac:(clean C)) as Ra.
    assert (Y1' : ext s (with_fsm s1 fb [] [])).
    { exact (ext_trans ports ls ds s s1 _ (ext_trans ports ls ds s _ s1 (eqv_ext ports ls ds _ _ E0) Y1) (eqv_ext ports ls ds _ _ E1')). }
    destruct (R_Q _ s _ fb os p e fresh s2 a n1 e1 oc l1 W Y1' Lo ltac:(rewrite A; apply Nat.le_refl) Ra) as (w & Q2).
    pose proof (q_wf _ _ _ _ _ _ Q2) as W2.
    destruct (forward_eqv _ _ _ _ E3) as (E3' & Lo3 & La3).
    pose proof (Q_comp _ _ s s2 s3 _ _ _ _ _ _ W Q2 (Q_eqv s2 s3 W2 E3' Lo3)) as Q3. rewrite !app_nil_r in Q3.
    pose proof (q_wf _ _ _ _ _ _ Q3) as W3. pose proof (q_ext _ _ _ _ _ _ Q3) as Y3.
    assert (X2' : lex_stages ports r p (length (s_vars s3)) e1 = (n2, l2)).
    { rewrite <- (q_len _ _ _ _ _ _ Q3), <- (q_len _ _ _ _ _ _ Q2). exact X2. }
    destruct (IHr cur (s_last s3) s3 s' os p e1 n2 l2 H Ho2 X2' W3 ltac:(pose proof (proj1 Y3); lia)) as (w2 & Q4).
    - destruct Y3 as (_ & Y3 & _). destruct (Y3 cur Hc) as (_ & _ & _ & _ & S). rewrite S. exact Hs.
    - intros Z. rewrite Z in Ho1. cbn [orb] in Ho1. apply negb_true_iff in Ho1. rewrite La3.
      apply (good_eqv s2 s3 _ os p e1 W2 E3'). exact (proj2 (r_lst _ _ _ _ _ _ _ _ _ _ _ _ _ Ra) Ho1).
    - clean C.
    - exists (w ++ w2). exact (Q_comp _ _ s s3 s' _ _ _ _ _ _ W Q3 Q4).
  Qed.

  Lemma case_pipe : forall ss k, Ps ss -> P k -> P (KPipe ss k).
  Proof.
    intros ss k IHs IH brk cur s cur' s' os p e o n' e' evs o' H Ho Hx W G L C.
    change (ord (KPipe ss k) o) with (if ord_stages ss then ord k fresh else None) in Ho.
    change (lex ports (KPipe ss k) p (length (s_vars s)) e) with
      (let '(n1, l1) := lex_stages ports ss p (length (s_vars s)) e in
       let '(n2, e2, l2) := lex ports k p n1 e in (n2, e2, l1 ++ l2)) in Hx.
    cbn [names_of].
    assert (H' : (do s1 <- gstages ports ss cur cur (with_pre s false);
                  let (af, s2) := new (with_fsm s1 (s_last (with_pre s false)) (s_lbl (with_pre s false)) (s_fwd (with_pre s false))) "" "" cur in
                  gather ports k brk af s2) = Some (cur', s')).
    { destruct ss as [|c [|c2 r]]; [discriminate|discriminate|exact H]. }
    clear H. destruct (gstages ports ss cur cur (with_pre s false)) as [s1|] eqn:E1; [|discriminate]. cbn [obind] in H'.
    destruct (new _ "" "" cur) as [af s2] eqn:E2 in H'.
    destruct (ord_stages ss) eqn:Eo; [|discriminate].
    destruct (lex_stages ports ss p (length (s_vars s)) e) as [n1 l1] eqn:X1.
    destruct (lex ports k p n1 e) as [[n2 e2] l2] eqn:X2. injection Hx as <- <- <-.
    pose proof (eqv_pre s false) as E0. pose proof (eqv_wf ports ls ds _ _ E0 W) as W0. pose proof (good_eqv _ _ cur os p e W E0 G) as G0.
    pose proof (g_lt _ _ _ _ _ _ G) as Hc.
    destruct (IHs cur cur _ s1 os p e n1 l1 E1 Eo X1 W0 Hc (g_sub _ _ _ _ _ _ G0) (fun _ => G0) ltac:(clean C)) as (w & Q1).
    pose proof (q_wf _ _ _ _ _ _ Q1) as W1. pose proof (good_ext ports ls ds _ s1 cur os p e W0 (q_ext _ _ _ _ _ _ Q1) G0) as G1.
    match type of E2 with new ?t _ _ _ = _ => set (s1' := t) in * end.
    assert (E1' : ScopeProofs.eqv s1 s1') by apply eqv_fsm.
    pose proof (eqv_wf ports ls ds _ _ E1' W1) as W1'. pose proof (good_eqv _ _ cur os p e W1 E1' G1) as G1'.
    destruct (new_step s1' "" "" cur af s2 os p e W1' G1' (or_introl eq_refl) E2) as (A1 & A2 & W2 & Y2 & G2 & G2c & La2 & _ & V2 & Q2).
    assert (QQ : Q (names_ofs ss) s s2 n1 w l1).
    { pose proof (Q_comp _ _ s _ s1 _ _ _ _ _ _ W (Q_eqv s _ W E0 eq_refl) Q1) as Qa.
      pose proof (Q_comp _ _ s s1 s1' _ _ _ _ _ _ W Qa (Q_eqv s1 s1' W1 E1' eq_refl)) as Qb.
      pose proof (Q_comp _ _ s s1' s2 _ _ _ _ _ _ W Qb Q2) as Qc.
      cbn [app] in Qc. rewrite !app_nil_r in Qc. change (s_vars s1') with (s_vars s1) in Qc. rewrite <- (q_len _ _ _ _ _ _ Q1) in Qc. exact Qc. }
    assert (N1 : s_n s <= s_n s1) by (exact (proj1 (q_ext _ _ _ _ _ _ Q1))). change (s_n s1') with (s_n s1) in *.
    assert (Ra : R (names_ofs ss) s cur os p e o s2 af n1 e fresh l1).
    { apply (Q_R _ s cur os p e _ _ af n1 fresh w l1 W Hc QQ G2).
      - lia.
      - intros u' k' x' Hin. destruct (Q_before _ _ _ _ _ _ u' k' x' af Q1 Hin). lia.
      - apply lst_any; [exact La2|exact G2]. }
    exact (P_cont k _ s cur os p e o _ af n1 e fresh _ brk cur' s' n2 e2 o' l2 W Hc Ra IH H' Ho X2 ltac:(clean C)).
  Qed.

  (** Permissions of a subroutine: the names given are read where the subroutine is declared. *)
  Lemma elook_outer : forall x e, elook x (outer e) = match elook x e with Some (n, _) => Some (n, false) | None => None end.
  Proof.
    intros x. induction e as [|[y [n own]] t IH]; [reflexivity|]. cbn [outer map elook fst snd]. destruct (String.eqb x y); [reflexivity|exact IH].
  Qed.
  Lemma mem_cons : forall v w l, mem v (w :: l) = (String.eqb v w || mem v l)%bool.
  Proof. reflexivity. Qed.
  Lemma mem_var : forall s cur os p e v j l, wf s -> good s cur os p e -> index_of (s_vars s) v = Some j -> (forall x, In x l -> ~ mg x) ->
    mem v (map (translate s cur) l) = tmem (TVar j) (targets ports e l).
  Proof.
    intros s cur os p e v j l W G Hv. induction l as [|y r IH]; intros Hl; [reflexivity|]. 
    assert (IH' := IH (fun x H => Hl x (or_intror H))). clear IH. cbn [map targets]. rewrite mem_cons.
    pose proof (g_env _ _ _ _ _ _ G y) as He. unfold means. unfold translate at 1, rewrite1.
    destruct (index_some _ _ _ Hv) as [Hin _].
    destruct (elook y e) as [[k own]|].
    - destruct He as (w & Hw & Hk). rewrite Hw. cbn [tmem existsb teq]. fold (tmem (TVar j) (targets ports e r)). rewrite <- IH'. f_equal.
      destruct (Nat.eqb j k) eqn:E.
      + apply Nat.eqb_eq in E. subst k. apply String.eqb_eq. exact (index_inj _ _ _ _ Hv Hk).
      + apply Nat.eqb_neq in E. apply String.eqb_neq. intros ->. congruence.
    - rewrite He. destruct (String.eqb v y) eqn:E.
      + apply String.eqb_eq in E. subst y. exfalso. destruct (w_names _ _ _ _ W v Hin) as [Hg|[Hd Hb]]; [exact (Hl v (or_introl eq_refl) Hg)|].
        exact (g_all _ _ _ _ _ _ G 0 v v (scopes_root ports ls ds s cur W (g_lt _ _ _ _ _ _ G)) Hd Hb He).
      + cbn [orb]. destruct (mem y ports); [|exact IH']. cbn [tmem existsb teq orb]. exact IH'.
  Qed.
  Lemma mem_port : forall s cur os p e q l, wf s -> good s cur os p e -> In q ports ->
    mem q (map (translate s cur) l) = tmem (TPort q) (targets ports e l).
  Proof.
    intros s cur os p e q l W G Hq. induction l as [|y r IH]; [reflexivity|]. cbn [map targets]. rewrite mem_cons.
    pose proof (g_env _ _ _ _ _ _ G y) as He. unfold means. unfold translate at 1, rewrite1.
    destruct (elook y e) as [[k own]|].
    - destruct He as (w & Hw & Hk). rewrite Hw. cbn [tmem existsb teq orb]. fold (tmem (TPort q) (targets ports e r)). rewrite <- IH.
      destruct (String.eqb q w) eqn:E; [|reflexivity]. apply String.eqb_eq in E. subst w. exfalso.
      exact (w_ports _ _ _ _ W q (proj1 (index_some _ _ _ Hk)) Hq).
    - rewrite He. destruct (mem y ports) eqn:Ey.
      + cbn [tmem existsb teq]. fold (tmem (TPort q) (targets ports e r)). rewrite <- IH. reflexivity.
      + destruct (String.eqb q y) eqn:E; [|exact IH]. apply String.eqb_eq in E. subst y. apply mem_In in Hq. congruence.
  Qed.

  Lemma wf_subs : forall s u k, wf s -> wf (with_subs s u k).
  Proof. intros s u k W. destruct W. constructor; assumption. Qed.

  Lemma case_sub : forall name r w b k, P b -> P k -> P (KSub name r w b k).
  Proof.
    intros name r w b k IHb IH brk cur s cur' s' os p e o n' e' evs o' H Ho Hx W G L C. cbn [gather ord lex names_of] in *. cbv zeta in H.
    destruct (negb (s_pre s)); [discriminate|]. destruct (b_sub (s_blk s cur)); [discriminate|].
    destruct (available ports s cur name name); try discriminate.
    destruct (add_ctx s ("__sub_" ++ name)%string cur (Some (length (s_subs s)))) as [sb s1] eqn:E1.
    match type of H with obind (gather _ _ _ _ ?t) _ = _ => set (s2 := t) in * end.
    destruct (gather ports b brk sb s2) as [[a s3]|] eqn:E3; [|discriminate]. cbn [obind] in H.
    destruct (ord b fresh) as [ob|] eqn:Eo; [|discriminate]. cbn [obind] in Ho.
    destruct (lex ports b (Some (targets ports e r, targets ports e w)) (length (s_vars s)) (outer e)) as [[n1 e1] l1] eqn:X1.
    destruct (lex ports k p n1 e) as [[n2 e2] l2] eqn:X2. injection Hx as <- <- <-.
    pose proof (g_lt _ _ _ _ _ _ G) as Hc.
    destruct (add_spec ports ls ds s ("__sub_" ++ name)%string cur _ sb s1 W Hc E1) as (A & B & W1 & Y1 & Pa & Re & De & Su & La & Lo & V).
    { discriminate. } { left. eexists. reflexivity. }
    assert (Us : s_subs s1 = s_subs s) by (unfold add_ctx in E1; injection E1 as <- <-; reflexivity).
    pose proof (good_ext ports ls ds s s1 cur os p e W Y1 G) as G1.
    pose proof (eqv_may s1 sb) as Em. pose proof (eqv_wf ports ls ds _ _ Em W1) as Wm. pose proof (good_eqv _ _ cur os p e W1 Em G1) as Gm.
    assert (W2 : wf s2) by (apply wf_subs; exact Wm).
    assert (Sm : same (set_may s1 sb) s2 sb) by (repeat split). 
    destruct (proj1 (proj2 Em) sb) as (M1 & M2 & M3 & M4 & M5). destruct (proj1 (proj2 Em) cur) as (_ & _ & M3c & _ & _).
    assert (Y2 : ext s s2).
    { apply (ext_trans ports ls ds s s1 s2 Y1). split; [apply Nat.le_refl|]. split; [intros b0 _; exact (proj1 (proj2 Em) b0)|]. split.
      - exists []. rewrite app_nil_r. split; [reflexivity|intros v []].
      - intros i a0 Hi. exists a0. split; [|intros; split; reflexivity]. change (s_subs s2) with (s_subs s1 ++ [{| u_reads := map (translate s cur) r; u_writes := map (translate s cur) w |}]).
        rewrite nth_error_app1; [exact Hi|]. apply nth_error_Some. congruence. }
    pose proof (good_ext ports ls ds s s2 cur os p e W Y2 G) as G2c.
    assert (Rsb : b_rew (s_blk s2 sb) = b_rew (s_blk s2 cur)).
    { change (b_rew (s_blk (set_may s1 sb) sb) = b_rew (s_blk (set_may s1 sb) cur)). congruence. }
    assert (Psb : b_par (s_blk s2 sb) = Some cur) by (change (b_par (s_blk (set_may s1 sb) sb) = Some cur); congruence).
    assert (Hsb : sb < s_n s2) by (change (sb < s_n s1); lia).
    assert (Hcs : cur < sb) by (rewrite A; exact Hc).
    assert (Dsb : b_decl (s_blk s2 sb) = []) by (change (b_decl (s_blk (set_may s1 sb) sb) = []); congruence).
    assert (Vs : s_vars s2 = s_vars s) by (exact V).
    pose proof (scopes_child ports ls ds s2 sb cur W2 Hsb Psb Hcs) as Hsc.
    assert (G2 : good s2 sb (Some (length (s_subs s))) (Some (targets ports e r, targets ports e w)) (outer e)).
    { constructor.
      - exact Hsb.
      - change (b_sub (s_blk (set_may s1 sb) sb) = Some (length (s_subs s))). congruence.
      - intros x. rewrite elook_outer, Rsb. pose proof (g_env _ _ _ _ _ _ G2c x) as He. destruct (elook x e) as [[i own]|]; exact He.
      - intros x v Hl. rewrite Rsb in Hl. destruct (g_scope _ _ _ _ _ _ G2c x v Hl) as (a0 & Ha & Hv). exists a0. rewrite Hsc.
        split; [right; exact Ha|exact Hv].
      - intros a0 v x Ha Hv Hb. rewrite Hsc in Ha. rewrite Rsb. destruct Ha as [<-|Ha]; [rewrite Dsb in Hv; contradiction|].
        exact (g_all _ _ _ _ _ _ G2c a0 v x Ha Hv Hb).
      - intros x v Hl. rewrite Rsb in Hl. exact (g_base _ _ _ _ _ _ G2c x v Hl).
      - unfold ScopeProofs.perm_ok. exists {| u_reads := map (translate s cur) r; u_writes := map (translate s cur) w |}.
        assert (Cr : forall x, In x r -> ~ mg x).
        { intros x Hx. destruct C as (C1 & _). apply C1. cbn [names_of]. apply in_or_app. left. exact Hx. }
        assert (Cw : forall x, In x w -> ~ mg x).
        { intros x Hx. destruct C as (C1 & _). apply C1. cbn [names_of]. apply in_or_app. right. apply in_or_app. left. exact Hx. }
        split.
        + change (nth_error (s_subs s1 ++ [{| u_reads := map (translate s cur) r; u_writes := map (translate s cur) w |}]) (length (s_subs s))
                  = Some {| u_reads := map (translate s cur) r; u_writes := map (translate s cur) w |}).
          rewrite Us, nth_error_app2 by apply Nat.le_refl. rewrite Nat.sub_diag. reflexivity.
        + cbn [u_reads u_writes]. split.
          * intros x j own v Hl Hr. rewrite elook_outer in Hl. rewrite Rsb in Hr. pose proof (g_env _ _ _ _ _ _ G2c x) as He.
            destruct (elook x e) as [[i o0]|]; [|discriminate]. injection Hl as -> <-. destruct He as (v0 & Hv0 & Hi).
            assert (v0 = v) by congruence. subst v0. rewrite Vs in Hi. cbn [orb].
            split; [exact (mem_var s cur os p e v j r W G Hi Cr)|exact (mem_var s cur os p e v j w W G Hi Cw)].
          * intros q Hq. split; exact (mem_port s cur os p e q _ W G Hq). }
    assert (X1' : lex ports b (Some (targets ports e r, targets ports e w)) (length (s_vars s2)) (outer e) = (n1, e1, l1)) by (rewrite Vs; exact X1).
    pose proof (IHb brk sb s2 a s3 _ _ _ fresh n1 e1 l1 ob E3 Eo X1' W2 G2 (lst_any s2 sb _ _ _ fresh La G2) ltac:(clean C)) as Ra.
    destruct (R_Q _ s s2 sb _ _ _ fresh s3 a n1 e1 ob l1 W Y2 Lo ltac:(rewrite A; apply Nat.le_refl) Ra) as (news & Q3).
    pose proof (q_wf _ _ _ _ _ _ Q3) as W3.
    match type of H with gather _ _ _ _ ?t = _ => set (s4 := t) in * end.
    assert (E4 : ScopeProofs.eqv s3 s4) by (repeat split).
    pose proof (Q_comp _ _ s s3 s4 _ _ _ _ _ _ W Q3 (Q_eqv s3 s4 W3 E4 eq_refl)) as Q4. rewrite !app_nil_r in Q4.
    rewrite <- (q_len _ _ _ _ _ _ Q3) in Q4.
    assert (Rb : R (r ++ w ++ names_of b) s cur os p e o s4 cur n1 e {| o_pend := r ++ w ++ names_of b ++ o_pend o; o_sw := true; o_late := true |} l1).
    { destruct Q4 as [K1 K2 K3 K4 K5]. constructor.
      - exact K1.
      - exact (good_ext ports ls ds s s4 cur os p e W K2 G).
      - split; discriminate.
      - exact K3.
      - exact (ext_frame ports ls ds s s4 cur (o_pend o) K2 Hc).
      - left. split; [reflexivity|]. cbn [o_pend]. intros y Hy. rewrite !in_app_iff. tauto.
      - exists news. split; [exact K4|]. revert K5. apply Forall2_imp. intros l ev _ [J1 J2]. split; [exact J1|].
        destruct l as [u0 w0 x0 b0|m0]; [|split; exact I]. cbn [at_Q at_R where_ok o_pend] in *. destruct J2 as [J2 J3]. split; [split|split].
        + intros ->. lia.
        + intros _. rewrite !in_app_iff. tauto.
        + right. exact J2.
        + rewrite !in_app_iff. tauto. }
    pose proof (P_cont k _ s cur os p e o s4 cur n1 e _ l1 brk cur' s' n2 e2 o' l2 W Hc Rb IH H Ho X2 ltac:(clean C)) as Rc.
    rewrite <- !app_assoc in Rc. exact Rc.
  Qed.

  Theorem gather_lexical : (forall c, P c) /\ (forall cs, Pc cs /\ Ps cs).
  Proof.
    apply code_codes_ind.
    - exact case_end.
    - intros x k IH. exact (case_decl x k IH).
    - intros u w x k IH. exact (case_use u w x k IH).
    - intros b IHb k IH. exact (case_block b k IHb IH).
    - intros u x b IHb k IH. exact (case_if u x b k IHb IH).
    - intros u x b1 IHb1 b2 IHb2 k IH. exact (case_ifelse u x b1 b2 k IHb1 IHb2 IH).
    - intros u x cs [IHc _] k IH. exact (case_switch u x cs k IHc IH).
    - intros u x b IHb k IH. exact (case_while u x b k IHb IH).
    - intros k IH. exact (case_break k IH).
    - intros k IH. exact (case_step k IH).
    - intros l k IH. exact (case_label l k IH).
    - intros l k IH. exact (case_goto l k IH).
    - intros k IH. exact (case_return k IH).
    - intros n b IHb k IH. exact (case_repeat n b k IHb IH).
    - intros name r w b IHb k IH. exact (case_sub name r w b k IHb IH).
    - intros ss [_ IHs] k IH. exact (case_pipe ss k IHs IH).
    - split; [exact cases_nil|exact stages_nil].
    - intros c IHc r [IHr IHs]. split; [exact (cases_cons c r IHc IHr)|exact (stages_cons c r IHc IHs)].
  Qed.
End Main.
