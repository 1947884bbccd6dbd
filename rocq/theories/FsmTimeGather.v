(** In the graph gathered from a program without goto, the block that follows a conditional is not a state, and follows only that conditional. *)
From Coq Require Import List Bool Arith ZArith Lia.
Import ListNotations.
From Verif Require Import FsmModel FsmEmit FsmLayout FsmGather.

Definition isif (g : graph) (b af : nat) : Prop := exists e ib fi it eb fe et, b_end (g b) = EIf e ib fi it eb fe et af.

(** From [s] to [s']: the conditionals of [s'] are those of [s], or are followed by new blocks. *)
Record Fr (brk : option nat) (s s' : gst) : Prop := {
  fr_next : g_next s <= g_next s';
  fr_state : forall x, x < g_next s -> b_state (g_blk s' x) = true -> b_state (g_blk s x) = true \/ brk = Some x;
  fr_if : forall b af, isif (g_blk s') b af -> isif (g_blk s) b af \/ (g_next s <= af < g_next s' /\ b_state (g_blk s' af) = false);
  fr_inj : forall b b' af, isif (g_blk s') b af -> isif (g_blk s') b' af -> g_next s <= af -> b = b'
}.
Definition Bd (s : gst) : Prop := forall b af, isif (g_blk s) b af -> af < g_next s.
Definition Bk (brk : option nat) (s : gst) : Prop := forall t, brk = Some t -> t < g_next s.

Lemma fr_refl brk s : Bd s -> Fr brk s s.
Proof. intros B. constructor; auto. intros b b' af H _ L. apply B in H. lia. Qed.
Lemma fr_bd brk s s' : Fr brk s s' -> Bd s -> Bd s'.
Proof. intros F B b af H. destruct (fr_if _ _ _ F b af H) as [H1|[H1 _]]; [apply B in H1; pose proof (fr_next _ _ _ F); lia|lia]. Qed.
Lemma fr_trans brk s s1 s2 : Fr brk s s1 -> Fr brk s1 s2 -> Bd s -> Bk brk s -> Fr brk s s2.
Proof.
  intros A B BD BK. pose proof (fr_next _ _ _ A) as L1. pose proof (fr_next _ _ _ B) as L2. constructor.
  - lia.
  - intros x L H. destruct (fr_state _ _ _ B x ltac:(lia) H) as [H1|H1]; [now apply (fr_state _ _ _ A)|now right].
  - intros b af H. destruct (fr_if _ _ _ B b af H) as [H1|[H1 H2]]; [|right; split; [lia|exact H2]].
    destruct (fr_if _ _ _ A b af H1) as [H2|[H2 H3]]; [now left|]. right. split; [lia|].
    destruct (b_state (g_blk s2 af)) eqn:S; [|reflexivity]. destruct (fr_state _ _ _ B af ltac:(lia) S) as [X|X]; [congruence|]. apply BK in X. lia.
  - intros b b' af H H' L. destruct (le_lt_dec (g_next s1) af) as [G|G]; [eapply (fr_inj _ _ _ B); eassumption|].
    destruct (fr_if _ _ _ B b af H) as [H1|[H1 _]]; [|lia]. destruct (fr_if _ _ _ B b' af H') as [H2|[H2 _]]; [|lia]. eapply (fr_inj _ _ _ A); eassumption.
Qed.
(** Breaks of another loop. *)
Lemma fr_brk brk t s s1 s2 : Fr brk s s1 -> Fr (Some t) s1 s2 -> Bd s -> g_next s <= t -> (forall b, ~ isif (g_blk s1) b t) -> Fr brk s s2.
Proof.
  intros A B BD Lt Nt. pose proof (fr_next _ _ _ A) as L1. pose proof (fr_next _ _ _ B) as L2. constructor.
  - lia.
  - intros x L H. destruct (fr_state _ _ _ B x ltac:(lia) H) as [H1|H1]; [now apply (fr_state _ _ _ A)|injection H1 as <-; lia].
  - intros b af H. destruct (fr_if _ _ _ B b af H) as [H1|[H1 H2]]; [|right; split; [lia|exact H2]].
    destruct (fr_if _ _ _ A b af H1) as [H2|[H2 H3]]; [now left|]. right. split; [lia|].
    destruct (b_state (g_blk s2 af)) eqn:S; [|reflexivity]. destruct (fr_state _ _ _ B af ltac:(lia) S) as [X|X]; [congruence|]. injection X as <-. now destruct (Nt b).
  - intros b b' af H H' L. destruct (le_lt_dec (g_next s1) af) as [G|G]; [eapply (fr_inj _ _ _ B); eassumption|].
    destruct (fr_if _ _ _ B b af H) as [H1|[H1 _]]; [|lia]. destruct (fr_if _ _ _ B b' af H') as [H2|[H2 _]]; [|lia]. eapply (fr_inj _ _ _ A); eassumption.
Qed.

(** The graph changes in ways that add no conditional and mark no state. *)
Lemma fr_same brk s s1 s2 : Fr brk s s1 -> g_next s1 <= g_next s2 -> (forall b af, isif (g_blk s2) b af -> isif (g_blk s1) b af) ->
  (forall x, x < g_next s1 -> b_state (g_blk s2 x) = b_state (g_blk s1 x)) -> Fr brk s s2.
Proof.
  intros A L I S. pose proof (fr_next _ _ _ A) as L1. constructor.
  - lia.
  - intros x Lx H. rewrite S in H by lia. now apply (fr_state _ _ _ A).
  - intros b af H. destruct (fr_if _ _ _ A b af (I b af H)) as [H1|[H1 H2]]; [now left|right]. split; [lia|]. rewrite S by lia. exact H2.
  - intros b b' af H H'. apply (fr_inj _ _ _ A); now apply I.
Qed.
Lemma fr_addb brk s s1 : Fr brk s s1 -> Fr brk s (addb s1).
Proof.
  intros A. apply (fr_same brk s s1); [exact A|rewrite n_addb; lia| |].
  - intros b af [e [ib [fi [it [eb [fe [et H]]]]]]]. destruct (Nat.eq_dec b (g_next s1)) as [ ->|N]; [rewrite b_addb_new in H; discriminate|].
    rewrite b_addb in H by exact N. now exists e, ib, fi, it, eb, fe, et.
  - intros x L. rewrite b_addb by lia. reflexivity.
Qed.
Lemma fr_end brk s s1 b0 d : Fr brk s s1 -> (forall e ib fi it eb fe et af, d <> EIf e ib fi it eb fe et af) -> Fr brk s (st_end s1 b0 d).
Proof.
  intros A N. apply (fr_same brk s s1); [exact A|rewrite n_end; lia| |].
  - intros b af [e [ib [fi [it [eb [fe [et H]]]]]]]. destruct (Nat.eq_dec b b0) as [ ->|Nb]; [rewrite e_end_same in H; destruct (N _ _ _ _ _ _ _ _ H)|].
    rewrite e_end in H by exact Nb. now exists e, ib, fi, it, eb, fe, et.
  - intros x _. apply s_end.
Qed.
Lemma fr_nx brk s s1 b0 n : Fr brk s s1 -> Fr brk s (st_next s1 b0 n).
Proof. intros A. apply fr_end; [exact A|discriminate]. Qed.
Lemma fr_mark brk s s1 x v : Fr brk s s1 -> (g_next s <= x \/ brk = Some x) -> (forall b, isif (g_blk s1) b x -> x < g_next s) -> Fr brk s (st_state s1 x v).
Proof.
  intros A L N.
  assert (I : forall b af, isif (g_blk (st_state s1 x v)) b af -> isif (g_blk s1) b af).
  { intros b af [e [ib [fi [it [eb [fe [et H]]]]]]]. rewrite e_state in H. now exists e, ib, fi, it, eb, fe, et. }
  constructor.
  - apply (fr_next _ _ _ A).
  - intros y Ly H. destruct (Nat.eq_dec y x) as [ ->|Ny]; [destruct L as [L|L]; [lia|now right]|]. rewrite s_state in H by exact Ny. now apply (fr_state _ _ _ A).
  - intros b af H. apply I in H. destruct (fr_if _ _ _ A b af H) as [H1|[H1 H2]]; [now left|right]. split; [exact H1|].
    destruct (Nat.eq_dec af x) as [ ->|Na]; [apply N in H; lia|]. now rewrite s_state.
  - intros b b' af H H'. apply (fr_inj _ _ _ A); now apply I.
Qed.
Lemma fr_last brk s s1 b : Fr brk s s1 -> Fr brk s (st_last s1 b).
Proof. intros A. apply (fr_same brk s s1); auto. Qed.
(** A new conditional. *)
Lemma fr_new brk s s1 b0 e ib fi it eb fe et af : Fr brk s s1 -> g_next s <= af < g_next s1 -> b_state (g_blk s1 af) = false -> (forall b, ~ isif (g_blk s1) b af) ->
  Fr brk s (st_end s1 b0 (EIf e ib fi it eb fe et af)).
Proof.
  intros A L S N.
  assert (I : forall b a, isif (g_blk (st_end s1 b0 (EIf e ib fi it eb fe et af))) b a -> (b = b0 /\ a = af) \/ isif (g_blk s1) b a).
  { intros b a [e' [ib' [fi' [it' [eb' [fe' [et' H]]]]]]]. destruct (Nat.eq_dec b b0) as [ ->|Nb]; [rewrite e_end_same in H; injection H; intros; left; split; congruence|].
    rewrite e_end in H by exact Nb. right. now exists e', ib', fi', it', eb', fe', et'. }
  constructor.
  - rewrite n_end. apply (fr_next _ _ _ A).
  - intros x Lx H. rewrite s_end in H. now apply (fr_state _ _ _ A).
  - intros b a H. rewrite s_end, n_end. destruct (I b a H) as [[ -> ->]|H1]; [right; auto|]. exact (fr_if _ _ _ A b a H1).
  - intros b b' a H H' La. destruct (I b a H) as [[E1 E2]|H1]; destruct (I b' a H') as [[E3 E4]|H2]; subst; [reflexivity|destruct (N _ H2)|destruct (N _ H1)|eapply (fr_inj _ _ _ A); eassumption].
Qed.

Section Gath.
  Variable fuel : nat.
  Definition fr_ok (st : stmt) : Prop := forall brk cur s c' s', gather fuel brk st cur s = Some (c', s') -> gotos st = [] -> Bd s -> Bk brk s -> Fr brk s s'.

  Lemma bk_le brk s s1 : Bk brk s -> g_next s <= g_next s1 -> Bk brk s1.
  Proof. intros B L t E. apply B in E. lia. Qed.

  Lemma fr_list l : Forall fr_ok l -> forall brk cur s c' s', gather_list fuel brk l cur s = Some (c', s') -> gotoss l = [] -> Bd s -> Bk brk s -> Fr brk s s'.
  Proof.
    intros F. induction F as [|x r Hx Hr IH]; intros brk cur s c' s' H GT BD BK.
    - cbn in H. apply spair in H. destruct H as [ <- <-]. now apply fr_refl.
    - rewrite gather_list_cons in H. destruct (gather fuel brk x cur s) as [[c1 s1]|] eqn:G; [|discriminate]. cbn [obind] in H.
      unfold gotoss in GT. cbn in GT. apply app_eq_nil in GT. destruct GT as [G1 G2].
      pose proof (Hx _ _ _ _ _ G G1 BD BK) as A. eapply fr_trans; [exact A| |exact BD|exact BK].
      eapply IH; [exact H|exact G2|eapply fr_bd; eassumption|eapply bk_le; [exact BK|apply (fr_next _ _ _ A)]].
  Qed.
  Lemma fr_block l : Forall fr_ok l -> forall brk cur s c' s', gblock fuel brk l cur s = Some (c', s') -> gotoss l = [] -> Bd s -> Bk brk s ->
    Fr brk s s' /\ c' < g_next s' /\ g_next s <= c'.
  Proof.
    intros F brk cur s c' s' H GT BD BK. unfold gblock in H.
    destruct (gather_list fuel brk l (g_next s) (st_next (addb s) cur (g_next s))) as [[a s3]|] eqn:G; [|discriminate].
    cbn [obind] in H. apply spair in H. destruct H as [ <- <-].
    assert (A : Fr brk s (st_next (addb s) cur (g_next s))) by (apply fr_nx, fr_addb, fr_refl, BD).
    assert (B : Fr brk s s3).
    { eapply fr_trans; [exact A| |exact BD|exact BK]. eapply fr_list; [exact F|exact G|exact GT|eapply fr_bd; eassumption|eapply bk_le; [exact BK|apply (fr_next _ _ _ A)]]. }
    split; [apply fr_nx, fr_addb, B|]. unfold st_next. rewrite n_end, n_addb. pose proof (fr_next _ _ _ B). lia.
  Qed.
  Lemma fr_cases af cs : Forall (fun c => Forall fr_ok (snd c)) cs -> forall brk s bs s', gcases fuel brk af cs s = Some (bs, s') ->
    flat_map (fun c => gotoss (snd c)) cs = [] -> Bd s -> Bk brk s -> Fr brk s s'.
  Proof.
    intros F. induction F as [|[v l] r Hx Hr IH]; intros brk s bs s' H GT BD BK.
    - cbn in H. apply spair in H. destruct H as [ <- <-]. now apply fr_refl.
    - cbn [gcases] in H. destruct (gblock fuel brk l (g_next s) (addb s)) as [[ca s2]|] eqn:G; [|discriminate]. cbn [obind] in H.
      destruct (gcases fuel brk af r (st_next s2 ca af)) as [[bs' s3]|] eqn:G2; [|discriminate]. cbn [obind] in H. apply spair in H. destruct H as [ <- <-].
      cbn in GT. apply app_eq_nil in GT. destruct GT as [GT1 GT2].
      assert (A : Fr brk s (addb s)) by (apply fr_addb, fr_refl, BD).
      destruct (fr_block l Hx _ _ _ _ _ G GT1 ltac:(eapply fr_bd; eassumption) ltac:(eapply bk_le; [exact BK|apply (fr_next _ _ _ A)])) as [B _].
      assert (C : Fr brk s (st_next s2 ca af)) by (apply fr_nx; eapply fr_trans; eassumption).
      eapply fr_trans; [exact C| |exact BD|exact BK]. eapply IH; [exact G2|exact GT2|eapply fr_bd; eassumption|eapply bk_le; [exact BK|apply (fr_next _ _ _ C)]].
  Qed.

  Lemma fr_all st : fr_ok st.
  Proof.
    induction st using stmt_ind'; intros brk cur s c' s' HH GT BD BK.
    - cbn [gather] in HH. apply spair in HH. destruct HH as [ <- <-]. apply (fr_same _ _ s); [now apply fr_refl|cbn; lia| |].
      + intros b af [e' [ib [fi [it [eb [fe [et H]]]]]]]. exists e', ib, fi, it, eb, fe, et. cbn in H. unfold add_ins, gset in H. destruct (Nat.eqb_spec b cur); [subst; exact H|exact H].
      + intros y _. cbn. unfold add_ins, gset. destruct (Nat.eqb_spec y cur); [now subst|reflexivity].
    - rewrite gather_block in HH. cbn in GT. apply (fr_block l H _ _ _ _ _ HH GT BD BK).
    - rewrite gather_if in HH. destruct (gblock fuel brk l (g_next s) (addb (addb s))) as [[ia s3]|] eqn:G; [|discriminate]. cbn [obind] in HH.
      destruct (stateless fuel _ [] [g_next s]) as [fl|]; [|discriminate]. cbn [obind] in HH. apply spair in HH. destruct HH as [ <- <-].
      cbn in GT. assert (A : Fr brk s (addb (addb s))) by (apply fr_addb, fr_addb, fr_refl, BD).
      destruct (fr_block l H _ _ _ _ _ G GT ltac:(eapply fr_bd; eassumption) ltac:(eapply bk_le; [exact BK|apply (fr_next _ _ _ A)])) as [B _].
      assert (C : Fr brk s s3) by (eapply fr_trans; eassumption). pose proof (fr_bd _ _ _ C BD) as BD3. pose proof (fr_next _ _ _ C) as L3.
      apply fr_new.
      + apply fr_nx, fr_nx, fr_addb, C.
      + unfold st_next. rewrite !n_end, n_addb. lia.
      + unfold st_next. rewrite !s_end, b_addb_new. reflexivity.
      + intros b X. pose proof (fr_if _ _ _ (fr_nx brk s3 _ (S (g_next s)) (g_next s3) (fr_nx brk s3 _ ia (g_next s3) (fr_addb brk s3 s3 (fr_refl brk s3 BD3)))) b _ X) as Y.
        destruct Y as [Y|[_ Y]]; [apply BD3 in Y; lia|].
        assert (Z : isif (g_blk (addb s3)) b (g_next s3)).
        { destruct X as [e' [ib [fi [it [eb [fe [et X]]]]]]]. unfold st_next in X.
          destruct (Nat.eq_dec b (S (g_next s))) as [ ->|N1]; [rewrite e_end_same in X; discriminate|]. rewrite e_end in X by exact N1.
          destruct (Nat.eq_dec b ia) as [ ->|N2]; [rewrite e_end_same in X; discriminate|]. rewrite e_end in X by exact N2. now exists e', ib, fi, it, eb, fe, et. }
        destruct Z as [e' [ib [fi [it [eb [fe [et Z]]]]]]]. destruct (Nat.eq_dec b (g_next s3)) as [ ->|N3]; [rewrite b_addb_new in Z; discriminate|]. rewrite b_addb in Z by exact N3.
        assert (Z' : isif (g_blk s3) b (g_next s3)) by (now exists e', ib, fi, it, eb, fe, et). apply BD3 in Z'. lia.
    - rewrite gather_ifelse in HH. destruct (gblock fuel brk l1 (g_next s) (addb (addb s))) as [[ia s3]|] eqn:G; [|discriminate]. cbn [obind] in HH.
      destruct (gblock fuel brk l2 (S (g_next s)) s3) as [[ea s4]|] eqn:G2; [|discriminate]. cbn [obind] in HH.
      destruct (stateless fuel _ [] [g_next s]) as [fi|]; [|discriminate]. cbn [obind] in HH.
      destruct (stateless fuel _ [] [S (g_next s)]) as [fe|]; [|discriminate]. cbn [obind] in HH. apply spair in HH. destruct HH as [ <- <-].
      cbn in GT. apply app_eq_nil in GT. destruct GT as [GT1 GT2]. assert (A : Fr brk s (addb (addb s))) by (apply fr_addb, fr_addb, fr_refl, BD).
      destruct (fr_block l1 H _ _ _ _ _ G GT1 ltac:(eapply fr_bd; eassumption) ltac:(eapply bk_le; [exact BK|apply (fr_next _ _ _ A)])) as [B _].
      assert (C : Fr brk s s3) by (eapply fr_trans; eassumption). pose proof (fr_bd _ _ _ C BD) as BD3.
      destruct (fr_block l2 H0 _ _ _ _ _ G2 GT2 BD3 ltac:(eapply bk_le; [exact BK|apply (fr_next _ _ _ C)])) as [B2 _].
      assert (C4 : Fr brk s s4) by (eapply fr_trans; eassumption). pose proof (fr_bd _ _ _ C4 BD) as BD4. pose proof (fr_next _ _ _ C4) as L4.
      apply fr_new.
      + apply fr_nx, fr_nx, fr_addb, C4.
      + unfold st_next. rewrite !n_end, n_addb. lia.
      + unfold st_next. rewrite !s_end, b_addb_new. reflexivity.
      + intros b X.
        assert (Z : isif (g_blk (addb s4)) b (g_next s4)).
        { destruct X as [e' [ib [fi' [it [eb [fe' [et X]]]]]]]. unfold st_next in X.
          destruct (Nat.eq_dec b ea) as [ ->|N1]; [rewrite e_end_same in X; discriminate|]. rewrite e_end in X by exact N1.
          destruct (Nat.eq_dec b ia) as [ ->|N2]; [rewrite e_end_same in X; discriminate|]. rewrite e_end in X by exact N2. now exists e', ib, fi', it, eb, fe', et. }
        destruct Z as [e' [ib [fi' [it [eb [fe' [et Z]]]]]]]. destruct (Nat.eq_dec b (g_next s4)) as [ ->|N3]; [rewrite b_addb_new in Z; discriminate|]. rewrite b_addb in Z by exact N3.
        assert (Z' : isif (g_blk s4) b (g_next s4)) by (now exists e', ib, fi', it, eb, fe', et). apply BD4 in Z'. lia.
    - rewrite gather_switch in HH. destruct (gcases fuel brk (g_next s) cs (addb s)) as [[bs s2]|] eqn:G; [|discriminate]. cbn [obind] in HH.
      destruct (gflags fuel _ bs) as [fl|]; [|discriminate]. cbn [obind] in HH. apply spair in HH. destruct HH as [ <- <-].
      assert (A : Fr brk s (addb s)) by (apply fr_addb, fr_refl, BD).
      assert (B : Fr brk (addb s) s2) by (eapply fr_cases; [exact H|exact G|exact GT|eapply fr_bd; eassumption|eapply bk_le; [exact BK|apply (fr_next _ _ _ A)]]).
      assert (C : Fr brk (addb s) (st_end s2 cur (ESwitch e bs (g_next s)))) by (apply fr_end; [exact B|discriminate]).
      apply fr_mark; [eapply fr_trans; eassumption|left; lia|]. intros b X. destruct (fr_if _ _ _ C b _ X) as [Y|[Y _]]; [|rewrite n_addb in Y; lia].
      destruct (fr_if _ _ _ A b _ Y) as [Z|[Z1 Z2]]; [apply BD in Z; lia|].
      exfalso. destruct Y as [e' [ib [fi [it [eb [fe [et Y]]]]]]]. destruct (Nat.eq_dec b (g_next s)) as [ ->|N]; [rewrite b_addb_new in Y; discriminate|]. rewrite b_addb in Y by exact N.
      assert (Y' : isif (g_blk s) b (g_next s)) by (now exists e', ib, fi, it, eb, fe, et). apply BD in Y'. lia.
    - rewrite gather_while in HH. set (s1 := addb (addb (st_next (addb s) cur (g_next s)))) in HH.
      destruct (gblock fuel (Some (S (S (g_next s)))) l (S (g_next s)) s1) as [[il s5]|] eqn:G; [|discriminate].
      cbn [obind] in HH. apply spair in HH. destruct HH as [ <- <-]. cbn in GT.
      assert (A0 : Fr brk s (st_next (addb s) cur (g_next s))) by (apply fr_nx, fr_addb, fr_refl, BD).
      assert (A : Fr brk s s1) by (apply fr_addb, fr_addb, A0).
      assert (BD1 : Bd s1) by (eapply fr_bd; eassumption).
      assert (N1 : forall b x, g_next s <= x -> ~ isif (g_blk s1) b x).
      { intros b x Lx X. destruct X as [e' [ib [fi [it [eb [fe [et X]]]]]]]. unfold s1 in X.
        destruct (Nat.eq_dec b (g_next (addb (st_next (addb s) cur (g_next s))))) as [ ->|E1]; [rewrite b_addb_new in X; discriminate|]. rewrite b_addb in X by exact E1.
        destruct (Nat.eq_dec b (g_next (st_next (addb s) cur (g_next s)))) as [ ->|E2]; [rewrite b_addb_new in X; discriminate|]. rewrite b_addb in X by exact E2.
        unfold st_next in X. destruct (Nat.eq_dec b cur) as [ ->|E3]; [rewrite e_end_same in X; discriminate|]. rewrite e_end in X by exact E3.
        destruct (Nat.eq_dec b (g_next s)) as [ ->|E4]; [rewrite b_addb_new in X; discriminate|]. rewrite b_addb in X by exact E4.
        assert (Y' : isif (g_blk s) b x) by (now exists e', ib, fi, it, eb, fe, et). apply BD in Y'. lia. }
      assert (NX : g_next s1 = S (S (S (g_next s)))) by reflexivity.
      destruct (fr_block l H _ _ _ _ _ G GT BD1 ltac:(intros t [= <-]; lia)) as [B _].
      assert (C : Fr brk s s5) by (eapply fr_brk; [exact A|exact B|exact BD|lia|intros b; apply N1; lia]).
      apply fr_mark; [apply fr_end; [apply fr_nx, fr_last, C|discriminate]|left; lia|].
      intros b X. exfalso.
      assert (Y : isif (g_blk s5) b (g_next s)).
      { destruct X as [e' [ib [fi [it [eb [fe [et X]]]]]]]. unfold st_next in X.
        destruct (Nat.eq_dec b (g_next s)) as [ ->|E1]; [rewrite e_end_same in X; discriminate|]. rewrite e_end in X by exact E1.
        destruct (Nat.eq_dec b il) as [ ->|E2]; [rewrite e_end_same in X; discriminate|]. rewrite e_end in X by exact E2. rewrite b_last in X. now exists e', ib, fi, it, eb, fe, et. }
      destruct (fr_if _ _ _ B b _ Y) as [Z|[Z _]]; [exact (N1 b (g_next s) (le_n _) Z)|lia].
    - cbn [gather] in HH. destruct brk as [t|]; [|discriminate]. injection HH as <- <-. change (Fr (Some t) s (addb (st_state (st_next s cur t) t true))).
      apply fr_addb, fr_mark; [apply fr_nx, fr_refl, BD|now right|]. intros b X. now apply BK.
    - rewrite gather_step in HH. apply spair in HH. destruct HH as [ <- <-].
      assert (NI : forall b, ~ isif (g_blk (addb s)) b (g_next s)).
      { intros b [e' [ib [fi [it [eb [fe [et X]]]]]]]. destruct (Nat.eq_dec b (g_next s)) as [ ->|E4]; [rewrite b_addb_new in X; discriminate|]. rewrite b_addb in X by exact E4.
        assert (Y' : isif (g_blk s) b (g_next s)) by (now exists e', ib, fi, it, eb, fe, et). apply BD in Y'. lia. }
      apply fr_nx. apply (fr_same _ _ (st_state (addb s) (g_next s) true)).
      + apply fr_mark; [apply fr_addb, fr_refl, BD|left; lia|]. intros b X. now destruct (NI b).
      + rewrite n_upd. lia.
      + intros b af [e' [ib [fi [it [eb [fe [et X]]]]]]]. exists e', ib, fi, it, eb, fe, et. cbn in X |- *. unfold set_noskip, gset in X. destruct (Nat.eqb_spec b (g_next s)); [subst|]; exact X.
      + intros x _. cbn. unfold set_noskip, gset. destruct (Nat.eqb_spec x (g_next s)); [now subst|reflexivity].
    - cbn [gather] in HH. destruct (assoc n (g_lbl s)); [discriminate|]. cbn in HH. apply spair in HH. destruct HH as [ <- <-].
      apply fr_nx. apply (fr_same _ _ (addb s)); [apply fr_addb, fr_refl, BD|cbn; lia|auto|auto].
    - discriminate.
    - cbn [gather] in HH. apply spair in HH. destruct HH as [ <- <-]. apply (fr_same _ _ s); [now apply fr_refl|cbn; lia| |].
      + intros b af [e' [ib [fi [it [eb [fe [et H]]]]]]]. exists e', ib, fi, it, eb, fe, et. cbn in H. unfold add_ins, gset in H. destruct (Nat.eqb_spec b cur); [subst; exact H|exact H].
      + intros y _. cbn. unfold add_ins, gset. destruct (Nat.eqb_spec y cur); [now subst|reflexivity].
    - rewrite gather_join in HH. apply spair in HH. destruct HH as [ <- <-].
      assert (NI : forall b x, g_next s <= x -> ~ isif (g_blk (addb s)) b x).
      { intros b x L [e' [ib [fi [it [eb [fe [et X]]]]]]]. destruct (Nat.eq_dec b (g_next s)) as [ ->|E4]; [rewrite b_addb_new in X; discriminate|]. rewrite b_addb in X by exact E4.
        assert (Y' : isif (g_blk s) b x) by (now exists e', ib, fi, it, eb, fe, et). apply BD in Y'. lia. }
      assert (A1 : Fr brk s (st_next (st_state (addb s) (g_next s) true) cur (g_next s))).
      { apply fr_nx, fr_mark; [apply fr_addb, fr_refl, BD|left; lia|]. intros b X. now destruct (NI b (g_next s) (le_n _)). }
      set (s1 := st_next (st_state (addb s) (g_next s) true) cur (g_next s)) in *.
      assert (N1 : forall b x, g_next s <= x -> ~ isif (g_blk (addb s1)) b x).
      { intros b x L [e' [ib [fi [it [eb [fe [et X]]]]]]]. destruct (Nat.eq_dec b (g_next s1)) as [ ->|E4]; [rewrite b_addb_new in X; discriminate|]. rewrite b_addb in X by exact E4.
        unfold s1, st_next in X. destruct (Nat.eq_dec b cur) as [ ->|E3]; [rewrite e_end_same in X; discriminate|]. rewrite e_end in X by exact E3. rewrite e_state in X.
        apply (NI b x L). now exists e', ib, fi, it, eb, fe, et. }
      apply (fr_same _ _ (st_end (st_state (addb s1) (S (g_next s)) true) (g_next s) (EWait d (g_next s) (S (g_next s))))).
      + apply fr_end; [|discriminate]. apply fr_mark; [apply fr_addb, A1|left; lia|]. intros b X. now destruct (N1 b (S (g_next s)) ltac:(lia)).
      + rewrite n_upd. lia.
      + intros b af [e' [ib [fi [it [eb [fe [et H]]]]]]]. exists e', ib, fi, it, eb, fe, et. cbn [g_blk upd_blk] in H. unfold add_ins in H. unfold gset at 1 in H. destruct (Nat.eqb_spec b (S (g_next s))); [subst; exact H|exact H].
      + intros y _. cbn [g_blk upd_blk]. unfold add_ins. unfold gset at 1. destruct (Nat.eqb_spec y (S (g_next s))); [now subst|reflexivity].
  Qed.
  Lemma fr_alls l : Forall fr_ok l.
  Proof. apply Forall_forall. intros x _. apply fr_all. Qed.

  Theorem ifs_ok p c s : gather_list fuel None p 0 gst0 = Some (c, s) -> gotoss p = [] ->
    (forall b af, isif (g_blk s) b af -> b_state (g_blk s af) = false) /\ (forall b b' af, isif (g_blk s) b af -> isif (g_blk s) b' af -> b = b').
  Proof.
    intros H GT.
    assert (N0 : forall b af, ~ isif (g_blk gst0) b af).
    { intros b af [e [ib [fi [it [eb [fe [et X]]]]]]]. cbn in X. unfold set_state, gset in X. destruct (Nat.eqb b 0); discriminate. }
    pose proof (fr_list p (fr_alls p) None 0 gst0 c s H GT ltac:(intros b af X; now destruct (N0 b af)) ltac:(intros t; discriminate)) as F. split.
    - intros b af X. destruct (fr_if _ _ _ F b af X) as [Y|[_ Y]]; [now destruct (N0 b af)|exact Y].
    - intros b b' af X X'. destruct (fr_if _ _ _ F b af X) as [Y|[Y _]]; [now destruct (N0 b af)|]. eapply (fr_inj _ _ _ F); eassumption || lia.
  Qed.
End Gath.
