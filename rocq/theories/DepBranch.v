(** Dependencies through conditionals whose branches assign variables of their own. *)
From Coq Require Import List Bool Arith Lia.
From Verif Require Import DepModel DepProofs.
Import ListNotations.

(** Variables assigned by a piece of code. *)
Fixpoint cwrites (c : code) : list var :=
  match c with Ins i => i_written i | IfElse _ c1 c2 => flat_map cwrites c1 ++ flat_map cwrites c2 end.
Fixpoint creads (c : code) : list var :=
  match c with Ins i => i_read i | IfElse _ c1 c2 => flat_map creads c1 ++ flat_map creads c2 end.
Definition code_range (n : nat) (c : code) : Prop := forall v, In v (creads c) \/ In v (cwrites c) -> v < n.

(** A variable assigned in a branch is neither assigned before the conditional nor in the other branch. *)
Definition disjoint (a b : list var) : bool := forallb (fun x => negb (mem x b)) a.
Fixpoint separate (prev : list var) (c : code) : bool :=
  match c with
  | Ins _ => true
  | IfElse _ c1 c2 =>
      let seps := fix seps (prev : list var) (l : list code) : bool :=
        match l with [] => true | x :: r => separate prev x && seps (prev ++ cwrites x) r end in
      disjoint (flat_map cwrites c1) prev && disjoint (flat_map cwrites c2) (prev ++ flat_map cwrites c1) && seps prev c1 && seps prev c2
  end.
Fixpoint separates (prev : list var) (l : list code) : bool :=
  match l with [] => true | x :: r => separate prev x && separates (prev ++ cwrites x) r end.

Lemma separate_if prev t c1 c2 : separate prev (IfElse t c1 c2) =
  disjoint (flat_map cwrites c1) prev && disjoint (flat_map cwrites c2) (prev ++ flat_map cwrites c1) && separates prev c1 && separates prev c2.
Proof. reflexivity. Qed.
Lemma run_if n d t c1 c2 : run_code n d (IfElse t c1 c2) =
  match run_codes n d c1, run_codes n d c2 with Some d1, Some d2 => Some (merge d2 (merge d1 d)) | _, _ => None end.
Proof.
  cbn [run_code].
  assert (E : forall l d, (fix runl (d : deps) (l : list code) {struct l} : option deps :=
                 match l with [] => Some d | x :: l' => match run_code n d x with Some d' => runl d' l' | None => None end end) d l = run_codes n d l).
  { induction l as [|x l IH]; intros e; [reflexivity|]. cbn [run_codes]. destruct (run_code n e x); [apply IH|reflexivity]. }
  now rewrite !E.
Qed.
Lemma disjoint_spec a b x : disjoint a b = true -> In x a -> In x b -> False.
Proof.
  unfold disjoint; rewrite forallb_forall. intros H H1 H2. specialize (H x H1). apply negb_true_iff in H. unfold mem in H.
  assert (K : existsb (Nat.eqb x) b = true) by (apply existsb_exists; exists x; split; [assumption|apply Nat.eqb_refl]). congruence.
Qed.

(** Coverage, without the converse on assigned variables. *)
Definition wcovers (p : list instr) (d : deps) : Prop :=
  (forall v j, last_write p (length p) v j -> written d v = true) /\
  (forall v j k u, last_write p (length p) v j -> flow p j v k u -> fD (dep d v u) = true).
Definition wrote (d : deps) (l : list var) : Prop := forall v, written d v = true -> In v l.

Lemma update_facts n d i d' l : (forall v, In v (i_read i) -> v < n) -> inside n d -> wrote d l -> update n d i = Some d' -> inside n d' /\ wrote d' (l ++ i_written i).
Proof.
  intros Hr Hi W H. unfold update in H.
  set (row := fun r => if mem r (i_read i) then (if written d r then {| fD := true; fQ := false |} else {| fD := false; fQ := true |}) else f0) in *.
  set (d0 := {| dep := fun w => if mem w (i_written i) then row else dep d w; written := fun w => written d w || mem w (i_written i) |}) in *.
  assert (Hi0 : inside n d0).
  { intros w r Hn. cbn. destruct (mem w (i_written i)); [|apply Hi; assumption]. unfold row.
    destruct (mem r (i_read i)) eqn:E; [|reflexivity]. apply mem_In in E. specialize (Hr r E). lia. }
  destruct (closure_ok n (fuel_for n) d0 Hi0) as (d1 & E & [Hd Hw] & Hi1 & Hc); [unfold fuel_for; lia|].
  rewrite E in H. destruct (existsb (fun w => fD (dep d1 w w)) (i_written i)); [discriminate|]. inversion H; subst d1. split; [assumption|].
  intros v Hv. rewrite <- Hw in Hv. cbn in Hv. apply orb_true_iff in Hv as [Hv|Hv]; apply in_or_app; [left; now apply W|right; now apply mem_In].
Qed.

Lemma update_wstep : forall n p d i d', (forall v, In v (i_read i) \/ In v (i_written i) -> v < n) -> inside n d -> wcovers p d -> update n d i = Some d' ->
  wcovers (p ++ [i]) d' /\ (forall j w, flow (p ++ [i]) (length p) w j w -> False).
Proof.
  intros n p d i d' Hr Hi [Cw Cf] H. unfold update in H.
  set (row := fun r => if mem r (i_read i) then (if written d r then {| fD := true; fQ := false |} else {| fD := false; fQ := true |}) else f0) in *.
  set (d0 := {| dep := fun w => if mem w (i_written i) then row else dep d w; written := fun w => written d w || mem w (i_written i) |}) in *.
  assert (Hi0 : inside n d0).
  { intros w r Hn. cbn. destruct (mem w (i_written i)); [|apply Hi; assumption]. unfold row.
    destruct (mem r (i_read i)) eqn:E; [|reflexivity]. apply mem_In in E. pose proof (Hr r (or_introl E)). lia. }
  destruct (closure_ok n (fuel_for n) d0 Hi0) as (d1 & E & [Hd Hw] & Hi1 & Hc); [unfold fuel_for; lia|].
  rewrite E in H. destruct (existsb (fun w => fD (dep d1 w w)) (i_written i)) eqn:Ex; [discriminate|]. inversion H; subst d1. clear H.
  assert (Hself : forall w, In w (i_written i) -> fD (dep d' w w) = false).
  { intros w Hin'. apply not_true_iff_false. intros K. apply not_true_iff_false in Ex. apply Ex. apply existsb_exists. eauto. }
  assert (Hread : forall w v j, In w (i_written i) -> In v (i_read i) -> last_write p (length p) v j -> fD (dep d' w v) = true).
  { intros w v j Hwi Hvi Hl. apply (Hd w v). cbn. rewrite (proj2 (mem_In _ _) Hwi). unfold row.
    rewrite (proj2 (mem_In _ _) Hvi). rewrite (Cw v j Hl). reflexivity. }
  assert (Hflow : forall w k u, flow (p ++ [i]) (length p) w k u -> fD (dep d' w u) = true).
  { intros w k u Hf. inversion Hf as [a x b v j Hx Hwx Hvx Hl|a x b v j k' u' Hx Hwx Hvx Hl Hf']; subst;
    rewrite nth_error_app2, Nat.sub_diag in Hx by lia; cbn in Hx; inversion Hx; subst x;
    apply lw_down in Hl; try lia.
    - eapply Hread; eauto.
    - assert (Hnv : ~ In v (i_written i)).
      { intros Hv. pose proof (Hread v v j Hv Hvx Hl). rewrite Hself in H by assumption. discriminate. }
      assert (Hf0 : flow p j v k u) by (apply flow_down in Hf'; [exact Hf'|destruct Hl; assumption]).
      pose proof (Cf v j k u Hl Hf0) as Hvu. pose proof (Hread w v j Hwx Hvx Hl) as Hwv.
      assert (Hdv : fD (dep d' v u) = true).
      { apply (Hd v u). cbn. destruct (mem v (i_written i)) eqn:Em; [apply mem_In in Em; contradiction|exact Hvu]. }
      assert (Hlt : w < n) by (apply Hr; right; assumption).
      assert (Hlv : v < n) by (apply Hr; left; assumption).
      assert (Hwrv : written d' v = true) by (rewrite <- Hw; cbn; rewrite (Cw v j Hl); reflexivity).
      apply (Hc w v u).
      + apply filter_In. split; [apply in_seq; lia|]. cbn. rewrite (proj2 (mem_In _ _) Hwx). apply orb_true_r.
      + exact Hlv.
      + unfold present. rewrite Hwv. reflexivity.
      + exact Hwrv.
      + exact Hdv. }
  split.
  - split.
    + intros v j Hl. rewrite <- Hw. cbn. destruct (mem v (i_written i)) eqn:Em; [apply orb_true_r|].
      assert (Hnv : ~ In v (i_written i)) by (intros K; apply mem_In in K; congruence).
      apply last_write_snoc_out in Hl; [|assumption]. now rewrite (Cw v j Hl).
    + intros v j k u Hl Hf. destruct (in_dec Nat.eq_dec v (i_written i)) as [Hv|Hv].
      * pose proof (last_write_unique _ _ _ _ _ Hl (last_write_snoc_in p i v Hv)). subst j. eapply Hflow; eauto.
      * apply last_write_snoc_out in Hl; [|assumption]. apply (Hd v u). cbn.
        destruct (mem v (i_written i)) eqn:Em; [apply mem_In in Em; contradiction|].
        eapply Cf; [exact Hl|]. apply flow_down in Hf; [exact Hf|]. destruct Hl; assumption.
  - intros j w Hf. pose proof (Hflow _ _ _ Hf) as K. rewrite Hself in K; [discriminate|].
    inversion Hf as [a x b v j' Hx Hwx Hvx Hl|a x b v j' k' u' Hx Hwx Hvx Hl Hf']; subst;
    rewrite nth_error_app2, Nat.sub_diag in Hx by lia; cbn in Hx; inversion Hx; subst x; assumption.
Qed.

(** ** Facts that hold whatever the branches taken. *)
Section CodeInd.
  Variable Q : code -> Prop.
  Hypothesis QI : forall i, Q (Ins i).
  Hypothesis QC : forall t c1 c2, Forall Q c1 -> Forall Q c2 -> Q (IfElse t c1 c2).
  Fixpoint code_ind' (c : code) : Q c :=
    match c with
    | Ins i => QI i
    | IfElse t c1 c2 =>
        let all := fix all (l : list code) : Forall Q l := match l with [] => Forall_nil Q | x :: r => Forall_cons x (code_ind' x) (all r) end in
        QC t c1 c2 (all c1) (all c2)
    end.
End CodeInd.

Lemma merge_inside n a b : inside n a -> inside n b -> inside n (merge a b).
Proof. intros Ha Hb w r Hn. cbn. destruct (written b w); [now apply Hb|now apply Ha]. Qed.

Lemma run_code_facts n c : code_range n c -> forall d d' l, inside n d -> wrote d l -> run_code n d c = Some d' -> inside n d' /\ wrote d' (l ++ cwrites c).
Proof.
  induction c as [i|t c1 c2 H1 H2] using code_ind'; intros Hr d d' l Hi W H.
  - apply (update_facts n d i d' l); auto.
  - assert (L : forall cs, Forall (fun c => code_range n c -> forall d d' l, inside n d -> wrote d l -> run_code n d c = Some d' -> inside n d' /\ wrote d' (l ++ cwrites c)) cs ->
              (forall v, In v (flat_map creads cs) \/ In v (flat_map cwrites cs) -> v < n) ->
              forall d d' l, inside n d -> wrote d l -> run_codes n d cs = Some d' -> inside n d' /\ wrote d' (l ++ flat_map cwrites cs)).
    { induction 1 as [|c cs Hc _ IH]; intros R e e' k He We E; cbn [run_codes flat_map] in *.
      - inversion E; subst. rewrite app_nil_r. auto.
      - destruct (run_code n e c) as [e1|] eqn:E1; [|discriminate].
        destruct (Hc ltac:(intros v [V|V]; apply R; [left|right]; apply in_or_app; now left) _ _ _ He We E1) as [A B].
        rewrite app_assoc. apply (IH ltac:(intros v [V|V]; apply R; [left|right]; apply in_or_app; now right) _ _ _ A B E). }
    rewrite run_if in H. destruct (run_codes n d c1) as [d1|] eqn:E1; [|discriminate]. destruct (run_codes n d c2) as [d2|] eqn:E2; [|discriminate].
    inversion H; subst d'; clear H.
    destruct (L c1 H1 ltac:(intros v [V|V]; apply Hr; [left|right]; cbn; apply in_or_app; now left) _ _ _ Hi W E1) as [A1 B1].
    destruct (L c2 H2 ltac:(intros v [V|V]; apply Hr; [left|right]; cbn; apply in_or_app; now right) _ _ _ Hi W E2) as [A2 B2].
    split; [repeat apply merge_inside; assumption|]. intros v Hv. cbn in Hv. cbn [cwrites]. rewrite app_assoc, in_app_iff.
    apply orb_true_iff in Hv as [Hv|Hv].
    + apply orb_true_iff in Hv as [Hv|Hv]; [left; apply in_or_app; left; now apply W|left; now apply B1].
    + specialize (B2 v Hv). rewrite in_app_iff in B2. destruct B2; [left; apply in_or_app; now left|now right].
Qed.

Lemma run_codes_facts n cs : (forall v, In v (flat_map creads cs) \/ In v (flat_map cwrites cs) -> v < n) ->
  forall d d' l, inside n d -> wrote d l -> run_codes n d cs = Some d' -> inside n d' /\ wrote d' (l ++ flat_map cwrites cs).
Proof.
  induction cs as [|c cs IH]; intros R e e' k He We E; cbn [run_codes flat_map] in *.
  - inversion E; subst. rewrite app_nil_r. auto.
  - destruct (run_code n e c) as [e1|] eqn:E1; [|discriminate].
    destruct (run_code_facts n c ltac:(intros v [V|V]; apply R; [left|right]; apply in_or_app; now left) _ _ _ He We E1) as [A B].
    rewrite app_assoc. apply (IH ltac:(intros v [V|V]; apply R; [left|right]; apply in_or_app; now right) _ _ _ A B E).
Qed.

(** Along the code, the dependencies of what was assigned before and is not assigned again only grow. *)
Scheme exec_code0_mut := Minimality for exec_code0 Sort Prop with exec_codes0_mut := Minimality for exec_codes0 Sort Prop.
Combined Scheme exec0_ind from exec_code0_mut, exec_codes0_mut.

Lemma exec_writes : (forall c l, exec_code0 c l -> forall x v, In x l -> In v (i_written x) -> In v (cwrites c)) /\
                    (forall cs l, exec_codes0 cs l -> forall x v, In x l -> In v (i_written x) -> In v (flat_map cwrites cs)).
Proof.
  apply exec0_ind.
  - intros i x v [<-|[]] H. exact H.
  - intros t c1 c2 l _ IH x v Hx Hv. cbn. apply in_or_app. left. eauto.
  - intros t c1 c2 l _ IH x v Hx Hv. cbn. apply in_or_app. right. eauto.
  - intros x v [].
  - intros c cs a b _ IH1 _ IH2 x v Hx Hv. cbn. apply in_app_or in Hx. apply in_or_app. destruct Hx; [left|right]; eauto.
Qed.

Lemma last_write_app_out p l v j : (forall x, In x l -> ~ In v (i_written x)) -> last_write (p ++ l) (length (p ++ l)) v j <-> last_write p (length p) v j.
Proof.
  intros H. rewrite app_length. unfold last_write. split; intros (H1 & (x & Hx & Hv) & H3).
  - assert (L : j < length p).
    { destruct (lt_dec j (length p)); [assumption|]. rewrite nth_error_app2 in Hx by lia. apply nth_error_In in Hx. destruct (H x Hx Hv). }
    split; [assumption|]. split; [exists x; rewrite nth_error_app1 in Hx by lia; auto|]. intros k y Hk Hy. apply (H3 k y); [lia|]. rewrite nth_error_app1 by lia. assumption.
  - split; [lia|]. split; [exists x; rewrite nth_error_app1 by lia; auto|]. intros k y Hk Hy. destruct (lt_dec k (length p)) as [L|L].
    + rewrite nth_error_app1 in Hy by lia. apply (H3 k y); [lia|assumption].
    + rewrite nth_error_app2 in Hy by lia. apply nth_error_In in Hy. now apply H.
Qed.

Lemma wcovers_ext p d d' : (forall v, written d v = true -> written d' v = true) ->
  (forall v j, last_write p (length p) v j -> dep d' v = dep d v) -> wcovers p d -> wcovers p d'.
Proof. intros W E [C1 C2]. split; [intros v j H; apply W; eauto|]. intros v j k u H Hf. rewrite (E v j H). eauto. Qed.

Definition no_loop (p : list instr) : Prop := forall i j w, flow p i w j w -> False.

Lemma branches_ok n :
  (forall c l, exec_code0 c l -> code_range n c -> forall p d d' prev, inside n d -> wrote d prev -> separate prev c = true -> wcovers p d -> no_loop p ->
     run_code n d c = Some d' -> wcovers (p ++ l) d' /\ no_loop (p ++ l)) /\
  (forall cs l, exec_codes0 cs l -> (forall v, In v (flat_map creads cs) \/ In v (flat_map cwrites cs) -> v < n) ->
     forall p d d' prev, inside n d -> wrote d prev -> separates prev cs = true -> wcovers p d -> no_loop p ->
     run_codes n d cs = Some d' -> wcovers (p ++ l) d' /\ no_loop (p ++ l)).
Proof.
  apply exec0_ind.
  - intros i Hr p d d' prev Hi W _ C NL H.
    destruct (update_wstep n p d i d' Hr Hi C H) as [C' No]. split; [assumption|]. intros a j w Hf.
    assert (La : a < length (p ++ [i])) by (inversion Hf; subst; apply nth_error_Some; congruence). rewrite app_length in La; cbn in La.
    destruct (Nat.eq_dec a (length p)) as [->|]; [eapply No; eauto|]. apply flow_down in Hf; [|lia]. eapply NL; eauto.
  - intros t c1 c2 l He IH Hr p d d' prev Hi W Sp C NL H.
    rewrite separate_if in Sp. apply andb_true_iff in Sp as [Sp S2]. apply andb_true_iff in Sp as [Sp S1]. apply andb_true_iff in Sp as [D1 D2].
    rewrite run_if in H. destruct (run_codes n d c1) as [d1|] eqn:E1; [|discriminate]. destruct (run_codes n d c2) as [d2|] eqn:E2; [|discriminate].
    inversion H; subst d'; clear H.
    assert (R1 : forall v, In v (flat_map creads c1) \/ In v (flat_map cwrites c1) -> v < n) by (intros v [V|V]; apply Hr; [left|right]; cbn; apply in_or_app; now left).
    destruct (IH R1 p d d1 prev Hi W S1 C NL E1) as [C1 N1]. split; [|assumption].
    destruct (run_codes_facts n c1 R1 d d1 prev Hi W E1) as [_ W1].
    assert (X : forall v j, last_write (p ++ l) (length (p ++ l)) v j -> (In v (flat_map cwrites c1) \/ forall x, In x l -> ~ In v (i_written x))).
    { intros v j _. destruct (in_dec Nat.eq_dec v (flat_map cwrites c1)) as [I|I]; [now left|right]. intros x Hx Hv. apply I. eapply (proj2 exec_writes); eauto. }
    destruct C1 as [C1w C1f]. destruct C as [Cw Cf]. split.
    + intros v j Hl. cbn. rewrite (C1w v j Hl). now rewrite !orb_true_r.
    + intros v j k u Hl Hf. cbn. rewrite (C1w v j Hl), orb_true_r. destruct (written d v) eqn:Ed.
      * destruct (X v j Hl) as [I|I]; [destruct (disjoint_spec _ _ v D1 I (W v Ed))|].
        apply last_write_app_out in Hl; [|assumption]. apply flow_down in Hf; [eauto|]. destruct Hl; assumption.
      * eapply C1f; eauto.
  - intros t c1 c2 l He IH Hr p d d' prev Hi W Sp C NL H.
    rewrite separate_if in Sp. apply andb_true_iff in Sp as [Sp S2]. apply andb_true_iff in Sp as [Sp S1]. apply andb_true_iff in Sp as [D1 D2].
    rewrite run_if in H. destruct (run_codes n d c1) as [d1|] eqn:E1; [|discriminate]. destruct (run_codes n d c2) as [d2|] eqn:E2; [|discriminate].
    inversion H; subst d'; clear H.
    assert (R1 : forall v, In v (flat_map creads c1) \/ In v (flat_map cwrites c1) -> v < n) by (intros v [V|V]; apply Hr; [left|right]; cbn; apply in_or_app; now left).
    assert (R2 : forall v, In v (flat_map creads c2) \/ In v (flat_map cwrites c2) -> v < n) by (intros v [V|V]; apply Hr; [left|right]; cbn; apply in_or_app; now right).
    destruct (IH R2 p d d2 prev Hi W S2 C NL E2) as [C1 N1]. split; [|assumption].
    destruct (run_codes_facts n c1 R1 d d1 prev Hi W E1) as [_ W1].
    assert (X : forall v j, last_write (p ++ l) (length (p ++ l)) v j -> (In v (flat_map cwrites c2) \/ forall x, In x l -> ~ In v (i_written x))).
    { intros v j _. destruct (in_dec Nat.eq_dec v (flat_map cwrites c2)) as [I|I]; [now left|right]. intros x Hx Hv. apply I. eapply (proj2 exec_writes); eauto. }
    destruct C1 as [C1w C1f]. destruct C as [Cw Cf]. split.
    + intros v j Hl. cbn. rewrite (C1w v j Hl). now rewrite orb_true_r.
    + intros v j k u Hl Hf. cbn.
      destruct (X v j Hl) as [I|I].
      * assert (Nd : written d v = false) by (apply not_true_iff_false; intros K; apply (disjoint_spec _ _ v D2 I); apply in_or_app; left; now apply W).
        assert (Nd1 : written d1 v = false) by (apply not_true_iff_false; intros K; apply (disjoint_spec _ _ v D2 I); now apply W1).
        rewrite Nd, Nd1. cbn. eapply C1f; eauto.
      * apply last_write_app_out in Hl; [|assumption]. rewrite (Cw v j Hl). cbn. apply flow_down in Hf; [eauto|]. destruct Hl; assumption.
  - intros _ p d d' prev Hi W _ C NL H. cbn in H. inversion H; subst. rewrite app_nil_r. auto.
  - intros c cs a b He1 IH1 He2 IH2 Hr p d d' prev Hi W Sp C NL H. cbn [run_codes separates] in *. apply andb_true_iff in Sp as [Sp1 Sp2].
    destruct (run_code n d c) as [d1|] eqn:E1; [|discriminate].
    assert (R1 : code_range n c) by (intros v [V|V]; apply Hr; [left|right]; cbn; apply in_or_app; now left).
    destruct (IH1 R1 p d d1 prev Hi W Sp1 C NL E1) as [C1 N1]. destruct (run_code_facts n c R1 d d1 prev Hi W E1) as [I1 W1].
    rewrite app_assoc. apply (IH2 ltac:(intros v [V|V]; apply Hr; [left|right]; cbn; apply in_or_app; now right) (p ++ a) d1 d' (prev ++ cwrites c)); auto.
Qed.
