From Coq Require Import String Ascii List Bool Arith Lia Wf_nat.
From Verif Require Import IncludeModel.
Import ListNotations.
Local Open Scope list_scope.

Definition go_items (fs : files) (n : nat) (already : list string) : list item -> list nat -> res :=
  fix go (l : list item) (code : list nat) : res :=
    match l with
    | [] => Ok code
    | Text t :: l' => go l' (code ++ [t])
    | Include g :: l' =>
        match assemble fs n already g with
        | Ok c => go l' (code ++ c)
        | e => e
        end
    end.

Lemma assemble_S : forall fs n already f, assemble fs (S n) already f =
  match fs f with
  | None => Missing f
  | Some items => if existsb (String.eqb f) already then Cycle f else go_items fs n (f :: already) items []
  end.
Proof. reflexivity. Qed.

Lemma mem_In : forall x l, existsb (String.eqb x) l = true <-> In x l.
Proof.
  intros x l. rewrite existsb_exists. split.
  - intros (y & Hy & E). apply String.eqb_eq in E. congruence.
  - intros H. exists x. split; [assumption|apply String.eqb_refl].
Qed.

(** Expansion: every include replaced by the expansion of the file, to any finite depth. *)
Inductive Expand (fs : files) : nat -> string -> list nat -> Prop :=
| Exp : forall d f items code, fs f = Some items -> ExpItems fs d items code -> Expand fs (S d) f code
with ExpItems (fs : files) : nat -> list item -> list nat -> Prop :=
| EI_nil : forall d, ExpItems fs d [] []
| EI_text : forall d t l c, ExpItems fs d l c -> ExpItems fs d (Text t :: l) (t :: c)
| EI_incl : forall d g l c1 c2, Expand fs d g c1 -> ExpItems fs d l c2 -> ExpItems fs d (Include g :: l) (c1 ++ c2).

Definition includes (fs : files) (f g : string) : Prop := exists items, fs f = Some items /\ In (Include g) items.

Inductive reach (fs : files) : string -> string -> Prop :=
| reach_refl : forall f, reach fs f f
| reach_step : forall f g h, includes fs f g -> reach fs g h -> reach fs f h.

Lemma reach_trans : forall fs f g h, reach fs f g -> reach fs g h -> reach fs f h.
Proof. induction 1; auto. intros. econstructor; eauto. Qed.

(** Soundness. *)
Lemma assemble_sound : forall fs n already f c, assemble fs n already f = Ok c -> Expand fs n f c.
Proof.
  induction n as [|n IH]; intros already f c H; [discriminate|]. rewrite assemble_S in H.
  destruct (fs f) as [items|] eqn:E; [|discriminate]. destruct (existsb _ already); [discriminate|].
  apply Exp with (items := items); [assumption|].
  assert (K : forall l c0 c, go_items fs n (f :: already) l c0 = Ok c -> exists c1, c = c0 ++ c1 /\ ExpItems fs n l c1).
  { induction l as [|[t|g] l IHl]; intros c0 c' H'; cbn in H'.
    - inversion H'; subst. exists []. rewrite app_nil_r. split; [reflexivity|constructor].
    - apply IHl in H'. destruct H' as (c1 & -> & HE). exists (t :: c1). rewrite <- app_assoc. split; [reflexivity|constructor; assumption].
    - destruct (assemble fs n (f :: already) g) as [cg| | |] eqn:Eg; try discriminate.
      apply IHl in H'. destruct H' as (c1 & -> & HE). exists (cg ++ c1). rewrite <- app_assoc. split; [reflexivity|].
      constructor; [apply (IH _ _ _ Eg)|assumption]. }
  apply K in H. destruct H as (c1 & -> & HE). exact HE.
Qed.

(** Expansion is monotone in depth and deterministic. *)
Lemma ExpItems_mono_aux : forall fs d, (forall f c, Expand fs d f c -> Expand fs (S d) f c) ->
  forall l c, ExpItems fs d l c -> ExpItems fs (S d) l c.
Proof.
  intros fs d H l. induction l as [|[t|g] l IH]; intros c HE; inversion HE; subst; constructor; auto.
Qed.
Lemma Expand_S : forall fs d f c, Expand fs d f c -> Expand fs (S d) f c.
Proof.
  induction d as [|d IH]; intros f c H; inversion H; subst. econstructor; [eassumption|].
  apply ExpItems_mono_aux; assumption.
Qed.
Lemma Expand_le : forall fs d e f c, d <= e -> Expand fs d f c -> Expand fs e f c.
Proof. induction 1; auto. intros. apply Expand_S. auto. Qed.

Lemma ExpItems_include : forall fs d l c g, ExpItems fs d l c -> In (Include g) l -> exists cg, Expand fs d g cg.
Proof.
  induction l as [|[t|h] l IH]; intros c g HE Hin; [contradiction| |]; inversion HE; subst; cbn in Hin.
  - destruct Hin as [E|Hin]; [discriminate|]. eapply IH; eauto.
  - destruct Hin as [E|Hin]; [inversion E; subst; eauto|]. eapply IH; eauto.
Qed.

Lemma Expand_includes : forall fs d f c g, Expand fs (S d) f c -> includes fs f g -> exists cg, Expand fs d g cg.
Proof.
  intros fs d f c g H (items & E & Hin). inversion H; subst. rewrite E in *.
  match goal with X : Some _ = Some _ |- _ => inversion X; subst end. eapply ExpItems_include; eauto.
Qed.

Lemma Expand_reach : forall fs f g, reach fs f g -> forall d c, Expand fs d f c -> exists cg, Expand fs d g cg.
Proof.
  induction 1; intros d c HE; [eauto|]. destruct d as [|d]; [inversion HE|].
  destruct (Expand_includes _ _ _ _ _ HE H) as [cg Hg]. apply IHreach with (c := cg). apply Expand_S. exact Hg.
Qed.

(** A file with a finite expansion reaches no cycle. *)
Lemma Expand_acyclic : forall fs d f c g h, Expand fs d f c -> reach fs f g -> includes fs g h -> reach fs h g -> False.
Proof.
  intros fs d f c g h HE Hr Hi Hb. destruct (Expand_reach _ _ _ Hr _ _ HE) as [cg Hg].
  assert (K : forall n cg, Expand fs n g cg -> False).
  { induction n as [|n IH]; intros cg' H; [inversion H|].
    destruct (Expand_includes _ _ _ _ _ H Hi) as [ch Hh].
    destruct (Expand_reach _ _ _ Hb _ _ Hh) as [cg2 Hg2]. apply (IH _ Hg2). }
  apply (K _ _ Hg).
Qed.

Lemma ExpItems_det : forall fs d, (forall f c1 c2, Expand fs d f c1 -> Expand fs d f c2 -> c1 = c2) ->
  forall l c1 c2, ExpItems fs d l c1 -> ExpItems fs d l c2 -> c1 = c2.
Proof.
  intros fs d H l. induction l as [|[t|g] l IH]; intros c1 c2 H1 H2; inversion H1; subst; inversion H2; subst.
  - reflexivity.
  - f_equal. auto.
  - f_equal; eauto.
Qed.
Lemma Expand_det : forall fs d f c1 c2, Expand fs d f c1 -> Expand fs d f c2 -> c1 = c2.
Proof.
  induction d as [|d IH]; intros f c1 c2 H1 H2; inversion H1; subst; inversion H2; subst.
  match goal with A : fs f = Some ?x, B : fs f = Some ?y |- _ => assert (x = y) by congruence; subst end.
  eapply ExpItems_det; eauto.
Qed.

(** Completeness: a finite expansion is found. *)
Definition anc (fs : files) (already : list string) (f : string) : Prop :=
  forall a, In a already -> exists b, includes fs a b /\ reach fs b f.

Lemma go_complete : forall fs n already,
  (forall g c, Expand fs n g c -> anc fs already g -> assemble fs n already g = Ok c) ->
  forall l c c0, ExpItems fs n l c -> (forall g, In (Include g) l -> anc fs already g) ->
  go_items fs n already l c0 = Ok (c0 ++ c).
Proof.
  intros fs n already H l. induction l as [|[t|g] l IH]; intros c c0 HE Ha; inversion HE; subst; cbn.
  - rewrite app_nil_r. reflexivity.
  - rewrite (IH c1) by (auto; intros g Hg; apply Ha; right; exact Hg). rewrite <- app_assoc. reflexivity.
  - rewrite (H g c1) by (auto; apply Ha; left; reflexivity).
    rewrite (IH c2) by (auto; intros g' Hg'; apply Ha; right; exact Hg'). rewrite app_assoc. reflexivity.
Qed.

Lemma assemble_complete : forall fs n already f c, Expand fs n f c -> anc fs already f -> assemble fs n already f = Ok c.
Proof.
  induction n as [|n IH]; intros already f c HE Ha; [inversion HE|]. rewrite assemble_S.
  inversion HE; subst. rewrite H0. destruct (existsb (String.eqb f) already) eqn:Em.
  - exfalso. apply mem_In in Em. destruct (Ha f Em) as (b & Hb & Hr).
    apply (Expand_acyclic fs (S n) f c f b HE (reach_refl fs f) Hb Hr).
  - rewrite (go_complete fs n (f :: already)) with (c := c); auto.
    intros g Hg a Hin. assert (Hfg : includes fs f g) by (exists items; auto).
    destruct Hin as [<-|Hin].
    + exists g. split; [exact Hfg|constructor].
    + destruct (Ha a Hin) as (b & Hb & Hr). exists b. split; [exact Hb|]. apply (reach_trans _ _ _ _ Hr).
      econstructor; [exact Hfg|constructor].
Qed.

(** Termination. *)
Lemma assemble_no_fuel_aux : forall fs (universe : list string) n already f,
  (forall g, fs g <> None -> In g universe) -> NoDup already -> incl already universe ->
  length universe < n + length already -> assemble fs n already f <> NoFuel.
Proof.
  intros fs universe. induction n as [|n IH]; intros already f Hu Hn Hi Hl.
  - pose proof (NoDup_incl_length Hn Hi). lia.
  - rewrite assemble_S. destruct (fs f) as [items|] eqn:E; [|discriminate].
    destruct (existsb (String.eqb f) already) eqn:Em; [discriminate|].
    assert (Hnf : ~ In f already) by (rewrite <- mem_In; congruence).
    assert (K : forall l c, go_items fs n (f :: already) l c <> NoFuel).
    { induction l as [|[t|g] l IHl]; intros c; cbn; [discriminate|apply IHl|].
      assert (Hg : assemble fs n (f :: already) g <> NoFuel).
      { apply IH; auto.
        - constructor; assumption.
        - intros x [<-|Hx]; [apply Hu; congruence|apply Hi; assumption].
        - cbn. lia. }
      destruct (assemble fs n (f :: already) g); [apply IHl|discriminate|discriminate|contradiction Hg; reflexivity]. }
    apply K.
Qed.

Lemma assemble_terminates : forall fs universe f, (forall g, fs g <> None -> In g universe) ->
  assemble fs (S (length universe)) [] f <> NoFuel.
Proof.
  intros fs universe f Hu. apply (assemble_no_fuel_aux fs universe); auto; [constructor|intros x []|cbn; lia].
Qed.

(** Errors. *)
Lemma assemble_error : forall fs n already f g, anc fs already f ->
  (assemble fs n already f = Cycle g -> reach fs f g /\ exists h, includes fs g h /\ reach fs h g) /\
  (assemble fs n already f = Missing g -> reach fs f g /\ fs g = None).
Proof.
  induction n as [|n IH]; intros already f g Ha; [split; discriminate|]. rewrite !assemble_S.
  destruct (fs f) as [items|] eqn:E.
  2: { split; [discriminate|]. intros H; inversion H; subst. split; [constructor|assumption]. }
  destruct (existsb (String.eqb f) already) eqn:Em.
  { split; [|discriminate]. intros H; inversion H; subst. split; [constructor|].
    apply mem_In in Em. apply (Ha g Em). }
  assert (Hanc : forall x, includes fs f x -> anc fs (f :: already) x).
  { intros x Hx a [<-|Hin].
    - exists x. split; [exact Hx|constructor].
    - destruct (Ha a Hin) as (b & Hb & Hr). exists b. split; [exact Hb|]. apply (reach_trans _ _ _ _ Hr).
      econstructor; [exact Hx|constructor]. }
  assert (K : forall l c, incl l items ->
    (go_items fs n (f :: already) l c = Cycle g -> reach fs f g /\ exists h, includes fs g h /\ reach fs h g) /\
    (go_items fs n (f :: already) l c = Missing g -> reach fs f g /\ fs g = None)).
  { induction l as [|[t|x] l IHl]; intros c Hincl; cbn; [split; discriminate| |].
    - apply IHl. intros y Hy; apply Hincl; right; exact Hy.
    - assert (Hx : includes fs f x) by (exists items; split; [assumption|apply Hincl; left; reflexivity]).
      destruct (IH (f :: already) x g (Hanc x Hx)) as [I1 I2].
      destruct (assemble fs n (f :: already) x) as [cx|m|m|]; try (split; discriminate).
      + apply IHl. intros y Hy; apply Hincl; right; exact Hy.
      + split; [discriminate|]. intros H; inversion H; subst. destruct (I2 eq_refl) as [A B].
        split; [econstructor; eauto|exact B].
      + split; [|discriminate]. intros H; inversion H; subst. destruct (I1 eq_refl) as [A B].
        split; [econstructor; eauto|exact B]. }
  apply K. intros y Hy; exact Hy.
Qed.

(** Everything together. *)
Lemma assemble_correct : forall fs universe f, (forall g, fs g <> None -> In g universe) ->
  match assemble fs (S (length universe)) [] f with
  | Ok c => exists d, Expand fs d f c
  | Cycle g => reach fs f g /\ exists h, includes fs g h /\ reach fs h g
  | Missing g => reach fs f g /\ fs g = None
  | NoFuel => False
  end.
Proof.
  intros fs universe f Hu. pose proof (assemble_terminates fs universe f Hu) as Ht.
  assert (Ha : anc fs [] f) by (intros a []).
  destruct (assemble fs (S (length universe)) [] f) as [c|g|g|] eqn:E; [| | |congruence].
  - exists (S (length universe)). apply (assemble_sound _ _ _ _ _ E).
  - apply (proj2 (assemble_error fs _ [] f g Ha) E).
  - apply (proj1 (assemble_error fs _ [] f g Ha) E).
Qed.

Lemma assemble_accepts : forall fs universe f d c, (forall g, fs g <> None -> In g universe) ->
  Expand fs d f c -> assemble fs (S (length universe)) [] f = Ok c.
Proof.
  intros fs universe f d c Hu HE.
  pose proof (assemble_correct fs universe f Hu) as H.
  destruct (assemble fs (S (length universe)) [] f) as [c'|g|g|] eqn:E; [| | |contradiction].
  - destruct H as [d' H']. f_equal.
    apply (Expand_det fs (max d d') f); eapply Expand_le; try eassumption; lia.
  - exfalso. destruct H as [Hr Hn]. destruct (Expand_reach _ _ _ Hr _ _ HE) as [cg Hg].
    inversion Hg; subst. congruence.
  - exfalso. destruct H as (Hr & h & Hi & Hb). apply (Expand_acyclic _ _ _ _ _ _ HE Hr Hi Hb).
Qed.

Lemma find_in_first : forall ex path fname, ex fname = true -> find_in ex path fname = fname.
Proof. intros ex path fname H. unfold find_in. rewrite H. reflexivity. Qed.

Lemma fold_find_stable : forall ex sp f, ex f = true -> fold_left (fun f p => find_in ex p f) sp f = f.
Proof.
  intros ex. induction sp as [|p sp IH]; intros f H; [reflexivity|]. cbn [fold_left]. rewrite (find_in_first _ _ _ H). apply IH, H.
Qed.

(** The name is resolved next to the including file when the only file of that kind is there. *)
Lemma resolve_relative : forall ex sp path fname,
  ex fname = false -> ex (path ++ "/" ++ file_name fname)%string = false -> ex (path ++ "/" ++ fname)%string = true ->
  resolve ex sp path fname = (path ++ "/" ++ fname)%string.
Proof.
  intros ex sp path fname H1 H2 H3. unfold resolve. unfold find_in at 2. rewrite H1, H2, H3. apply fold_find_stable, H3.
Qed.

(** A name never resolves to a missing file while one of the candidates of the including file exists. *)
Lemma resolve_exists : forall ex sp path fname,
  ex fname = true \/ ex (path ++ "/" ++ file_name fname)%string = true \/ ex (path ++ "/" ++ fname)%string = true ->
  ex (resolve ex sp path fname) = true.
Proof.
  intros ex sp path fname H.
  assert (K : ex (find_in ex path fname) = true).
  { unfold find_in. destruct (ex fname) eqn:E1; [exact E1|].
    destruct (ex (path ++ "/" ++ file_name fname)%string) eqn:E2; [exact E2|].
    destruct (ex (path ++ "/" ++ fname)%string) eqn:E3; [exact E3|].
    destruct H as [H|[H|H]]; congruence. }
  unfold resolve. rewrite (fold_find_stable _ _ _ K). exact K.
Qed.

(** Folder of a file. *)
Fixpoint no_slash (s : string) : Prop := match s with EmptyString => True | String c r => c <> "/"%char /\ no_slash r end.
Lemma path_aux_plain : forall s acc best, no_slash s -> path_aux s acc best = best.
Proof.
  induction s as [|c s IH]; intros acc best H; [reflexivity|]. destruct H as [H1 H2]. cbn [path_aux].
  destruct (Ascii.eqb_spec c "/"%char) as [E|_]; [contradiction|]. now apply IH.
Qed.
Lemma string_app_assoc : forall a b c : string, ((a ++ b) ++ c = a ++ (b ++ c))%string.
Proof. induction a as [|x a IH]; intros b c; cbn; [reflexivity|]. now rewrite IH. Qed.
Lemma string_app_nil : forall a : string, (a ++ "" = a)%string.
Proof. induction a as [|x a IH]; cbn; [reflexivity|]. now rewrite IH. Qed.
Lemma path_aux_folder : forall p f acc best, no_slash f -> path_aux (p ++ String "/" f) acc best = Some (acc ++ p)%string.
Proof.
  induction p as [|c p IH]; intros f acc best H; cbn [append path_aux].
  - rewrite Ascii.eqb_refl, path_aux_plain by assumption. now rewrite string_app_nil.
  - rewrite IH by assumption. now rewrite string_app_assoc.
Qed.
Lemma path_of_plain : forall f, no_slash f -> path_of f = "."%string.
Proof. intros f H. unfold path_of. now rewrite path_aux_plain. Qed.
Lemma path_of_folder : forall p f, no_slash f -> path_of (p ++ String "/" f) = p.
Proof. intros p f H. unfold path_of. now rewrite path_aux_folder. Qed.
