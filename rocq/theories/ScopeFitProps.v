(** C54: which programs are accepted. *)
From Coq Require Import String Ascii List Bool Arith Lia.
From Verif Require Import NameModel NameProofs ScopeModel ScopeProofs ScopeMain ScopeProps ScopeFit.
Import ListNotations.
Local Open Scope string_scope.
Local Open Scope list_scope.

(** Names of variables and subroutines are not names of variables in the module, and labels do not start with an underscore. *)
Definition plain (ls ds xs : list string) : Prop := (forall x, In x xs -> ~ generated ls ds x) /\ (forall l, In l ls -> lab_ok l).

(** An algorithm is gathered without error if and only if it follows the rules of [fit]: a break in a loop, subroutines first, no repeat in a
    repeat, labels that are defined once and jumps to labels of the same machine, no two variables of the same name in a run. *)
Theorem C54_gathered_partial : forall ports p, plain (labels_of p) (decls_of p) (decls_of p ++ subs_of p) ->
  (exists s, gather_algorithm ports p = Some s) <-> fits_algorithm ports p = true.
Proof.
  intros ports p (C1 & C2). rewrite <- (algorithm_fit ports (labels_of p) (decls_of p) p).
  - destruct (gather_algorithm ports p) as [s|]; cbn [isS]; split.
    + reflexivity.
    + intros _. exists s. reflexivity.
    + intros (s & H). discriminate.
    + discriminate.
  - split; [|split].
    + intros x Hx. split; [apply C1, in_or_app; left; exact Hx|exact Hx].
    + intros l Hl. split; [exact Hl|exact (C2 l Hl)].
    + intros n Hn. apply C1, in_or_app. right. exact Hn.
Qed.
Theorem C54_unit_gathered_partial : forall ports xs p, plain (labels_of p) (xs ++ decls_of p) (xs ++ decls_of p ++ subs_of p) ->
  (exists s, gather_unit ports xs p = Some s) <-> fits_unit ports xs p = true.
Proof.
  intros ports xs p (C1 & C2). rewrite <- (unit_fit ports (labels_of p) (xs ++ decls_of p) xs p).
  - destruct (gather_unit ports xs p) as [s|]; cbn [isS]; split.
    + reflexivity.
    + intros _. exists s. reflexivity.
    + intros (s & H). discriminate.
    + discriminate.
  - intros x Hx. split; [apply C1, in_or_app; left; exact Hx|apply in_or_app; left; exact Hx].
  - split; [|split].
    + intros x Hx. split; [apply C1, in_or_app; right; apply in_or_app; left; exact Hx|apply in_or_app; right; exact Hx].
    + intros l Hl. split; [exact Hl|exact (C2 l Hl)].
    + intros n Hn. apply C1, in_or_app. right. apply in_or_app. right. exact Hn.
Qed.

(** An algorithm that follows the rules and whose names are bound is accepted. *)
Theorem C54_welcome_partial : forall ports p numbered written, plain (labels_of p) (decls_of p) (decls_of p ++ subs_of p) ->
  clean ports (labels_of p) (decls_of p) (names_of p ++ decls_of p) -> fits_algorithm ports p = true -> ord p fresh <> None ->
  forallb bound (lexical_algorithm ports p) = true -> exists s, gather_algorithm ports p = Some s /\ accepted ports s numbered written = true.
Proof.
  intros ports p numbered written C C' Hf Ho Hb. destruct (proj2 (C54_gathered_partial ports p C) Hf) as (s & H). exists s. split; [exact H|].
  exact (proj1 (C54_accepted_partial ports p s numbered written H Ho C') Hb).
Qed.

Definition plainb (ls ds xs : list string) : bool :=
  forallb (cleanb ls ds) xs && forallb (fun l => match l with String c _ => negb (Ascii.eqb c "_") | EmptyString => false end) ls.
Lemma plainb_ok : forall ls ds xs, plainb ls ds xs = true -> plain ls ds xs.
Proof.
  intros ls ds xs H. unfold plainb in H. apply andb_true_iff in H. destruct H as [H1 H2]. rewrite forallb_forall in H1, H2. split.
  - intros x Hx. apply cleanb_ok, H1, Hx.
  - intros l Hl. specialize (H2 l Hl). destruct l as [|c r]; [discriminate|]. exists c, r. split; [reflexivity|]. intros ->. discriminate.
Qed.
Example ex_welcome : plain (labels_of ex) (decls_of ex) (decls_of ex ++ subs_of ex) /\ fits_algorithm ["i"; "o"] ex = true
  /\ ord ex fresh <> None /\ forallb bound (lexical_algorithm ["i"; "o"] ex) = true.
Proof. split; [apply plainb_ok; vm_compute; reflexivity|]. split; [vm_compute; reflexivity|]. split; [vm_compute; discriminate|vm_compute; reflexivity]. Qed.
Example ex_unit_fits : fits_unit ["i"] ["a"] (KDecl "b" (KSub "f" ["a"] [] (KDecl "b" KEnd) (KBlock (KDecl "b" KEnd) (KBlock (KDecl "b" KEnd) KEnd)))) = true
  /\ plain [] ["a"; "b"; "b"; "b"; "b"] (["a"] ++ ["b"; "b"; "b"; "b"] ++ ["f"]).
Proof. split; [vm_compute; reflexivity|apply plainb_ok; vm_compute; reflexivity]. Qed.
(** Programs that do not follow the rules. *)
Example ex_unfit :
  fits_algorithm [] (KBreak KEnd) = false /\ fits_algorithm [] (KDecl "a" (KDecl "a" KEnd)) = false
  /\ fits_algorithm [] (KDecl "a" (KBlock (KDecl "a" (KUse 0 true "a" KEnd)) (KDecl "a" KEnd))) = true
  /\ fits_algorithm [] (KUse 0 true "a" (KSub "f" [] [] KEnd KEnd)) = false
  /\ fits_algorithm [] (KRepeat 2 (KBlock (KDecl "a" KEnd) KEnd) KEnd) = true /\ fits_algorithm [] (KRepeat 2 (KDecl "a" KEnd) KEnd) = false
  /\ fits_algorithm [] (KRepeat 2 (KRepeat 2 KEnd KEnd) KEnd) = false
  /\ fits_algorithm [] (KGoto "l" (KLabel "l" KEnd)) = true /\ fits_algorithm [] (KGoto "l" KEnd) = false
  /\ fits_algorithm [] (KLabel "l" (KPipe (CCons (KGoto "l" KEnd) (CCons KEnd CNil)) KEnd)) = false
  /\ fits_algorithm [] (KPipe (CCons (KLabel "l" KEnd) (CCons (KLabel "l" (KGoto "l" KEnd)) CNil)) KEnd) = true.
Proof. repeat split. Qed.

(** * Where it does not hold *)
(** Declaring a variable in one subroutine may be refused because of the name of a variable of another one, although no name is declared twice in
    a scope: names of blocks and of variables are joined with an underscore. With another name the program is accepted. *)
Definition joining (x : string) : code := KSub "f" [] [] (KDecl x KEnd) (KSub "f_g" [] [] (KDecl "h" KEnd) KEnd).
Theorem C54_joined_names_refuted : gather_algorithm [] (joining "g_h") = None
  /\ (forall y, ~ In y ["g_h"; "f"; "f_g"] -> (forall r, y <> String "_" r) -> exists s, gather_algorithm [] (joining y) = Some s)
  /\ clean [] (labels_of (joining "g_h")) (decls_of (joining "g_h")) (names_of (joining "g_h") ++ decls_of (joining "g_h")).
Proof.
  split; [vm_compute; reflexivity|]. split; [|apply cleansb_ok; vm_compute; reflexivity].
  intros y Hy Hu. apply C54_gathered_partial.
  - split; [|intros l []]. intros x Hx. unfold joining in *. cbn [labels_of decls_of subs_of app In] in *. intros [(r & ->)|(l & d & [] & _)].
    destruct Hx as [Hx|[Hx|[Hx|[Hx|[]]]]]; try discriminate. exact (Hu r Hx).
  - unfold fits_algorithm, joining, landed. cbn [fit negb f_pre f0 f_known f_vis mem existsb orb obind start clash taken f_run f_names f_dec].
    unfold clash, taken. cbn [f_known f_run f_names start mem existsb orb f0 declare f_pre back].
    change (mem "f" []) with false. cbn [orb obind fit].
    unfold clash, taken. cbn [f_known f_run f_names start mem existsb orb f0 declare f_pre back negb f_vis].
    change (String.eqb "f_g" "f") with false. cbn [orb obind fit].
    unfold clash, taken. cbn [f_known f_run f_names start mem existsb orb f0 declare f_pre back negb f_vis].
    change (String.eqb "h" "f") with false. cbn [orb].
    assert (E : String.eqb (joined (String.append "__sub_" "f_g") "h") (joined (String.append "__sub_" "f") y) = false).
    { apply String.eqb_neq. unfold joined. cbn [String.append]. intros H. repeat (injection H as H). apply Hy. left. exact H. }
    rewrite E. reflexivity.
Qed.

Print Assumptions C54_gathered_partial.
Print Assumptions C54_unit_gathered_partial.
Print Assumptions C54_welcome_partial.
Print Assumptions C54_joined_names_refuted.
