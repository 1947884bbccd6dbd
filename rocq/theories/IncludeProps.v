(** Property C20. *)
From Coq Require Import String Ascii List Bool Arith Lia.
From Verif Require Import IncludeModel IncludeProofs.
Import ListNotations.
Local Open Scope string_scope.
Local Open Scope list_scope.

(** Assembling finishes for any finite set of files, with the expansion of the file, or with an
    error naming a file that is on a reachable cycle, or missing. *)
Theorem C20_assemble_correct : forall fs universe f, (forall g, fs g <> None -> In g universe) ->
  match assemble fs (S (length universe)) [] f with
  | Ok c => exists d, Expand fs d f c
  | Cycle g => reach fs f g /\ exists h, includes fs g h /\ reach fs h g
  | Missing g => reach fs f g /\ fs g = None
  | NoFuel => False
  end.
Proof. exact assemble_correct. Qed.
Print Assumptions C20_assemble_correct.

(** Every file with a finite expansion is accepted, with that expansion. *)
Theorem C20_accepts_acyclic : forall fs universe f d c, (forall g, fs g <> None -> In g universe) ->
  Expand fs d f c -> assemble fs (S (length universe)) [] f = Ok c.
Proof. exact assemble_accepts. Qed.
Print Assumptions C20_accepts_acyclic.

(** And no reachable cycle is accepted. *)
Theorem C20_rejects_cycles : forall fs n f c g h, assemble fs n [] f = Ok c ->
  reach fs f g -> includes fs g h -> reach fs h g -> False.
Proof. intros fs n f c g h H. apply (Expand_acyclic fs n f c g h). exact (assemble_sound _ _ _ _ _ H). Qed.
Print Assumptions C20_rejects_cycles.

Definition fs_ex : files := fun f =>
  if String.eqb f "main" then Some [Text 1; Include "a"; Text 2; Include "a"]
  else if String.eqb f "a" then Some [Text 3]
  else if String.eqb f "loop" then Some [Include "b"]
  else if String.eqb f "b" then Some [Text 4; Include "loop"] else None.

Example C20_ex : assemble fs_ex 5 [] "main" = Ok [1; 3; 2; 3] /\ assemble fs_ex 5 [] "loop" = Cycle "loop"
  /\ (forall g, fs_ex g <> None -> In g ["main"; "a"; "loop"; "b"]).
Proof.
  split; [reflexivity|]. split; [reflexivity|]. intros g. unfold fs_ex.
  destruct (String.eqb_spec g "main"); [subst; cbn; tauto|]. destruct (String.eqb_spec g "a"); [subst; cbn; tauto|].
  destruct (String.eqb_spec g "loop"); [subst; cbn; tauto|]. destruct (String.eqb_spec g "b"); [subst; cbn; tauto|]. congruence.
Qed.

(** Resolution of names: a file relative to the including one is found when no other candidate exists. *)
Theorem C20_resolution_partial : forall ex sp path fname,
  ex fname = false -> ex (path ++ "/" ++ file_name fname)%string = false -> ex (path ++ "/" ++ fname)%string = true ->
  resolve ex sp path fname = (path ++ "/" ++ fname)%string.
Proof. exact resolve_relative. Qed.
Print Assumptions C20_resolution_partial.

(** An include of a file in a sub-folder takes the file with the same base name next to the including file instead:
    here a file without any cycle is rejected as cyclic. *)
Definition raw_sub : files := fun f =>
  if String.eqb f "a/m.si" then Some [Text 1; Include "lib/m.si"]
  else if String.eqb f "a/lib/m.si" then Some [Text 2] else None.

Theorem C20_subfolder_refuted :
  raw_sub "a/lib/m.si" = Some [Text 2] /\ raw_sub "lib/m.si" = None /\
  assemble (resolve_files raw_sub ["."]) 3 [] "a/m.si" = Cycle "a/m.si".
Proof. repeat split; reflexivity. Qed.
Print Assumptions C20_subfolder_refuted.

Example C20_resolution_ex : resolve (String.eqb "a/lib/n.si") ["."] (path_of "a/m.si") "lib/n.si" = "a/lib/n.si".
Proof. reflexivity. Qed.

(** The folder of a file is what precedes its last slash, the current one without slash; a file next to the including one is found when no file has the name as written. *)
Theorem C20_folder : forall f, no_slash f -> path_of f = "." /\ forall p, path_of (p ++ String "/"%char f) = p.
Proof. intros f H. split; [now apply path_of_plain|]. intros p. now apply path_of_folder. Qed.
Print Assumptions C20_folder.
Theorem C20_next_to : forall exists_ p f g, no_slash f -> no_slash g -> exists_ g = false -> exists_ (p ++ "/" ++ g)%string = true ->
  resolve exists_ [] (path_of (p ++ String "/"%char f)) g = (p ++ "/" ++ g)%string.
Proof.
  intros ex p f g Hf Hg H1 H2. rewrite path_of_folder by assumption. unfold resolve, find_in. cbn [fold_left]. rewrite H1.
  assert (E : forall g acc, no_slash g -> file_name_aux g acc = (acc ++ g)%string).
  { induction g0 as [|c g0 IH]; intros acc H; cbn [file_name_aux]; [now rewrite string_app_nil|]. destruct H as [Hc H]. destruct (Ascii.eqb_spec c "/"%char); [contradiction|].
    rewrite IH by assumption. now rewrite string_app_assoc. }
  unfold file_name. rewrite E by assumption. cbn [append]. cbn [append] in H2. now rewrite H2.
Qed.
Print Assumptions C20_next_to.
Example C20_next_to_ex : resolve (String.eqb "./n.si") [] (path_of "m.si") "n.si" = "./n.si" /\ resolve (String.eqb "a/b/n.si") [] (path_of "a/b/m.si") "n.si" = "a/b/n.si".
Proof. split; reflexivity. Qed.
