(** Property C34. *)
From Coq Require Import String Ascii List Bool Arith Lia Permutation.
From Verif Require Import TemplateModel TemplateProofs.
Import ListNotations.
Local Open Scope string_scope.
Local Open Scope list_scope.

(** Every marker is replaced by its value, in any order of the replacements, when values contain no
    '%', no '$' starting an escape sequence, and the text between two markers is not itself an identifier. *)
Theorem C34_template_partial : forall env t, NoDup (map fst env) ->
  (forall k v, In (k, v) env -> ident_key k /\ no_char pct v /\ plain v) ->
  wf t -> from_string (text_of t) env = subst env t.
Proof. exact from_string_correct. Qed.
Print Assumptions C34_template_partial.

Theorem C34_order_partial : forall env env' t, Permutation env env' -> NoDup (map fst env) ->
  (forall k v, In (k, v) env -> ident_key k /\ no_char pct v /\ plain v) ->
  wf t -> from_string (text_of t) env = from_string (text_of t) env'.
Proof. exact from_string_order. Qed.
Print Assumptions C34_order_partial.

Definition T (s : string) : text := list_ascii_of_string s.

Definition ex_t := [Lit (T "reg "); Mark (T "DATA_TYPE"); Lit (T " ["); Mark (T "DATA_WIDTH"); Lit (T "-1:0] buffer;")].
Definition ex_env := [(T "DATA_WIDTH", T "8"); (T "DATA_TYPE", T "signed")].
Example C34_ex : from_string (text_of ex_t) ex_env = T "reg signed [8-1:0] buffer;" /\ wf ex_t /\ NoDup (map fst ex_env).
Proof.
  split; [reflexivity|]. split.
  - assert (N : forall x l, existsb (Ascii.eqb x) l = false -> no_char x l).
    { intros x l H Hin. assert (existsb (Ascii.eqb x) l = true); [|congruence].
      apply existsb_exists. exists x. split; [assumption|apply Ascii.eqb_refl]. }
    assert (I : forall k, forallb identb k = true -> ident_key k).
    { intros k H c Hc. rewrite forallb_forall in H. auto. }
    cbn [wf ex_t]. split; [apply N; reflexivity|]. split; [apply I; reflexivity|]. split.
    { intros g Hg. inversion Hg; subst. exists " "%char. split; [left; reflexivity|reflexivity]. }
    split; [apply N; reflexivity|]. split; [apply I; reflexivity|]. split; [intros g Hg; discriminate|].
    split; [apply N; reflexivity|exact Logic.I].
  - constructor; [|constructor; [intros []|constructor]]. cbn. intros [H|[]]. discriminate.
Qed.

(** A value that contains a marker is substituted again, depending on the order of the map. *)
Theorem C34_order_refuted : exists code e1 e2, Permutation e1 e2 /\ from_string code e1 <> from_string code e2.
Proof.
  exists (T "%A%"), [(T "A", T "%B%"); (T "B", T "x")], [(T "B", T "x"); (T "A", T "%B%")].
  split; [apply perm_swap|]. cbn. discriminate.
Qed.
Print Assumptions C34_order_refuted.

(** A value with every '$' written twice is inserted with each written once. *)
Theorem C34_doubled_dollars : forall K v, from_string (pattern K) [(K, doubled v)] = v.
Proof. exact marker_doubled. Qed.
Print Assumptions C34_doubled_dollars.
Example C34_plain_ex : plain (T "$signed(a)$") /\ doubled (T "a$&b") = T "a$$&b".
Proof.
  split; [|reflexivity]. intros a d b E. destruct a as [|c0 [|c1 [|c2 [|c3 [|c4 [|c5 [|c6 [|c7 [|c8 [|c9 [|c10 a]]]]]]]]]]]; cbn in E; inversion E; try reflexivity.
  destruct a; discriminate.
Qed.

(** A '$' sequence in a value is interpreted. *)
Theorem C34_dollar_refuted : exists v, from_string (T "%INITIAL%") [(T "INITIAL", v)] <> v.
Proof. exists (T "8'b$&"). cbn. discriminate. Qed.
Print Assumptions C34_dollar_refuted.

(** The closing '%' of a marker that has no value and the opening '%' of the next enclose an identifier: it is replaced. *)
Theorem C34_between_refuted : exists t env, NoDup (map fst env) /\
  (forall k v, In (k, v) env -> ident_key k /\ no_char pct v /\ plain v) /\ from_string (text_of t) env <> subst env t.
Proof.
  exists [Mark (T "X"); Lit (T "A"); Mark (T "Y")], [(T "A", T "1")]. split.
  - constructor; [intros []|constructor].
  - split; [|cbn; discriminate]. intros k v [H|[]]. inversion H; subst. split; [|split].
    + intros c [<-|[]]. reflexivity.
    + intros [H'|[]]. discriminate.
    + apply no_dollar_plain. intros [H'|[]]. discriminate.
Qed.
Print Assumptions C34_between_refuted.
