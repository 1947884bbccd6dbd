(** The parser of Verilog expressions finds the tree of a sequence of tokens, and no other. *)
From Coq Require Import String Ascii List Bool Arith NArith Lia.
From Verif Require Import LiteralModel ExprModel ExprLex.
Import ListNotations.
Local Open Scope string_scope.
Local Open Scope list_scope.

Lemma p_args_S : forall (n : nat) (ts : list tok), p_args (S n) ts =
      match p_expr n ts with
      | Some (a, t :: r) =>
          if op_is "," t then match p_args n r with Some (b, r') => Some (VComma a b, r') | None => None end
          else Some (a, t :: r)
      | x => x
      end.
Proof. reflexivity. Qed.

Lemma p_expr_S : forall (n : nat) (ts : list tok), p_expr (S n) ts =
      match p_level n 10 ts with
      | Some (c, t :: r) =>
          if op_is "?" t then
            match p_expr n r with
            | Some (a, t' :: r') =>
                if op_is ":" t' then match p_expr n r' with Some (b, r'') => Some (VTern c a b, r'') | None => None end else None
            | _ => None
            end
          else Some (c, t :: r)
      | x => x
      end.
Proof. reflexivity. Qed.

Lemma p_level_S : forall (n k : nat) (ts : list tok), p_level (S n) k ts =
      match k with
      | O => p_unary n ts
      | S k' => match p_level n k' ts with Some (l, r) => p_loop n k l r | None => None end
      end.
Proof. reflexivity. Qed.

Lemma p_loop_S : forall (n k : nat) (l : vexpr) (ts : list tok), p_loop (S n) k l ts =
      match ts with
      | TOp s :: r =>
          match vlevel s with
          | Some (o, lv) =>
              if (lv =? 12 - k)%nat
              then match p_level n (pred k) r with Some (x, r') => p_loop n k (VBin o l x) r' | None => None end
              else Some (l, ts)
          | None => Some (l, ts)
          end
      | _ => Some (l, ts)
      end.
Proof. reflexivity. Qed.

Lemma p_unary_S : forall (n : nat) (ts : list tok), p_unary (S n) ts =
      match ts with
      | TOp s :: r =>
          match vunary s with
          | Some o => match p_unary n r with Some (a, r') => Some (VUn o a, r') | None => None end
          | None => p_primary n ts
          end
      | _ => p_primary n ts
      end.
Proof. reflexivity. Qed.

Lemma p_primary_S : forall (n : nat) (ts : list tok), p_primary (S n) ts =
      match ts with
      | TOp s :: r =>
          if String.eqb s "(" then
            match p_expr n r with
            | Some (x, t :: r') => if op_is ")" t then Some (VParen x, r') else None
            | _ => None
            end
          else if String.eqb s "{" then
            match r with
            | TWord m :: t :: r1 =>
                if op_is "{" t then
                  match p_primary n (t :: r1) with
                  | Some (c, t' :: r') => if op_is "}" t' then Some (VRep m c, r') else None
                  | _ => None
                  end
                else
                  match p_args n r with
                  | Some (x, t' :: r') => if op_is "}" t' then Some (VCat x, r') else None
                  | _ => None
                  end
            | _ =>
                match p_args n r with
                | Some (x, t' :: r') => if op_is "}" t' then Some (VCat x, r') else None
                | _ => None
                end
            end
          else None
      | TWord s :: t :: r =>
          if op_is "(" t then
            match p_expr n r with
            | Some (x, t' :: r') => if op_is ")" t' then Some (VCall s x, r') else None
            | _ => None
            end
          else p_suffix n (VWord s) (t :: r)
      | [TWord s] => Some (VWord s, [])
      | [] => None
      end.
Proof. reflexivity. Qed.

Lemma p_suffix_S : forall (n : nat) (b : vexpr) (ts : list tok), p_suffix (S n) b ts =
      match ts with
      | t :: r =>
          if op_is "[" t then
            match p_expr n r with
            | Some (x, t' :: r') =>
                if op_is "]" t' then p_suffix n (VIndex b x) r'
                else if op_is "+:" t' then
                  match r' with
                  | TWord m :: t'' :: r'' => if op_is "]" t'' then Some (VSel b x m, r'') else None
                  | _ => None
                  end
                else None
            | _ => None
            end
          else Some (b, ts)
      | [] => Some (b, [])
      end.
Proof. reflexivity. Qed.

Lemma p_zero : (forall ts, p_args 0 ts = None) /\ (forall ts, p_expr 0 ts = None) /\ (forall k ts, p_level 0 k ts = None) /\
  (forall k l ts, p_loop 0 k l ts = None) /\ (forall ts, p_unary 0 ts = None) /\ (forall ts, p_primary 0 ts = None) /\
  (forall b ts, p_suffix 0 b ts = None).
Proof. repeat split. Qed.

(** More fuel does not change a result. *)
Definition more (n m : nat) : Prop :=
  (forall ts r, p_args n ts = Some r -> p_args m ts = Some r) /\
  (forall ts r, p_expr n ts = Some r -> p_expr m ts = Some r) /\
  (forall k ts r, p_level n k ts = Some r -> p_level m k ts = Some r) /\
  (forall k l ts r, p_loop n k l ts = Some r -> p_loop m k l ts = Some r) /\
  (forall ts r, p_unary n ts = Some r -> p_unary m ts = Some r) /\
  (forall ts r, p_primary n ts = Some r -> p_primary m ts = Some r) /\
  (forall b ts r, p_suffix n b ts = Some r -> p_suffix m b ts = Some r).

Ltac use_more :=
  match goal with
  | I : more ?n ?m, H : context [match p_args ?n ?ts with _ => _ end] |- _ =>
      let E := fresh "E" in destruct (p_args n ts) as [[? ?]|] eqn:E; [apply (proj1 I) in E; rewrite E|discriminate H]
  | I : more ?n ?m, H : context [match p_expr ?n ?ts with _ => _ end] |- _ =>
      let E := fresh "E" in destruct (p_expr n ts) as [[? ?]|] eqn:E; [apply (proj1 (proj2 I)) in E; rewrite E|discriminate H]
  | I : more ?n ?m, H : context [match p_level ?n ?k ?ts with _ => _ end] |- _ =>
      let E := fresh "E" in destruct (p_level n k ts) as [[? ?]|] eqn:E; [apply (proj1 (proj2 (proj2 I))) in E; rewrite E|discriminate H]
  | I : more ?n ?m, H : context [match p_unary ?n ?ts with _ => _ end] |- _ =>
      let E := fresh "E" in destruct (p_unary n ts) as [[? ?]|] eqn:E; [apply (proj1 (proj2 (proj2 (proj2 (proj2 I))))) in E; rewrite E|discriminate H]
  | I : more ?n ?m, H : context [match p_primary ?n ?ts with _ => _ end] |- _ =>
      let E := fresh "E" in destruct (p_primary n ts) as [[? ?]|] eqn:E; [apply (proj1 (proj2 (proj2 (proj2 (proj2 (proj2 I)))))) in E; rewrite E|discriminate H]
  | I : more ?n ?m, H : p_loop ?n _ _ _ = Some _ |- p_loop ?m _ _ _ = _ => exact (proj1 (proj2 (proj2 (proj2 I))) _ _ _ _ H)
  | I : more ?n ?m, H : p_suffix ?n _ _ = Some _ |- p_suffix ?m _ _ = _ => exact (proj2 (proj2 (proj2 (proj2 (proj2 (proj2 I))))) _ _ _ H)
  | I : more ?n ?m, H : p_unary ?n _ = Some _ |- p_unary ?m _ = _ => exact (proj1 (proj2 (proj2 (proj2 (proj2 I)))) _ _ H)
  | I : more ?n ?m, H : p_primary ?n _ = Some _ |- p_primary ?m _ = _ => exact (proj1 (proj2 (proj2 (proj2 (proj2 (proj2 I))))) _ _ H)
  | H : Some _ = Some _ |- _ => exact H
  | H : None = Some _ |- _ => discriminate H
  | H : context [match ?l with [] => _ | _ :: _ => _ end] |- _ => is_var l; destruct l
  | H : context [match ?l with TWord _ => _ | TOp _ => _ end] |- _ => is_var l; destruct l
  | H : context [if ?c then _ else _] |- _ => destruct c
  | H : context [match vlevel ?s with _ => _ end] |- _ => destruct (vlevel s) as [[? ?]|]
  | H : context [match vunary ?s with _ => _ end] |- _ => destruct (vunary s)
  | H : context [match ?k with O => _ | S _ => _ end] |- _ => is_var k; destruct k
  end.

Lemma more_S : forall n, more n (S n).
Proof.
  induction n as [|n IH].
  - destruct p_zero as (Z1 & Z2 & Z3 & Z4 & Z5 & Z6 & Z7). unfold more.
    repeat split; intros; rewrite ?Z1, ?Z2, ?Z3, ?Z4, ?Z5, ?Z6, ?Z7 in *; discriminate.
  - split; [|split; [|split; [|split; [|split; [|split]]]]]; intros.
    + rewrite p_args_S in *. repeat use_more.
    + rewrite p_expr_S in *. repeat use_more.
    + rewrite p_level_S in *. repeat use_more.
    + rewrite p_loop_S in *. repeat use_more.
    + rewrite p_unary_S in *. repeat use_more.
    + rewrite p_primary_S in *. repeat use_more.
    + rewrite p_suffix_S in *. repeat use_more.
Qed.

Lemma more_le : forall n m, n <= m -> more n m.
Proof.
  intros n m L. induction L as [|m L IH]; [unfold more; repeat split; intros; assumption|].
  pose proof (more_S m) as M. destruct IH as (A1 & A2 & A3 & A4 & A5 & A6 & A7), M as (B1 & B2 & B3 & B4 & B5 & B6 & B7).
  unfold more. split; [|split; [|split; [|split; [|split; [|split]]]]]; intros; eauto.
Qed.

(** A sequence of tokens has at most one reading. *)
Theorem p_unique : forall ts n m v v', p_expr n ts = Some (v, []) -> p_expr m ts = Some (v', []) -> v = v'.
Proof.
  intros ts n m v v' H H'. apply (proj1 (proj2 (more_le n (n + m) ltac:(lia)))) in H. apply (proj1 (proj2 (more_le m (n + m) ltac:(lia)))) in H'.
  rewrite H in H'. injection H' as <-. reflexivity.
Qed.

(** * Trees that the grammar and the precedences allow *)
Definition vprec (o : bop) : nat := match vlevel (btext o) with Some (_, k) => k | None => 0 end.
Lemma vprec_slevel : forall o, vprec o = slevel o. Proof. destruct o; reflexivity. Qed.
Lemma vlevel_b : forall o, vlevel (btext o) = Some (o, vprec o). Proof. destruct o; reflexivity. Qed.
Lemma vprec_range : forall o, 2 <= vprec o <= 11. Proof. destruct o; vm_compute; lia. Qed.
Lemma vunary_u : forall o, vunary (utext o) = Some o. Proof. destruct o; reflexivity. Qed.

Lemma vlevel_inv : forall s o k, vlevel s = Some (o, k) -> s = btext o /\ k = vprec o.
Proof.
  intros s o k H. unfold vlevel in H.
  match type of H with match find ?f ?l with _ => _ end = _ => destruct (find f l) as [p|] eqn:F; [|discriminate] end. injection H as ->.
  apply find_some in F. destruct F as [I E]. apply String.eqb_eq in E. cbn [fst] in E. subst s.
  split; [reflexivity|]. cbn [In] in I. repeat (destruct I as [I|I]; [injection I as <- <-; reflexivity|]). contradiction.
Qed.
Lemma vunary_inv : forall s o, vunary s = Some o -> s = utext o.
Proof. intros s o H. unfold vunary in H. apply find_some in H. destruct H as [_ E]. apply String.eqb_eq in E. symmetry. exact E. Qed.

Definition vl (v : vexpr) : nat :=
  match v with VComma _ _ => 0 | VTern _ _ _ => 1 | VBin o _ _ => vprec o | VUn _ _ => 12 | _ => 13 end.
Definition vbase (v : vexpr) : Prop := match v with VWord _ | VIndex _ _ => True | _ => False end.
Definition vbrace (v : vexpr) : Prop := match v with VCat _ | VRep _ _ => True | _ => False end.
Fixpoint fits (v : vexpr) : Prop :=
  match v with
  | VWord _ => True
  | VIndex b e => vbase b /\ fits b /\ 1 <= vl e /\ fits e
  | VSel b e _ => vbase b /\ fits b /\ 1 <= vl e /\ fits e
  | VParen e | VCall _ e => 1 <= vl e /\ fits e
  | VCat a => fits a
  | VRep _ c => vbrace c /\ fits c
  | VUn _ a => 12 <= vl a /\ fits a
  | VBin o l r => vprec o <= vl l /\ fits l /\ S (vprec o) <= vl r /\ fits r
  | VTern c a b => 2 <= vl c /\ fits c /\ 1 <= vl a /\ fits a /\ 1 <= vl b /\ fits b
  | VComma a b => 1 <= vl a /\ fits a /\ fits b
  end.

(** * What is parsed is a tree of these tokens *)
Definition sound (n : nat) : Prop :=
  (forall ts v r, p_args n ts = Some (v, r) -> ts = vprint v ++ r /\ fits v) /\
  (forall ts v r, p_expr n ts = Some (v, r) -> ts = vprint v ++ r /\ fits v /\ 1 <= vl v) /\
  (forall k ts v r, k <= 10 -> p_level n k ts = Some (v, r) -> ts = vprint v ++ r /\ fits v /\ 12 - k <= vl v) /\
  (forall k l ts v r, 1 <= k <= 10 -> fits l -> 12 - k <= vl l -> p_loop n k l ts = Some (v, r) ->
     vprint l ++ ts = vprint v ++ r /\ fits v /\ 12 - k <= vl v) /\
  (forall ts v r, p_unary n ts = Some (v, r) -> ts = vprint v ++ r /\ fits v /\ 12 <= vl v) /\
  (forall ts v r, p_primary n ts = Some (v, r) -> ts = vprint v ++ r /\ fits v /\ 12 <= vl v /\
     match ts with TOp "{" :: _ => vbrace v | _ => True end) /\
  (forall b ts v r, vbase b -> fits b -> p_suffix n b ts = Some (v, r) -> vprint b ++ ts = vprint v ++ r /\ fits v /\ 12 <= vl v).

Lemma op_is_eq : forall s t, op_is s t = true -> t = TOp s.
Proof. intros s [w|o] H; [discriminate|]. cbn in H. apply String.eqb_eq in H. subst o. reflexivity. Qed.

Lemma vbase_vl : forall b, vbase b -> vl b = 13. Proof. intros [] H; try contradiction; reflexivity. Qed.

Ltac norm := repeat (rewrite <- app_assoc || cbn [app]); try reflexivity.
Lemma sound_all : forall n, sound n.
Proof.
  induction n as [|n (I1 & I2 & I3 & I4 & I5 & I6 & I7)].
  - destruct p_zero as (Z1 & Z2 & Z3 & Z4 & Z5 & Z6 & Z7). unfold sound.
    split; [|split; [|split; [|split; [|split; [|split]]]]]; intros; rewrite ?Z1, ?Z2, ?Z3, ?Z4, ?Z5, ?Z6, ?Z7 in *; discriminate.
  - split; [|split; [|split; [|split; [|split; [|split]]]]].
    + intros ts v r H. rewrite p_args_S in H. destruct (p_expr n ts) as [[a [|t q]]|] eqn:E; [| |discriminate].
      * injection H as <- <-. apply I2 in E. tauto.
      * apply I2 in E. destruct E as (E & F & L). destruct (op_is "," t) eqn:O.
        -- apply op_is_eq in O. subst t. destruct (p_args n q) as [[b q']|] eqn:E2; [|discriminate]. injection H as <- <-.
           apply I1 in E2. destruct E2 as (E2 & F2). subst ts q. cbn [vprint fits]. split; [norm|tauto].
        -- injection H as <- <-. tauto.
    + intros ts v r H. rewrite p_expr_S in H. destruct (p_level n 10 ts) as [[c [|t q]]|] eqn:E; [| |discriminate].
      * injection H as <- <-. apply I3 in E; [|lia]. destruct E as (E & F & L). split; [exact E|]. split; [exact F|lia].
      * apply I3 in E; [|lia]. destruct E as (E & F & L). destruct (op_is "?" t) eqn:O.
        -- apply op_is_eq in O. subst t. destruct (p_expr n q) as [[a [|t' q']]|] eqn:E2; try discriminate.
           destruct (op_is ":" t') eqn:O; [|discriminate]. apply op_is_eq in O. subst t'.
           destruct (p_expr n q') as [[b q'']|] eqn:E3; [|discriminate]. injection H as <- <-.
           apply I2 in E2. apply I2 in E3. destruct E2 as (E2 & F2 & L2), E3 as (E3 & F3 & L3). subst ts q q'. cbn [vprint fits vl].
           split; [norm|]. split; [|lia]. tauto.
        -- injection H as <- <-. split; [exact E|]. split; [exact F|lia].
    + intros k ts v r K H. rewrite p_level_S in H. destruct k as [|k].
      * apply I5 in H. exact H.
      * destruct (p_level n k ts) as [[l q]|] eqn:E; [|discriminate]. apply I3 in E; [|lia]. destruct E as (E & F & L).
        apply I4 in H; [|lia|exact F|lia]. subst ts. exact H.
    + intros k l ts v r K F L H. rewrite p_loop_S in H.
      assert (Z : Some (l, ts) = Some (v, r) -> vprint l ++ ts = vprint v ++ r /\ fits v /\ 12 - k <= vl v).
      { intro X. injection X as <- <-. split; [reflexivity|]. split; [exact F|exact L]. }
      destruct ts as [|[w|s] q]; try exact (Z H). destruct (vlevel s) as [[o lv]|] eqn:V; [|exact (Z H)].
      destruct (lv =? 12 - k)%nat eqn:Q; [|exact (Z H)]. apply Nat.eqb_eq in Q. apply vlevel_inv in V. destruct V as (V1 & V2). subst s.
      destruct (p_level n (pred k) q) as [[x q']|] eqn:E; [|discriminate]. apply I3 in E; [|lia]. destruct E as (E & F2 & L2). subst q.
      apply I4 in H; [|exact K| |].
      * destruct H as (H & Fv & Lv). split; [|split; assumption]. rewrite <- H. cbn [vprint]. norm.
      * cbn [fits]. split; [lia|]. split; [exact F|]. split; [lia|exact F2].
      * cbn [vl]. lia.
    + intros ts v r H. rewrite p_unary_S in H.
      assert (Z : p_primary n ts = Some (v, r) -> ts = vprint v ++ r /\ fits v /\ 12 <= vl v) by (intro X; apply I6 in X; tauto).
      destruct ts as [|[w|s] q]; try exact (Z H). destruct (vunary s) as [o|] eqn:V; [|exact (Z H)]. apply vunary_inv in V. subst s.
      destruct (p_unary n q) as [[a q']|] eqn:E; [|discriminate]. injection H as <- <-. apply I5 in E. destruct E as (E & F & L). subst q.
      cbn [vprint fits vl]. split; [norm|]. split; [|lia]. split; assumption.
    + intros ts v r H. rewrite p_primary_S in H. destruct ts as [|[w|s] q]; [discriminate| |].
      * destruct q as [|t q]; [injection H as <- <-; split; [reflexivity|]; split; [exact I|]; split; [cbn; lia|exact I]|].
        destruct (op_is "(" t) eqn:O.
        -- apply op_is_eq in O. subst t. destruct (p_expr n q) as [[x [|t' q']]|] eqn:E; try discriminate.
           destruct (op_is ")" t') eqn:O; [|discriminate]. apply op_is_eq in O. subst t'. injection H as <- <-.
           apply I2 in E. destruct E as (E & F & L). subst q. cbn [vprint fits vl]. split; [norm|]. split; [tauto|]. split; [lia|exact I].
        -- apply I7 in H; [|exact I|exact I]. destruct H as (H & F & L). cbn [vprint app] in H. rewrite <- H. tauto.
      * destruct (String.eqb_spec s "(") as [->|N1].
        { destruct (p_expr n q) as [[x [|t' q']]|] eqn:E; try discriminate.
          destruct (op_is ")" t') eqn:O; [|discriminate]. apply op_is_eq in O. subst t'. injection H as <- <-.
          apply I2 in E. destruct E as (E & F & L). subst q. cbn [vprint fits vl]. split; [norm|]. split; [tauto|]. split; [lia|exact I]. }
        destruct (String.eqb_spec s "{") as [->|N2]; [|discriminate].
        assert (Z : match p_args n q with
                | Some (x, t' :: r') => if op_is "}" t' then Some (VCat x, r') else None
                | _ => None
                end = Some (v, r) -> TOp "{" :: q = vprint v ++ r /\ fits v /\ 12 <= vl v /\ vbrace v).
        { intro X. destruct (p_args n q) as [[x [|t' q']]|] eqn:E; try discriminate.
          destruct (op_is "}" t') eqn:O; [|discriminate]. apply op_is_eq in O. subst t'. injection X as <- <-.
          apply I1 in E. destruct E as (E & F). subst q. cbn [vprint fits vl vbrace]. split; [norm|]. split; [exact F|]. split; [lia|exact I]. }
        destruct q as [|[m|s2] [|t q]]; try exact (Z H).
        destruct (op_is "{" t) eqn:O; [|exact (Z H)]. apply op_is_eq in O. subst t.
        destruct (p_primary n (TOp "{" :: q)) as [[c [|t' q']]|] eqn:E; try discriminate.
        destruct (op_is "}" t') eqn:O; [|discriminate]. apply op_is_eq in O. subst t'. injection H as <- <-.
        apply I6 in E. destruct E as (E & F & L & B). rewrite E. cbn [vprint fits vl vbrace]. split; [norm|]. split; [tauto|]. split; [lia|exact I].
    + intros b ts v r B F H. rewrite p_suffix_S in H.
      assert (Z : Some (b, ts) = Some (v, r) -> vprint b ++ ts = vprint v ++ r /\ fits v /\ 12 <= vl v).
      { intro X. injection X as <- <-. split; [reflexivity|]. split; [exact F|]. rewrite (vbase_vl b B). lia. }
      destruct ts as [|t q]; [exact (Z H)|]. destruct (op_is "[" t) eqn:O; [|exact (Z H)]. apply op_is_eq in O. subst t.
      destruct (p_expr n q) as [[x [|t' q']]|] eqn:E; try discriminate. apply I2 in E. destruct E as (E & F2 & L2). subst q.
      destruct (op_is "]" t') eqn:O.
      * apply op_is_eq in O. subst t'. apply I7 in H; [|exact I|cbn [fits]; tauto].
        destruct H as (H & F3 & L3). split; [|split; assumption]. rewrite <- H. cbn [vprint]. norm.
      * destruct (op_is "+:" t') eqn:O2; [|discriminate]. apply op_is_eq in O2. subst t'.
        destruct q' as [|[m|s2] [|t'' q'']]; try discriminate. destruct (op_is "]" t'') eqn:O3; [|discriminate]. apply op_is_eq in O3. subst t''.
        injection H as <- <-. cbn [vprint fits vl]. split; [norm|]. split; [tauto|lia].
Qed.

Theorem parse_sound : forall n ts v, p_expr n ts = Some (v, []) -> ts = vprint v /\ fits v.
Proof. intros n ts v H. apply (sound_all n) in H. destruct H as (H & F & _). rewrite app_nil_r in H. tauto. Qed.

(** * The tree is found *)

(** What may follow a part of an expression, parsed at a precedence: no bracket, no operator of higher precedence. *)
Definition quiet (j : nat) (ts : list tok) : Prop :=
  match ts with
  | TOp s :: _ => s <> "[" /\ s <> "(" /\ forall o lv, vlevel s = Some (o, lv) -> lv <= j
  | TWord _ :: _ => False
  | [] => True
  end.
Definition no_op (s : string) (ts : list tok) : Prop := match ts with TOp o :: _ => o <> s | _ => True end.

Lemma quiet_le : forall i j ts, i <= j -> quiet i ts -> quiet j ts.
Proof. intros i j [|[w|s] ts] L H; try exact H. destruct H as (A & B & C). split; [exact A|]. split; [exact B|]. intros o lv V. specialize (C o lv V). lia. Qed.

Lemma no_op_is : forall s t r, no_op s (t :: r) -> op_is s t = false.
Proof. intros s [w|o] r H; [reflexivity|]. cbn in *. apply String.eqb_neq. exact H. Qed.

Lemma loop_stops : forall j k l ts, quiet j ts -> j < 12 - k -> p_loop 1 k l ts = Some (l, ts).
Proof.
  intros j k l ts Q L. rewrite p_loop_S. destruct ts as [|[w|s] r]; try reflexivity. destruct Q as (_ & _ & Q).
  destruct (vlevel s) as [[o lv]|] eqn:V; [|reflexivity]. specialize (Q o lv eq_refl). destruct (Nat.eqb_spec lv (12 - k)); [lia|reflexivity].
Qed.

Definition word_brace (ts : list tok) : bool := match ts with TWord _ :: TOp s :: _ => String.eqb s "{" | _ => false end.
Lemma no_word_brace : forall v ts, no_op "{" ts -> word_brace (vprint v ++ ts) = false.
Proof.
  induction v; intros ts H; cbn [vprint]; try reflexivity.
  - cbn [app word_brace]. destruct ts as [|[w|o] ts]; try reflexivity. cbn in *. apply String.eqb_neq. exact H.
  - rewrite <- app_assoc. apply IHv1. cbn. discriminate.
  - rewrite <- app_assoc. apply IHv1. cbn. discriminate.
  - rewrite <- app_assoc. apply IHv1. cbn. destruct o; discriminate.
  - rewrite <- app_assoc. apply IHv1. cbn. discriminate.
  - rewrite <- app_assoc. apply IHv1. cbn. discriminate.
Qed.

Definition complete (v : vexpr) : Prop :=
  (forall ts, quiet 12 ts -> vl v = 13 -> exists n, p_primary n (vprint v ++ ts) = Some (v, ts)) /\
  (vbase v -> forall ts m res, no_op "(" ts -> p_suffix m v ts = Some res -> ts <> [] -> exists n, p_primary n (vprint v ++ ts) = Some res) /\
  (12 <= vl v -> forall ts, quiet 12 ts -> exists n, p_unary n (vprint v ++ ts) = Some (v, ts)) /\
  (forall k, k <= 10 -> 12 - k <= vl v -> forall ts, quiet (12 - k) ts ->
     match k with
     | O => exists n, p_level n k (vprint v ++ ts) = Some (v, ts)
     | S _ => forall m res, p_loop m k v ts = Some res -> exists n, p_level n k (vprint v ++ ts) = Some res
     end) /\
  (1 <= vl v -> forall ts, quiet 1 ts -> no_op "?" ts -> exists n, p_expr n (vprint v ++ ts) = Some (v, ts)) /\
  (forall ts, quiet 1 ts -> no_op "?" ts -> no_op "," ts -> exists n, p_args n (vprint v ++ ts) = Some (v, ts)).

(** The levels above unary expressions, from the level of unary expressions. *)
Lemma levels_up : forall v,
  (12 <= vl v -> forall ts, quiet 12 ts -> exists n, p_unary n (vprint v ++ ts) = Some (v, ts)) ->
  (forall o l r, v = VBin o l r -> vprec o <= vl l /\ S (vprec o) <= vl r /\ complete l /\ complete r) ->
  forall k, k <= 10 -> 12 - k <= vl v -> forall ts, quiet (12 - k) ts ->
     match k with
     | O => exists n, p_level n k (vprint v ++ ts) = Some (v, ts)
     | S _ => forall m res, p_loop m k v ts = Some res -> exists n, p_level n k (vprint v ++ ts) = Some res
     end.
Proof.
  intros v U B. induction k as [|k IH]; intros K L ts Q.
  - destruct (U ltac:(lia) ts Q) as [n E]. exists (S n). rewrite p_level_S. exact E.
  - intros m res R. destruct (Nat.eq_dec (vl v) (12 - S k)) as [E|NE].
    + destruct v; cbn [vl] in E; try lia. destruct (B o v1 v2 eq_refl) as (L1 & L2 & C1 & C2).
      destruct C1 as (_ & _ & _ & C1 & _). destruct C2 as (_ & _ & _ & C2 & _).
      assert (P2 : exists n, p_level n k (vprint v2 ++ ts) = Some (v2, ts)).
      { specialize (C2 k ltac:(lia) ltac:(lia) ts (quiet_le (12 - S k) (12 - k) ts ltac:(lia) Q)). destruct k as [|k']; [exact C2|].
        apply (C2 1). apply (loop_stops (12 - S (S k')) (S k') v2 ts Q). lia. }
      destruct P2 as [n2 P2].
      specialize (C1 (S k) ltac:(lia) ltac:(lia) (TOp (btext o) :: vprint v2 ++ ts)).
      cbn [vprint]. rewrite <- app_assoc. cbn [app].
      apply (fun q => C1 q (S (n2 + m)) res).
      * cbn [quiet]. split; [destruct o; discriminate|]. split; [destruct o; discriminate|]. intros o' lv V. rewrite vlevel_b in V. injection V as <- <-. lia.
      * rewrite p_loop_S, vlevel_b. rewrite E, Nat.eqb_refl. cbn [pred].
        rewrite (proj1 (proj2 (proj2 (more_le n2 (n2 + m) ltac:(lia)))) _ _ _ P2).
        exact (proj1 (proj2 (proj2 (proj2 (more_le m (n2 + m) ltac:(lia))))) _ _ _ _ R).
    + assert (P : exists n, p_level n k (vprint v ++ ts) = Some (v, ts)).
      { specialize (IH ltac:(lia) ltac:(lia) ts (quiet_le (12 - S k) (12 - k) ts ltac:(lia) Q)). destruct k as [|k']; [exact IH|].
        apply (IH 1). apply (loop_stops (12 - S (S k')) (S k') v ts Q). lia. }
      destruct P as [n P]. exists (S (n + m)). rewrite p_level_S.
      rewrite (proj1 (proj2 (proj2 (more_le n (n + m) ltac:(lia)))) _ _ _ P).
      exact (proj1 (proj2 (proj2 (proj2 (more_le m (n + m) ltac:(lia))))) _ _ _ _ R).
Qed.

(** Expressions and arguments, from the levels. *)
Lemma expr_up : forall v,
  (forall k, k <= 10 -> 12 - k <= vl v -> forall ts, quiet (12 - k) ts ->
     match k with
     | O => exists n, p_level n k (vprint v ++ ts) = Some (v, ts)
     | S _ => forall m res, p_loop m k v ts = Some res -> exists n, p_level n k (vprint v ++ ts) = Some res
     end) ->
  2 <= vl v -> forall ts, quiet 1 ts -> no_op "?" ts -> exists n, p_expr n (vprint v ++ ts) = Some (v, ts).
Proof.
  intros v H L ts Q N. specialize (H 10 ltac:(lia) ltac:(lia) ts (quiet_le 1 2 ts ltac:(lia) Q) 1 (v, ts) (loop_stops 1 10 v ts Q ltac:(lia))).
  destruct H as [n E]. exists (S n). rewrite p_expr_S, E. destruct ts as [|t r]; [reflexivity|]. rewrite (no_op_is "?" t r N). reflexivity.
Qed.
Lemma args_up : forall v,
  (1 <= vl v -> forall ts, quiet 1 ts -> no_op "?" ts -> exists n, p_expr n (vprint v ++ ts) = Some (v, ts)) ->
  1 <= vl v -> forall ts, quiet 1 ts -> no_op "?" ts -> no_op "," ts -> exists n, p_args n (vprint v ++ ts) = Some (v, ts).
Proof.
  intros v H L ts Q N N2. destruct (H L ts Q N) as [n E]. exists (S n). rewrite p_args_S, E.
  destruct ts as [|t r]; [reflexivity|]. rewrite (no_op_is "," t r N2). reflexivity.
Qed.

Lemma unary_up : forall v,
  (forall ts, quiet 12 ts -> exists n, p_primary n (vprint v ++ ts) = Some (v, ts)) ->
  (match vprint v with TOp s :: _ => vunary s = None | TWord _ :: _ => True | [] => False end) ->
  forall ts, quiet 12 ts -> exists n, p_unary n (vprint v ++ ts) = Some (v, ts).
Proof.
  intros v H F ts Q. destruct (H ts Q) as [n E]. exists (S n). rewrite p_unary_S. destruct (vprint v) as [|[w|s] q]; [contradiction| |]; cbn [app] in *.
  - exact E.
  - rewrite F. exact E.
Qed.

(** Everything, for a primary that is not a base of accesses. *)
Lemma atom_up : forall v, vl v = 13 -> ~ vbase v ->
  (forall ts, quiet 12 ts -> exists n, p_primary n (vprint v ++ ts) = Some (v, ts)) ->
  (match vprint v with TOp s :: _ => vunary s = None | TWord _ :: _ => True | [] => False end) -> complete v.
Proof.
  intros v L B H F. pose proof (unary_up v H F) as U.
  assert (C : forall o l r, v = VBin o l r -> vprec o <= vl l /\ S (vprec o) <= vl r /\ complete l /\ complete r).
  { intros o l r E. subst v. cbn [vl] in L. pose proof (vprec_range o). lia. }
  pose proof (levels_up v (fun _ => U) C) as V. pose proof (expr_up v V ltac:(lia)) as X.
  split; [intros ts Q _; exact (H ts Q)|]. split; [intro; contradiction|]. split; [intros _; exact U|]. split; [exact V|].
  split; [intros _; exact X|]. exact (args_up v (fun _ => X) ltac:(lia)).
Qed.

Lemma base_up : forall v, vbase v ->
  (forall ts m res, no_op "(" ts -> p_suffix m v ts = Some res -> ts <> [] -> exists n, p_primary n (vprint v ++ ts) = Some res) ->
  (exists n, p_primary n (vprint v) = Some (v, [])) ->
  (match vprint v with TWord _ :: _ => True | _ => False end) -> complete v.
Proof.
  intros v B S E F. pose proof (vbase_vl v B) as L.
  assert (H : forall ts, quiet 12 ts -> exists n, p_primary n (vprint v ++ ts) = Some (v, ts)).
  { intros ts Q. destruct ts as [|[w|s] r]; [rewrite app_nil_r; exact E|contradiction|]. destruct Q as (Q1 & Q2 & _).
    apply (S (TOp s :: r) 1 (v, TOp s :: r)); [exact Q2| |discriminate]. rewrite p_suffix_S. cbn [op_is]. destruct (String.eqb_spec s "["); [congruence|reflexivity]. }
  assert (F' : match vprint v with TOp s :: _ => vunary s = None | TWord _ :: _ => True | [] => False end).
  { destruct (vprint v) as [|[w|s] q]; try contradiction. exact I. }
  pose proof (unary_up v H F') as U.
  assert (C : forall o l r, v = VBin o l r -> vprec o <= vl l /\ Datatypes.S (vprec o) <= vl r /\ complete l /\ complete r).
  { intros o l r X. subst v. contradiction. }
  pose proof (levels_up v (fun _ => U) C) as V. pose proof (expr_up v V ltac:(lia)) as X.
  split; [intros ts Q _; exact (H ts Q)|]. split; [intros _; exact S|]. split; [intros _; exact U|]. split; [exact V|].
  split; [intros _; exact X|]. exact (args_up v (fun _ => X) ltac:(lia)).
Qed.

Lemma vprint_base_word : forall v, vbase v -> fits v -> match vprint v with TWord _ :: _ => True | _ => False end.
Proof.
  induction v; intros B F; try contradiction; [exact I|]. cbn [fits] in F. destruct F as (B1 & F1 & _). specialize (IHv1 B1 F1).
  cbn [vprint]. destruct (vprint v1) as [|[w|s] q]; try contradiction. exact I.
Qed.

Lemma q_close : forall s r, In s [")"; "]"; "}"; "+:"; ","; ":"; "?"] -> quiet 1 (TOp s :: r).
Proof.
  intros s r H. cbn [In] in H. cbn [quiet].
  repeat (destruct H as [H|H]; [subst s; split; [discriminate|split; [discriminate|intros o lv V; discriminate V]]|]). contradiction.
Qed.

Theorem complete_all : forall v, fits v -> complete v.
Proof.
  induction v; intros F; cbn [fits] in F.
  - (* word *) apply base_up; [exact I| | |exact I].
    + intros ts m res N E NE. exists (S m). cbn [vprint app]. rewrite p_primary_S. destruct ts as [|t r]; [congruence|]. rewrite (no_op_is "(" t r N). exact E.
    + exists 1. reflexivity.
  - (* index *) destruct F as (B & F1 & L & F2). specialize (IHv1 F1). specialize (IHv2 F2).
    destruct IHv1 as (_ & S1 & _). destruct IHv2 as (_ & _ & _ & _ & X2 & _). specialize (S1 B). specialize (X2 L).
    assert (G : forall ts m res, p_suffix m (VIndex v1 v2) ts = Some res -> exists n, p_primary n (vprint (VIndex v1 v2) ++ ts) = Some res).
    { intros ts m res E. destruct (X2 (TOp "]" :: ts) (q_close "]" ts ltac:(cbn; tauto)) ltac:(cbn; discriminate)) as [n En].
      cbn [vprint]. rewrite <- app_assoc. cbn [app]. rewrite <- app_assoc. cbn [app].
      apply (fun q => S1 (TOp "[" :: vprint v2 ++ TOp "]" :: ts) (S (n + m)) res q); [cbn; discriminate| |discriminate].
      rewrite p_suffix_S. cbn [op_is String.eqb Ascii.eqb Bool.eqb].
      rewrite (proj1 (proj2 (more_le n (n + m) ltac:(lia))) _ _ En). cbn [op_is String.eqb Ascii.eqb Bool.eqb].
      exact (proj2 (proj2 (proj2 (proj2 (proj2 (proj2 (more_le m (n + m) ltac:(lia))))))) _ _ _ E). }
    apply base_up; [exact I| | |].
    + intros ts m res _ E _. exact (G ts m res E).
    + destruct (G [] 1 (VIndex v1 v2, []) eq_refl) as [n E]. rewrite app_nil_r in E. exists n. exact E.
    + apply (vprint_base_word (VIndex v1 v2)); [exact I|cbn [fits]; tauto].
  - (* select *) destruct F as (B & F1 & L & F2). specialize (IHv1 F1). specialize (IHv2 F2).
    destruct IHv1 as (_ & S1 & _). destruct IHv2 as (_ & _ & _ & _ & X2 & _). specialize (S1 B). specialize (X2 L).
    apply atom_up; [reflexivity|intro C; exact C| |].
    + intros ts Q. destruct (X2 (TOp "+:" :: TWord n :: TOp "]" :: ts) (q_close "+:" _ ltac:(cbn; tauto)) ltac:(cbn; discriminate)) as [m Em].
      cbn [vprint]. rewrite <- app_assoc. cbn [app]. rewrite <- app_assoc. cbn [app].
      apply (fun q => S1 (TOp "[" :: vprint v2 ++ TOp "+:" :: TWord n :: TOp "]" :: ts) (S m) _ q); [cbn; discriminate| |discriminate].
      rewrite p_suffix_S. cbn [op_is String.eqb Ascii.eqb Bool.eqb]. rewrite Em. reflexivity.
    + pose proof (vprint_base_word v1 B F1) as W. cbn [vprint]. destruct (vprint v1) as [|[w|s] q]; try contradiction. exact I.
  - (* parentheses *) destruct F as (L & F). specialize (IHv F). destruct IHv as (_ & _ & _ & _ & X & _). specialize (X L).
    apply atom_up; [reflexivity|intro C; exact C| |reflexivity].
    intros ts Q. destruct (X (TOp ")" :: ts) (q_close ")" _ ltac:(cbn; tauto)) ltac:(cbn; discriminate)) as [m Em].
    exists (S m). cbn [vprint app]. rewrite <- app_assoc. cbn [app]. rewrite p_primary_S. cbn [String.eqb Ascii.eqb Bool.eqb]. rewrite Em. reflexivity.
  - (* call *) destruct F as (L & F). specialize (IHv F). destruct IHv as (_ & _ & _ & _ & X & _). specialize (X L).
    apply atom_up; [reflexivity|intro C; exact C| |exact I].
    intros ts Q. destruct (X (TOp ")" :: ts) (q_close ")" _ ltac:(cbn; tauto)) ltac:(cbn; discriminate)) as [m Em].
    exists (S m). cbn [vprint app]. rewrite <- app_assoc. cbn [app]. rewrite p_primary_S. cbn [op_is String.eqb Ascii.eqb Bool.eqb]. rewrite Em. reflexivity.
  - (* concatenation *) specialize (IHv F). destruct IHv as (_ & _ & _ & _ & _ & X).
    apply atom_up; [reflexivity|intro C; exact C| |reflexivity].
    intros ts Q. destruct (X (TOp "}" :: ts) (q_close "}" _ ltac:(cbn; tauto)) ltac:(cbn; discriminate) ltac:(cbn; discriminate)) as [m Em].
    exists (S m). cbn [vprint app]. rewrite <- app_assoc. cbn [app]. rewrite p_primary_S. cbn [String.eqb Ascii.eqb Bool.eqb].
    pose proof (no_word_brace v (TOp "}" :: ts) ltac:(cbn; discriminate)) as W.
    destruct (vprint v ++ TOp "}" :: ts) as [|[w|s] [|t q]] eqn:E; try (rewrite Em; reflexivity).
    assert (O : op_is "{" t = false) by (destruct t as [w2|s]; [reflexivity|exact W]). rewrite O, Em. reflexivity.
  - (* replication *) destruct F as (B & F). specialize (IHv F). destruct IHv as (P & _).
    apply atom_up; [reflexivity|intro C; exact C| |reflexivity].
    intros ts Q.
    assert (L : vl v = 13) by (destruct v; try contradiction; reflexivity).
    destruct (P (TOp "}" :: ts) (quiet_le 1 12 _ ltac:(lia) (q_close "}" ts ltac:(cbn; tauto))) L) as [m Em].
    exists (S m). cbn [vprint app]. rewrite <- app_assoc. cbn [app]. rewrite p_primary_S. cbn [String.eqb Ascii.eqb Bool.eqb].
    assert (H : exists q, vprint v ++ TOp "}" :: ts = TOp "{" :: q) by (destruct v; try contradiction; cbn [vprint app]; eexists; reflexivity).
    destruct H as [q H]. rewrite H in *. cbn [op_is String.eqb Ascii.eqb Bool.eqb]. rewrite Em. reflexivity.
  - (* unary *) destruct F as (L & F). specialize (IHv F). destruct IHv as (_ & _ & U & _). specialize (U L).
    assert (U' : forall ts, quiet 12 ts -> exists n, p_unary n (vprint (VUn o v) ++ ts) = Some (VUn o v, ts)).
    { intros ts Q. destruct (U ts Q) as [n E]. exists (S n). cbn [vprint app]. rewrite p_unary_S, vunary_u, E. reflexivity. }
    pose proof (levels_up (VUn o v) (fun _ => U') ltac:(intros; discriminate)) as V. pose proof (expr_up _ V ltac:(cbn; lia)) as X.
    split; [cbn [vl]; intros; lia|]. split; [intro; contradiction|]. split; [intros _; exact U'|]. split; [exact V|].
    split; [intros _; exact X|]. exact (args_up _ (fun _ => X) ltac:(cbn; lia)).
  - (* binary *) destruct F as (L1 & F1 & L2 & F2). specialize (IHv1 F1). specialize (IHv2 F2). pose proof (vprec_range o) as R.
    assert (V := levels_up (VBin o v1 v2) ltac:(cbn [vl]; intros; lia) ltac:(intros o' l r E; injection E as <- <- <-; tauto)).
    pose proof (expr_up _ V ltac:(cbn [vl]; lia)) as X.
    split; [cbn [vl]; intros; lia|]. split; [intro; contradiction|]. split; [cbn [vl]; intros; lia|]. split; [exact V|].
    split; [intros _; exact X|]. exact (args_up _ (fun _ => X) ltac:(cbn [vl]; lia)).
  - (* conditional *) destruct F as (L1 & F1 & L2 & F2 & L3 & F3). specialize (IHv1 F1). specialize (IHv2 F2). specialize (IHv3 F3).
    destruct IHv1 as (_ & _ & _ & X1 & _), IHv2 as (_ & _ & _ & _ & X2 & _), IHv3 as (_ & _ & _ & _ & X3 & _). specialize (X2 L2). specialize (X3 L3).
    assert (X : forall ts, quiet 1 ts -> no_op "?" ts -> exists n, p_expr n (vprint (VTern v1 v2 v3) ++ ts) = Some (VTern v1 v2 v3, ts)).
    { intros ts Q N. destruct (X3 ts Q N) as [n3 E3].
      destruct (X2 (TOp ":" :: vprint v3 ++ ts) (q_close ":" _ ltac:(cbn; tauto)) ltac:(cbn; discriminate)) as [n2 E2].
      set (rest := TOp "?" :: vprint v2 ++ TOp ":" :: vprint v3 ++ ts).
      assert (Q1 : quiet 1 rest) by (apply q_close; cbn; tauto).
      destruct (X1 10 ltac:(lia) ltac:(lia) rest (quiet_le 1 2 rest ltac:(lia) Q1) 1 (v1, rest) (loop_stops 1 10 v1 rest Q1 ltac:(lia))) as [n1 E1].
      exists (S (n1 + n2 + n3)). cbn [vprint]. rewrite <- app_assoc. cbn [app]. rewrite <- app_assoc. cbn [app]. fold rest. rewrite p_expr_S.
      rewrite (proj1 (proj2 (proj2 (more_le n1 (n1 + n2 + n3) ltac:(lia)))) _ _ _ E1). unfold rest. cbn [op_is String.eqb Ascii.eqb Bool.eqb].
      rewrite (proj1 (proj2 (more_le n2 (n1 + n2 + n3) ltac:(lia))) _ _ E2). cbn [op_is String.eqb Ascii.eqb Bool.eqb].
      rewrite (proj1 (proj2 (more_le n3 (n1 + n2 + n3) ltac:(lia))) _ _ E3). reflexivity. }
    split; [cbn [vl]; intros; lia|]. split; [intro; contradiction|]. split; [cbn [vl]; intros; lia|]. split; [cbn [vl]; intros; lia|].
    split; [intros _; exact X|]. exact (args_up _ (fun _ => X) ltac:(cbn [vl]; lia)).
  - (* arguments *) destruct F as (L1 & F1 & F2). specialize (IHv1 F1). specialize (IHv2 F2).
    destruct IHv1 as (_ & _ & _ & _ & X1 & _), IHv2 as (_ & _ & _ & _ & _ & X2). specialize (X1 L1).
    split; [cbn [vl]; intros; lia|]. split; [intro; contradiction|]. split; [cbn [vl]; intros; lia|]. split; [cbn [vl]; intros; lia|].
    split; [cbn [vl]; intros; lia|]. intros ts Q N N2. destruct (X2 ts Q N N2) as [n2 E2].
    destruct (X1 (TOp "," :: vprint v2 ++ ts) (q_close "," _ ltac:(cbn; tauto)) ltac:(cbn; discriminate)) as [n1 E1].
    exists (S (n1 + n2)). cbn [vprint]. rewrite <- app_assoc. cbn [app]. rewrite p_args_S.
    rewrite (proj1 (proj2 (more_le n1 (n1 + n2) ltac:(lia))) _ _ E1). cbn [op_is String.eqb Ascii.eqb Bool.eqb].
    rewrite (proj1 (more_le n2 (n1 + n2) ltac:(lia)) _ _ E2). reflexivity.
Qed.

Theorem parse_complete : forall v, fits v -> 1 <= vl v -> exists n, p_expr n (vprint v) = Some (v, []).
Proof.
  intros v F L. destruct (complete_all v F) as (_ & _ & _ & _ & X & _). destruct (X L [] I I) as [n E]. rewrite app_nil_r in E. exists n. exact E.
Qed.
