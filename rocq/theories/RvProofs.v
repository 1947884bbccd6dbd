(** Inputs and outputs of RISC-V units. *)
From Coq Require Import String Ascii List Bool Arith ZArith Lia.
From Verif Require Import WidthModel WidthProofs RvModel.
Import ListNotations.
Local Open Scope Z_scope.

Lemma substring_0 : forall s, substring 0 0 s = EmptyString. Proof. destruct s; reflexivity. Qed.
Lemma substring_all : forall s, substring 0 (String.length s) s = s. Proof. induction s as [|a s IH]; [reflexivity|]. cbn. rewrite IH. reflexivity. Qed.
Lemma declared_in : forall l n, declared DIn l n || declared DOut l n || declared DInout l n = true <-> In n (map io_name l).
Proof.
  intros l n. unfold declared. rewrite !orb_true_iff, !existsb_exists. split.
  - intros [[H|H]|H]; destruct H as (e & I & H); apply andb_true_iff in H; destruct H as [_ H]; apply String.eqb_eq in H; subst; apply in_map; exact I.
  - intro I. apply in_map_iff in I. destruct I as (e & <- & I). destruct (io_dir e) eqn:D; [left; left|left; right|right]; exists e; split; try exact I; unfold is_dir; rewrite D, String.eqb_refl; reflexivity.
Qed.
Lemma trigger_spec : forall l n x, trigger_of l n = Some x <-> n = ("on_" ++ x)%string /\ In x (map io_name l).
Proof.
  intros l n x. unfold trigger_of. rewrite <- declared_in. split.
  - destruct (String.eqb_spec (substring 0 3 n) "on_") as [E|E]; [|discriminate]. cbv zeta. set (v := substring 3 (String.length n - 3) n). destruct (declared DIn l v || declared DOut l v || declared DInout l v) eqn:D; [|discriminate].
    intro H. injection H as <-. split; [|exact D]. subst v. clear D. destruct n as [|a [|b [|c r]]]; cbn in E; try discriminate E. injection E as -> -> -> E. cbn [String.length]. replace (S (S (S (String.length r))) - 3)%nat with (String.length r) by lia.
    cbn [substring append]. rewrite substring_all. reflexivity.
  - intros [-> D]. cbn [append substring]. rewrite substring_0. cbn [String.eqb Ascii.eqb Bool.eqb]. cbv zeta. cbn [String.length]. replace (S (S (S (String.length x))) - 3)%nat with (String.length x) by lia. rewrite substring_all, D. reflexivity.
Qed.

(** * The address bits *)

Lemma addrs_total : forall nios base n, 0 <= n -> 0 <= base -> riscv_addrs (2 ^ base) (2 ^ n) nios <> None <-> (nios = 0%nat \/ n + Z.of_nat nios < base).
Proof.
  induction nios as [|m IH]; intros base n N B; cbn [riscv_addrs]; [split; [auto|discriminate]|].
  assert (E : Z.shiftl (2 ^ n) 1 = 2 ^ (n + 1)) by (rewrite Z.shiftl_mul_pow2, Z.pow_add_r by lia; reflexivity). rewrite E.
  destruct (Z.geb_spec (2 ^ (n + 1)) (2 ^ base)) as [G|G].
  - split; [congruence|]. intros [H|H]; [discriminate|]. exfalso. assert (n + 1 < base) by lia. pose proof (Z.pow_lt_mono_r 2 (n + 1) base ltac:(lia) ltac:(lia) ltac:(lia)). lia.
  - assert (L : n + 1 < base) by (apply (Z.pow_lt_mono_r_iff 2); lia). specialize (IH base (n + 1) ltac:(lia) B).
    destruct (riscv_addrs (2 ^ base) (2 ^ (n + 1)) m) as [l|].
    + split; [|discriminate]. intros _. right. destruct (proj1 IH ltac:(discriminate)) as [ ->|H]; lia.
    + split; [congruence|]. intro H. exfalso. apply (proj2 IH); [|reflexivity]. destruct m as [|m]; [left; reflexivity|right]. destruct H as [H|H]; [discriminate|]. lia.
Qed.

(** * The parts *)

Lemma parts_nth : forall l r k ps, parts_from l k r = Some ps -> forall j, nth_error ps j = match nth_error r j with Some e => one_part l (k + j) e | None => None end.
Proof.
  intros l. induction r as [|e r IH]; intros k ps H j; cbn [parts_from] in H.
  - injection H as <-. destruct j; reflexivity.
  - destruct (one_part l k e) as [p|] eqn:P; [|discriminate]. destruct (parts_from l (S k) r) as [q|] eqn:Q; [|discriminate]. injection H as <-. destruct j as [|j]; cbn [nth_error].
    + rewrite Nat.add_0_r. symmetry. exact P.
    + rewrite (IH _ _ Q j). replace (S k + j)%nat with (k + S j)%nat by lia. reflexivity.
Qed.
Lemma parts_total : forall l r k, parts_from l k r <> None <-> Forall (fun e => forall k, one_part l k e <> None) r.
Proof.
  assert (K : forall l e k k', one_part l k e <> None -> one_part l k' e <> None).
  { intros l e k k' H. unfold one_part in *. destruct (io_dir e); [discriminate| |congruence]. destruct (trigger_of l (io_name e)); [exact H|discriminate]. }
  intros l. induction r as [|e r IH]; intros k; cbn [parts_from]; [split; [constructor|discriminate]|].
  destruct (one_part l k e) as [p|] eqn:P.
  - specialize (IH (S k)). destruct (parts_from l (S k) r) as [q|].
    + split; [|discriminate]. intros _. constructor; [|apply IH; discriminate]. intro k'. apply (K l e k). congruence.
    + split; [congruence|]. intro H. inversion H; subst. exfalso. apply (proj2 IH); [assumption|reflexivity].
  - split; [congruence|]. intro H. inversion H as [|? ? A B]; subst. exfalso. exact (A k P).
Qed.
Lemma parts_len : forall l r k ps, parts_from l k r = Some ps -> List.length ps = List.length r.
Proof.
  intros l. induction r as [|e r IH]; intros k ps H; cbn [parts_from] in H; [injection H as <-; reflexivity|].
  destruct (one_part l k e); [|discriminate]. destruct (parts_from l (S k) r) as [q|] eqn:Q; [|discriminate]. injection H as <-. cbn. rewrite (IH _ _ Q). reflexivity.
Qed.

Definition target (p : part) : option string := match p with PRead _ _ => None | PWrite _ v | POnRead v _ | POnWrite v _ => Some v end.
Lemma target_name : forall l k e p v, one_part l k e = Some p -> target p = Some v -> v = io_name e.
Proof.
  intros l k e p v H T. unfold one_part in H. destruct (io_dir e); [injection H as <-; discriminate| |discriminate].
  destruct (trigger_of l (io_name e)); [|injection H as <-; cbn in T; congruence]. destruct (io_width e =? 1); [|discriminate]. destruct (index_of l s); [|discriminate].
  destruct (declared DIn l s); [injection H as <-; cbn in T; congruence|]. destruct (declared DOut l s); [injection H as <-; cbn in T; congruence|discriminate].
Qed.

Lemma nth_inj : forall (l : list string) i j x, NoDup l -> nth_error l i = Some x -> nth_error l j = Some x -> i = j.
Proof. intros l i j x N A B. apply (proj1 (NoDup_nth_error l) N); [apply nth_error_Some; congruence|congruence]. Qed.
Lemma index_nth : forall l i e, NoDup (map io_name l) -> nth_error l i = Some e -> index_of l (io_name e) = Some i.
Proof.
  induction l as [|f l IH]; intros i e N H; [destruct i; discriminate|]. cbn [map] in N. inversion N; subst. destruct i as [|i]; cbn [nth_error] in H; cbn [index_of].
  - injection H as ->. rewrite String.eqb_refl. reflexivity.
  - destruct (String.eqb_spec (io_name f) (io_name e)) as [E|E]; [|rewrite (IH i e) by assumption; reflexivity]. exfalso. apply nth_error_In in H. apply (in_map io_name) in H. rewrite <- E in H. contradiction.
Qed.
Lemma declared_dir : forall l i e d, NoDup (map io_name l) -> nth_error l i = Some e -> declared d l (io_name e) = is_dir d e.
Proof.
  intros l i e d N H. destruct (is_dir d e) eqn:D.
  - unfold declared. apply existsb_exists. exists e. split; [apply nth_error_In with i; exact H|]. rewrite D, String.eqb_refl. reflexivity.
  - destruct (declared d l (io_name e)) eqn:X; [|reflexivity]. unfold declared in X. apply existsb_exists in X. destruct X as (f & I & X). apply andb_true_iff in X. destruct X as [X Y]. apply String.eqb_eq in Y.
    apply In_nth_error in I. destruct I as [j I]. assert (i = j) as <-. { apply (nth_inj (map io_name l) i j (io_name e) N); rewrite nth_error_map; [rewrite H; reflexivity|rewrite I, <- Y; reflexivity]. }
    congruence.
Qed.

Section unit.
  Context (mem : Z) (l : list io) (c : soc).
  Hypothesis MK : make mem l = Some c.
  Hypothesis ND : NoDup (map io_name l).

  Lemma made : exists a, riscv_c_addresses mem (List.length l) = Some a /\ parts_from l 0 l = Some (c_parts c) /\ c_mem c = mem /\ c_addrs c = combine (map io_name l) a /\ c_ports c = map one_port l.
  Proof.
    unfold make in MK. destruct (riscv_c_addresses mem (List.length l)) as [a|] eqn:A; [|discriminate]. destruct (parts_from l 0 l) as [p|]; [|discriminate]. injection MK as <-. exists a. cbn. auto.
  Qed.
  Lemma part_at : forall i e, nth_error l i = Some e -> nth_error (c_parts c) i = one_part l i e.
  Proof. intros i e H. destruct made as (a & _ & P & _). rewrite (parts_nth _ _ _ _ P i), H. reflexivity. Qed.
  Lemma addr_at : forall i e a, nth_error l i = Some e -> In (io_name e, a) (c_addrs c) -> exists al, riscv_c_addresses mem (List.length l) = Some al /\ nth_error al i = Some a.
  Proof.
    intros i e a H I. destruct made as (al & A & _ & _ & C & _). exists al. split; [exact A|]. rewrite C in I. apply In_nth_error in I. destruct I as [j J].
    assert (X : forall (x : list string) (y : list Z) j p, nth_error (combine x y) j = Some p -> nth_error x j = Some (fst p) /\ nth_error y j = Some (snd p)).
    { induction x as [|x0 x IH]; intros y j0 p Q; [destruct j0; discriminate|]. destruct y as [|y0 y]; [destruct j0; discriminate|]. destruct j0; cbn in *; [injection Q as <-; auto|apply IH; exact Q]. }
    apply X in J. destruct J as [J1 J2]. cbn [fst snd] in *. assert (i = j) as ->; [|exact J2]. apply (nth_inj (map io_name l) i j (io_name e) ND); [rewrite nth_error_map, H; reflexivity|exact J1].
  Qed.
  (** Addresses of the C functions. *)
  Definition known (w : Z) : Prop := exists n a, In (n, a) (c_addrs c) /\ w = word_addr a.
  Lemma addr_bits : forall i e a, nth_error l i = Some e -> In (io_name e, a) (c_addrs c) ->
    external c (word_addr a) = true /\ forall j f, nth_error l j = Some f -> io_bit (word_addr a) j = Nat.eqb j i.
  Proof.
    intros i e a H I. destruct (addr_at i e a H I) as (al & A & N). destruct (riscv_map_ok _ _ _ A) as (L & M). destruct (M i a N) as (X & B & _). destruct made as (_ & _ & _ & CM & _).
    split; [unfold external; rewrite CM; exact X|]. intros j f J. unfold io_bit. pose proof (B (Z.of_nat j)) as Bj. unfold io_select in Bj. rewrite Bj.
    - destruct (Nat.eqb_spec j i) as [ ->|Q]; [apply Z.eqb_refl|]. apply Z.eqb_neq. lia.
    - split; [lia|]. apply Nat2Z.inj_lt. apply nth_error_Some. congruence.
  Qed.
  Lemma known_bit : forall w i e a, (external c w = true -> known w) -> nth_error l i = Some e -> In (io_name e, a) (c_addrs c) -> external c w && io_bit w i = (w =? word_addr a).
  Proof.
    intros w i e a K H I. destruct (addr_bits i e a H I) as [X B]. destruct (Z.eqb_spec w (word_addr a)) as [ ->|N].
    - rewrite X, (B i e H). apply Nat.eqb_refl.
    - destruct (external c w) eqn:E; [|reflexivity]. cbn [andb]. destruct (K eq_refl) as (n & a' & I' & ->). destruct made as (al & A & _ & _ & C & _).
      assert (Z : exists j f, nth_error l j = Some f /\ n = io_name f).
      { rewrite C in I'. apply in_combine_l in I'. apply in_map_iff in I'. destruct I' as (f & <- & F). apply In_nth_error in F. destruct F as [j J]. exists j, f. auto. }
      destruct Z as (j & f & J & ->). destruct (addr_bits j f a' J I') as [_ B']. rewrite (B' i e H). apply Nat.eqb_neq. intros ->.
      destruct (addr_at j e a H I) as (al1 & A1 & N1). assert (f = e) as -> by congruence. destruct (addr_at j e a' H I') as (al2 & A2 & N2). congruence.
  Qed.

  (** Only its own part assigns a variable. *)
  Lemma fold_own : forall (f : (string -> Z) -> part -> string -> Z), (forall o p v, target p <> Some v -> f o p v = o v) -> (forall o o' p v, o v = o' v -> f o p v = f o' p v) ->
    forall i e p o, nth_error l i = Some e -> nth_error (c_parts c) i = Some p -> fold_left f (c_parts c) o (io_name e) = f o p (io_name e).
  Proof.
    intros f F G i e p o H P. apply nth_error_split in P. destruct P as (p1 & p2 & E & L).
    assert (Q : forall j q, nth_error (c_parts c) j = Some q -> target q = Some (io_name e) -> j = i).
    { intros j q J T. destruct made as (al & _ & PF & _). rewrite (parts_nth _ _ _ _ PF j) in J. destruct (nth_error l j) as [g|] eqn:GE; [|discriminate].
      apply (target_name _ _ _ _ _ J) in T. apply (nth_inj (map io_name l) j i (io_name e) ND); [rewrite nth_error_map, GE, T; reflexivity|rewrite nth_error_map, H; reflexivity]. }
    assert (O : forall ps o, (forall q, In q ps -> target q <> Some (io_name e)) -> fold_left f ps o (io_name e) = o (io_name e)).
    { induction ps as [|q ps IH]; intros o0 N; [reflexivity|]. cbn [fold_left]. rewrite IH by (intros q0 I0; apply N; right; exact I0). apply F. apply N. left. reflexivity. }
    rewrite E, fold_left_app. cbn [fold_left]. rewrite O; [apply G; apply O|]; intros q I T; apply In_nth_error in I; destruct I as [j J].
    - assert (j = i); [|subst; rewrite (proj2 (nth_error_None p1 (List.length p1)) (le_n _)) in J; discriminate]. apply (Q j q); [|exact T]. rewrite E, nth_error_app1 by (apply nth_error_Some; congruence). exact J.
    - assert (List.length p1 + S j = i)%nat; [|lia]. apply (Q _ q); [|exact T]. rewrite E, nth_error_app2 by lia. replace (List.length p1 + S j - List.length p1)%nat with (S j) by lia. exact J.
  Qed.
  Lemma trigger_own : forall s b i e p o, nth_error l i = Some e -> nth_error (c_parts c) i = Some p -> fold_left (do_trigger c s b) (c_parts c) o (io_name e) = do_trigger c s b o p (io_name e).
  Proof.
    intros s b. apply fold_own.
    - intros o p v T. destruct p; cbn [do_trigger target] in *; try reflexivity; unfold setv; destruct (String.eqb_spec v v0); congruence || reflexivity.
    - intros o o' p v E. destruct p; cbn [do_trigger]; try exact E; unfold setv; destruct (String.eqb v v0); auto.
  Qed.
  Lemma write_own : forall b i e p o, nth_error l i = Some e -> nth_error (c_parts c) i = Some p -> fold_left (do_write c b) (c_parts c) o (io_name e) = do_write c b o p (io_name e).
  Proof.
    intros b. apply fold_own.
    - intros o p v T. destruct p; cbn [do_write target] in *; try reflexivity; unfold setv; destruct (String.eqb_spec v v0); congruence || reflexivity.
    - intros o o' p v E. destruct p; cbn [do_write]; try exact E; unfold setv; destruct (String.eqb_spec v v0) as [ ->|]; [|exact E]. rewrite E. reflexivity.
  Qed.
  Lemma out_own : forall s i b k e p, nth_error l k = Some e -> nth_error (c_parts c) k = Some p ->
    s_out (step c s i b) (io_name e) = if io_write c b then do_write c b (do_trigger c s b (s_out s) p) p (io_name e) else do_trigger c s b (s_out s) p (io_name e).
  Proof.
    intros s i b k e p H P. cbn [step s_out]. destruct (io_write c b).
    - rewrite (write_own b k e p _ H P). pose proof (trigger_own s b k e p (s_out s) H P) as T. 
      assert (G : forall o o' v, o v = o' v -> do_write c b o p v = do_write c b o' p v).
      { intros o o' v E. destruct p; cbn [do_write]; try exact E; unfold setv; destruct (String.eqb_spec v v0) as [ ->|]; [|exact E]. rewrite E. reflexivity. }
      apply G. exact T.
    - apply (trigger_own s b k e p _ H P).
  Qed.
  Lemma width_own : forall k e, nth_error l k = Some e -> width_of (c_ports c) (io_name e) = io_width e.
  Proof.
    intros k e H. destruct made as (_ & _ & _ & _ & _ & C). unfold width_of. rewrite C. clear C MK. revert k H. induction l as [|f r IH]; intros k H; [destruct k; discriminate|].
    cbn [map find p_name one_port]. cbn [map] in ND. inversion ND; subst. destruct k as [|k]; cbn [nth_error] in H.
    - injection H as ->. rewrite String.eqb_refl. reflexivity.
    - destruct (String.eqb_spec (io_name f) (io_name e)) as [E|E]; [|apply (IH H3 k H)]. exfalso. apply nth_error_In in H. apply (in_map io_name) in H. rewrite <- E in H. contradiction.
  Qed.
End unit.
