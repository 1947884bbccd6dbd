(** Which programs are gathered without error: the rules on the source alone, and their equivalence with the code. *)
From Coq Require Import String Ascii List Bool Arith Lia.
From Verif Require Import NameModel NameProofs ScopeModel ScopeProofs ScopeMain.
Import ListNotations.
Local Open Scope string_scope.
Local Open Scope list_scope.

(** * The rules *)
(** A run of instructions: at the root of an algorithm, after a label or at the beginning of a subroutine, or any other. Two variables of the
    same name cannot be declared in one run; after a label or in a subroutine, names of the run and of the variable are joined. *)
Inductive run := RRoot | RNamed (n : string) | RAnon.
(** [f_pre]: no instruction yet; [f_rep]: in a repeat; [f_known]: subroutines; [f_lbl], [f_fwd]: labels of the machine, jumps that wait for their
    label; [f_names]: joined names; [f_run], [f_dec]: the run and the names declared in it; [f_vis]: names declared before the instructions. *)
Record fs := { f_pre : bool; f_rep : bool; f_known : list string; f_lbl : list string; f_fwd : list string; f_names : list string;
               f_run : run; f_dec : list string; f_vis : list string }.
Definition nopre (f : fs) : fs :=
  {| f_pre := false; f_rep := f_rep f; f_known := f_known f; f_lbl := f_lbl f; f_fwd := f_fwd f; f_names := f_names f; f_run := f_run f; f_dec := f_dec f; f_vis := f_vis f |}.
Definition frep (f : fs) (v : bool) : fs :=
  {| f_pre := f_pre f; f_rep := v; f_known := f_known f; f_lbl := f_lbl f; f_fwd := f_fwd f; f_names := f_names f; f_run := f_run f; f_dec := f_dec f; f_vis := f_vis f |}.
Definition start (f : fs) (r : run) : fs :=
  {| f_pre := f_pre f; f_rep := f_rep f; f_known := f_known f; f_lbl := f_lbl f; f_fwd := f_fwd f; f_names := f_names f; f_run := r; f_dec := []; f_vis := f_vis f |}.
Definition enter (f : fs) : fs := start f RAnon.
Definition jumps (f : fs) (l w : list string) : fs :=
  {| f_pre := f_pre f; f_rep := f_rep f; f_known := f_known f; f_lbl := l; f_fwd := w; f_names := f_names f; f_run := f_run f; f_dec := f_dec f; f_vis := f_vis f |}.
Definition joined (n x : string) : string := (n ++ "_" ++ x)%string.
Definition declare (f : fs) (x : string) : fs :=
  {| f_pre := f_pre f; f_rep := f_rep f; f_known := f_known f; f_lbl := f_lbl f; f_fwd := f_fwd f;
     f_names := match f_run f with RNamed n => joined n x :: f_names f | _ => f_names f end;
     f_run := f_run f; f_dec := x :: f_dec f; f_vis := x :: f_vis f |}.
Definition taken (f : fs) (x : string) : bool :=
  match f_run f with RNamed n => mem (joined n x) (f_names f) | _ => mem x (f_dec f) end.
(** After a subroutine: back to the run that declares it. *)
Definition back (f f1 : fs) (name : string) : fs :=
  {| f_pre := true; f_rep := f_rep f1; f_known := name :: f_known f1; f_lbl := f_lbl f1; f_fwd := f_fwd f1; f_names := f_names f1;
     f_run := f_run f; f_dec := f_dec f; f_vis := f_vis f |}.
Definition landed (f : fs) : bool := forallb (fun l => mem l (f_lbl f)) (f_fwd f).

Section Fit.
  Variable ports : list string.
  Definition clash (f : fs) (x : string) : bool := mem x (f_known f) || mem x ports || taken f x.
  Fixpoint fit (c : code) (il isub : bool) (f : fs) {struct c} : option fs :=
    match c with
    | KEnd => Some f
    | KDecl x k => if clash f x then None else fit k il isub (declare f x)
    | KUse _ _ _ k => fit k il isub (nopre f)
    | KBlock b k | KIf _ _ b k => do f1 <- fit b il isub (enter (nopre f)); fit k il isub (enter f1)
    | KIfElse _ _ b1 b2 k =>
        do f1 <- fit b1 il isub (enter (nopre f)); do f2 <- fit b2 il isub (enter f1); fit k il isub (enter f2)
    | KSwitch _ _ cs k => do f1 <- fit_cases cs il isub (nopre f); fit k il isub (enter f1)
    | KWhile _ _ b k => do f1 <- fit b true isub (enter (nopre f)); fit k il isub (enter f1)
    | KBreak k => if il then fit k il isub (enter (nopre f)) else None
    | KStep k => fit k il isub (enter (nopre f))
    | KLabel l k => if mem l (f_lbl f) then None else fit k il isub (jumps (start (nopre f) (RNamed l)) (l :: f_lbl f) (f_fwd f))
    | KGoto l k => fit k il isub (enter (jumps (nopre f) (f_lbl f) (if mem l (f_lbl f) then f_fwd f else l :: f_fwd f)))
    | KReturn k => fit k il isub (if isub then enter (nopre f) else nopre f)
    | KRepeat n b k =>
        if f_rep f then None else if Nat.eqb n 0 then None else
        do f1 <- (fix rep (n : nat) (f : fs) : option fs :=
                    match n with O => Some f | S m => do f1 <- fit b il isub f; rep m f1 end) n (frep (nopre f) true);
        fit k il isub (frep f1 false)
    | KSub name r w b k =>
        if negb (f_pre f) then None else if isub then None
        else if mem name (f_known f) || mem name ports || mem name (f_vis f) then None
        else do f1 <- fit b il true (start f (RNamed ("__sub_" ++ name)%string)); fit k il isub (back f f1 name)
    | KPipe ss k =>
        match ss with
        | CNil | CCons _ CNil => None
        | _ => do f1 <- fit_stages ss isub (nopre f); fit k il isub (enter (jumps f1 (f_lbl f) (f_fwd f)))
        end
    end
  with fit_cases (cs : codes) (il isub : bool) (f : fs) {struct cs} : option fs :=
    match cs with CNil => Some f | CCons c r => do f1 <- fit c il isub (enter f); fit_cases r il isub f1 end
  with fit_stages (ss : codes) (isub : bool) (f : fs) {struct ss} : option fs :=
    match ss with
    | CNil => Some f
    | CCons c r =>
        do f1 <- fit c false isub (enter (jumps f [] []));
        if landed f1 then fit_stages r isub f1 else None
    end.
  Definition rep_fit (b : code) (il isub : bool) : nat -> fs -> option fs :=
    fix rep (n : nat) (f : fs) : option fs := match n with O => Some f | S m => do f1 <- fit b il isub f; rep m f1 end.

  Definition f0 : fs :=
    {| f_pre := true; f_rep := false; f_known := []; f_lbl := []; f_fwd := []; f_names := []; f_run := RRoot; f_dec := []; f_vis := [] |}.
  Fixpoint fit_vars (xs : list string) (f : fs) : option fs :=
    match xs with [] => Some f | x :: r => if clash f x then None else fit_vars r (declare f x) end.
  Definition fits_algorithm (p : code) : bool := match fit p false false f0 with Some f => landed f | None => false end.
  Definition fits_unit (xs : list string) (p : code) : bool :=
    match fit_vars xs f0 with
    | Some f => match fit p false false (enter f) with Some f1 => landed f1 | None => false end
    | None => false
    end.
End Fit.

Fixpoint subs_of (c : code) : list string :=
  match c with
  | KEnd => []
  | KDecl _ k | KUse _ _ _ k | KLabel _ k | KBreak k | KStep k | KGoto _ k | KReturn k => subs_of k
  | KBlock b k | KIf _ _ b k | KWhile _ _ b k | KRepeat _ b k => subs_of b ++ subs_of k
  | KSub name _ _ b k => name :: subs_of b ++ subs_of k
  | KIfElse _ _ b1 b2 k => subs_of b1 ++ subs_of b2 ++ subs_of k
  | KSwitch _ _ cs k | KPipe cs k => subs_ofs cs ++ subs_of k
  end
with subs_ofs (cs : codes) : list string :=
  match cs with CNil => [] | CCons c r => subs_of c ++ subs_ofs r end.

(** * Names of blocks *)
Definition anon (N : nat) (n : string) : Prop :=
  exists P post, (P = "__block_" \/ P = "__while__block_" \/ P = "__stage___block_") /\ (post = "" \/ post = "_case")
    /\ n = (P ++ to_string N ++ post)%string.
Definition lab_ok (l : string) : Prop := exists c r, l = String c r /\ c <> "_"%char.
Definition named (ls : list string) (n : string) : Prop := (exists f, n = ("__sub_" ++ f)%string) \/ (In n ls /\ lab_ok n).

Lemma anon_head : forall N n x, anon N n -> exists r, joined n x = String "_" r.
Proof. intros N n x (P & post & [->|[->| ->]] & _ & ->); eexists; reflexivity. Qed.
Lemma app_nil_str : forall a : string, (a ++ "")%string = a.
Proof. induction a as [|c a IH]; [reflexivity|]. cbn [String.append]. rewrite IH. reflexivity. Qed.
Lemma anon_split : forall N n x, anon N n -> exists P rest, (P = "__block_" \/ P = "__while__block_" \/ P = "__stage___block_")
  /\ joined n x = (P ++ (to_string N ++ "_" ++ rest))%string.
Proof.
  intros N n x (P & post & HP & Hp & ->). exists P. unfold joined. destruct Hp as [->| ->].
  - exists x. split; [exact HP|]. rewrite app_nil_str, string_app_assoc. reflexivity.
  - exists ("case_" ++ x)%string. split; [exact HP|]. rewrite !string_app_assoc. reflexivity.
Qed.
Lemma anon_inj : forall N M n m x y, anon N n -> anon M m -> joined n x = joined m y -> N = M.
Proof.
  intros N M n m x y A B E. destruct (anon_split N n x A) as (P & r & HP & E1). destruct (anon_split M m y B) as (P' & r' & HP' & E2).
  rewrite E1, E2 in E. clear E1 E2.
  destruct HP as [->|[->| ->]]; destruct HP' as [->|[->| ->]]; cbn [String.append] in E; try discriminate;
    repeat (injection E as E); destruct (field_inj _ _ _ _ (digits_to_string N) (digits_to_string M) E) as [E' _]; exact (to_string_inj _ _ E').
Qed.
Lemma anon_not_named : forall ls N n m x y, anon N n -> named ls m -> joined n x <> joined m y.
Proof.
  intros ls N n m x y A B E. destruct (anon_split N n x A) as (P & r & HP & E1). rewrite E1 in E. unfold joined in E.
  destruct B as [(f & ->)|(_ & (c & q & -> & Hc))]; destruct HP as [->|[->| ->]]; cbn [String.append] in E; try discriminate; injection E as E _; congruence.
Qed.
Lemma anon_not_top : forall N, ~ anon N "_top".
Proof. intros N (P & post & [->|[->| ->]] & _ & H); discriminate. Qed.
Lemma named_not_top : forall ls, ~ named ls "_top".
Proof. intros ls [(f & H)|(_ & (c & r & H & Hc))]; [discriminate|]. injection H as <- _. congruence. Qed.
Lemma anon_named : forall ls N n, anon N n -> named ls n -> False.
Proof. intros ls N n A B. exact (anon_not_named ls N n n "" "" A B eq_refl). Qed.
Lemma joined_inj : forall n x y, joined n x = joined n y -> x = y.
Proof.
  unfold joined. induction n as [|c n IH]; intros x y E; cbn [String.append] in E; injection E as E; [exact E|]. apply IH. exact E.
Qed.
Lemma vio_joined : forall n x, n <> "_top" -> blockVIOName n x = joined n x.
Proof. intros n x H. unfold blockVIOName, joined. destruct (String.eqb n "_top") eqn:E; [apply String.eqb_eq in E; contradiction|reflexivity]. Qed.
Lemma vio_inj : forall n x y, blockVIOName n x = blockVIOName n y -> x = y.
Proof.
  intros n x y. unfold blockVIOName. destruct (String.eqb n "_top"); [tauto|]. apply joined_inj.
Qed.

Section Proof.
  Variable ports ls ds : list string.
  Notation mg := (generated ls ds).

  Record Z (s : st) : Prop := {
    z_0 : 0 < s_n s;
    z_last : s_last s < s_n s;
    z_top : b_name (s_blk s 0) = "_top" /\ b_par (s_blk s 0) = None;
    z_par : forall b, 0 < b -> b < s_n s -> exists p, b_par (s_blk s b) = Some p /\ p < b;
    z_name : forall b, 0 < b -> b < s_n s -> (exists N, N < s_gen s /\ anon N (b_name (s_blk s b))) \/ named ls (b_name (s_blk s b));
    z_uniq : forall b b' N, b < s_n s -> b' < s_n s -> anon N (b_name (s_blk s b)) -> anon N (b_name (s_blk s b')) -> b = b';
    z_vars : forall v, In v (var_names s) -> exists b x, b < s_n s /\ In v (b_decl (s_blk s b)) /\ v = blockVIOName (b_name (s_blk s b)) x
               /\ ~ mg x /\ In x ds;
    z_decl : forall b v, b < s_n s -> In v (b_decl (s_blk s b)) -> In v (var_names s) /\ exists x, v = blockVIOName (b_name (s_blk s b)) x
               /\ base_of (s_vars s) v = Some x }.

  Definition has (s : st) (c : nat) (x : string) : Prop := exists a v, In a (scopes s c) /\ In v (b_decl (s_blk s a)) /\ base_of (s_vars s) v = Some x.

  Record gl (s : st) (f : fs) : Prop := {
    l_pre : s_pre s = f_pre f; l_rep : s_rep s = f_rep f; l_known : s_known s = f_known f; l_lbl : map fst (s_lbl s) = f_lbl f;
    l_fwd : s_fwd s = f_fwd f;
    l_names : forall v, In v (f_names f) <-> exists b, b < s_n s /\ named ls (b_name (s_blk s b)) /\ In v (b_decl (s_blk s b)) }.
  Record lo (s : st) (c : nat) (f : fs) : Prop := {
    l_run : match f_run f with
            | RRoot => c = 0
            | RNamed n => b_name (s_blk s c) = n /\ named ls n
            | RAnon => exists N, anon N (b_name (s_blk s c))
            end;
    l_dec : forall x, In x (f_dec f) <-> In (blockVIOName (b_name (s_blk s c)) x) (b_decl (s_blk s c));
    l_vis : f_pre f = true -> b_sub (s_blk s c) = None -> forall x, In x (f_vis f) <-> has s c x }.

  (** [c] is the block that may get declarations; blocks below [s_n s] are otherwise unchanged. *)
  Record fr (s s' : st) (c : nat) : Prop := {
    k_n : s_n s <= s_n s';
    k_gen : s_gen s <= s_gen s';
    k_blk : forall b, b < s_n s -> b_name (s_blk s' b) = b_name (s_blk s b) /\ b_par (s_blk s' b) = b_par (s_blk s b) /\ b_sub (s_blk s' b) = b_sub (s_blk s b)
              /\ (b <> c -> b_decl (s_blk s' b) = b_decl (s_blk s b));
    k_vars : exists vs, s_vars s' = s_vars s ++ vs }.

  Lemma fr_refl : forall s c, fr s s c.
  Proof. intros s c. constructor; [lia|lia|intros; repeat split|exists []; rewrite app_nil_r; reflexivity]. Qed.
  Lemma fr_trans : forall a b c k k', fr a b k -> fr b c k' -> k' = k \/ s_n a <= k' -> fr a c k.
  Proof.
    intros a b c k k' [A1 A2 A3 (vs & A4)] [B1 B2 B3 (ws & B4)] H. constructor; [lia|lia| |exists (vs ++ ws); rewrite B4, A4, app_assoc; reflexivity].
    intros i Hi. destruct (A3 i Hi) as (X1 & X2 & X3 & X4). destruct (B3 i ltac:(lia)) as (Y1 & Y2 & Y3 & Y4).
    split; [congruence|]. split; [congruence|]. split; [congruence|]. intros Hk. rewrite Y4, X4; [reflexivity|exact Hk|]. destruct H; lia.
  Qed.
  Lemma fr_any : forall s s' c, fr s s' (s_n s) -> fr s s' c.
  Proof.
    intros s s' c [A1 A2 A3 A4]. constructor; try assumption. intros b Hb. destruct (A3 b Hb) as (X1 & X2 & X3 & X4).
    repeat split; try assumption. intros _. apply X4. lia.
  Qed.

  (** Changes of fields that do not matter to blocks and variables. *)
  Definition same4 (s s' : st) : Prop :=
    s_n s' = s_n s /\ s_gen s' = s_gen s /\ s_vars s' = s_vars s /\ (s_last s < s_n s -> s_last s' < s_n s) /\ forall b, same s s' b.
  Lemma same4_Z : forall s s', same4 s s' -> Z s -> Z s'.
  Proof.
    intros s s' (N & Ge & V & La & S) W. destruct (S 0) as (A0 & B0 & C0 & D0 & E0). constructor.
    - rewrite N. apply z_0. exact W.
    - rewrite N. apply La. apply z_last. exact W.
    - rewrite A0, B0. apply z_top. exact W.
    - intros b H1 H2. destruct (S b) as (A & B & _). rewrite N in H2. rewrite B. apply z_par; assumption.
    - intros b H1 H2. destruct (S b) as (A & B & _). rewrite N in H2. rewrite A, Ge. apply z_name; assumption.
    - intros b b' k H1 H2. destruct (S b) as (A & _). destruct (S b') as (A' & _). rewrite N in *. rewrite A, A'. apply z_uniq; assumption.
    - intros v Hv. unfold var_names in Hv. rewrite V in Hv. destruct (z_vars s W v Hv) as (b & x & H1 & H2 & H3 & H4). exists b, x.
      destruct (S b) as (A & _ & _ & D & _). rewrite N, A, D. tauto.
    - intros b v H1 H2. destruct (S b) as (A & _ & _ & D & _). rewrite N in H1. rewrite D in H2. rewrite A, V. unfold var_names. rewrite V.
      exact (z_decl s W b v H1 H2).
  Qed.
  Lemma same4_fr : forall s s' c, same4 s s' -> fr s s' c.
  Proof.
    intros s s' c (N & Ge & V & La & S). constructor; [lia|lia| |exists []; rewrite V, app_nil_r; reflexivity].
    intros b Hb. destruct (S b) as (A & B & C & D & E). tauto.
  Qed.
  Lemma chain_par : forall s s' f b, (forall i, b_par (s_blk s' i) = b_par (s_blk s i)) -> chain f s' b = chain f s b.
  Proof.
    intros s s'. induction f as [|f IH]; intros b H; [reflexivity|]. cbn [chain]. rewrite (H b). destruct (b_par (s_blk s b)); [|reflexivity].
    rewrite (IH _ H). reflexivity.
  Qed.
  Lemma same4_lo : forall s s' c f, same4 s s' -> lo s c f -> lo s' c f.
  Proof.
    intros s s' c f (N & Ge & V & La & S) [L1 L2 L3]. destruct (S c) as (A & B & C & D & E). constructor.
    - rewrite A. exact L1.
    - intros x. rewrite A, D. apply L2.
    - intros Hp Hs x. rewrite E in Hs. rewrite (L3 Hp Hs x). unfold has, scopes. rewrite (chain_par s s') by (intros i; apply S). rewrite V.
      split; intros (a & v & H1 & H2 & H3); exists a, v; destruct (S a) as (_ & _ & _ & Da & _).
      + rewrite Da. tauto.
      + rewrite Da in H2. tauto.
  Qed.
  Lemma same4_names : forall s s' f, same4 s s' -> gl s f ->
    forall v, In v (f_names f) <-> exists b, b < s_n s' /\ named ls (b_name (s_blk s' b)) /\ In v (b_decl (s_blk s' b)).
  Proof.
    intros s s' f (N & Ge & V & La & S) G v. rewrite (l_names _ _ G v). split; intros (b & H1 & H2 & H3); exists b; destruct (S b) as (A & _ & _ & D & _).
    - rewrite N, A, D. tauto.
    - rewrite N, A, D in *. tauto.
  Qed.
  Lemma same4_refl : forall s, same4 s s. Proof. intros s. repeat split. tauto. Qed.
  Lemma same4_pre : forall s v, same4 s (with_pre s v). Proof. intros s v. exact (same4_refl s). Qed.
  Lemma same4_rep : forall s v, same4 s (with_rep s v). Proof. intros s v. exact (same4_refl s). Qed.
  Lemma same4_fsm : forall s a b c, a < s_n s -> same4 s (with_fsm s a b c). Proof. intros s a b c H. repeat split. intros _. exact H. Qed.
  Lemma same4_say : forall s l, same4 s (say s l). Proof. intros s l. exact (same4_refl s). Qed.
  Lemma same4_subs : forall s a b, same4 s (with_subs s a b). Proof. intros s a b. exact (same4_refl s). Qed.
  Lemma same4_may : forall s b, same4 s (set_may s b).
  Proof. intros s b. repeat (split; [reflexivity|]). split; [tauto|]. exact (proj1 (proj2 (eqv_may s b))). Qed.
  Lemma same4_trans : forall a b c, same4 a b -> same4 b c -> same4 a c.
  Proof.
    intros a b c (A1 & A2 & A3 & A5 & A4) (B1 & B2 & B3 & B5 & B4). split; [congruence|]. split; [congruence|]. split; [congruence|].
    split; [rewrite A1 in B5; tauto|]. intros k. exact (same_trans a b c k (A4 k) (B4 k)).
  Qed.

  (** ** New blocks *)
  Lemma zchain_le : forall f s b a, Z s -> b < s_n s -> In a (chain f s b) -> a <= b.
  Proof.
    induction f as [|f IH]; intros s b a W Hb H; [contradiction|]. cbn [chain In] in H. destruct H as [H|H]; [lia|].
    destruct (b_par (s_blk s b)) as [p|] eqn:E; [|contradiction].
    destruct (Nat.eq_dec b 0) as [->|Hn]; [rewrite (proj2 (z_top s W)) in E; discriminate|].
    destruct (z_par s W b ltac:(lia) Hb) as (p' & Hp & Hlt). assert (p' = p) by congruence. subst p'.
    specialize (IH s p a W ltac:(lia) H). lia.
  Qed.
  Lemma zchain_fuel : forall f g s b, Z s -> b < s_n s -> b < f -> b < g -> chain f s b = chain g s b.
  Proof.
    induction f as [|f IH]; intros g s b W Hb Hf Hg; [lia|]. destruct g as [|g]; [lia|]. cbn [chain].
    destruct (b_par (s_blk s b)) as [p|] eqn:E; [|reflexivity].
    destruct (Nat.eq_dec b 0) as [->|Hn]; [rewrite (proj2 (z_top s W)) in E; discriminate|].
    destruct (z_par s W b ltac:(lia) Hb) as (p' & Hp & Hlt). assert (p' = p) by congruence. subst p'.
    rewrite (IH g s p W) by lia. reflexivity.
  Qed.
  Lemma zchain_same : forall f s s' b, Z s -> b < s_n s -> (forall a, a < s_n s -> b_par (s_blk s' a) = b_par (s_blk s a)) -> chain f s' b = chain f s b.
  Proof.
    induction f as [|f IH]; intros s s' b W Hb H; [reflexivity|]. cbn [chain]. rewrite (H b Hb). destruct (b_par (s_blk s b)) as [p|] eqn:E; [|reflexivity].
    destruct (Nat.eq_dec b 0) as [->|Hn]; [rewrite (proj2 (z_top s W)) in E; discriminate|].
    destruct (z_par s W b ltac:(lia) Hb) as (p' & Hp & Hlt). assert (p' = p) by congruence. subst p'.
    rewrite (IH s s' p W ltac:(lia) H). reflexivity.
  Qed.
  Lemma zroot : forall f s b, Z s -> b < s_n s -> b < f -> In 0 (chain f s b).
  Proof.
    induction f as [|f IH]; intros s b W Hb Hf; [lia|]. cbn [chain]. destruct (Nat.eq_dec b 0) as [->|Hn]; [left; reflexivity|right].
    destruct (z_par s W b ltac:(lia) Hb) as (p & Hp & Hlt). rewrite Hp. apply IH; [exact W|lia|lia].
  Qed.

  Lemma Z_add : forall s name c os nb s1, Z s -> c < s_n s -> add_ctx s name c os = (nb, s1) ->
    (exists N, N < s_gen s /\ anon N name /\ forall b, b < s_n s -> ~ anon N (b_name (s_blk s b))) \/ named ls name ->
    nb = s_n s /\ s_n s1 = S (s_n s) /\ Z s1 /\ fr s s1 (s_n s) /\ b_par (s_blk s1 nb) = Some c /\ b_name (s_blk s1 nb) = name
    /\ b_decl (s_blk s1 nb) = [] /\ b_sub (s_blk s1 nb) = os.
  Proof.
    intros s name c os nb s1 W Hc H Hn. unfold add_ctx in H. injection H as <- <-.
    match goal with |- context[Z ?t] => set (s1 := t) end.
    assert (Old : forall b, b <> s_n s -> s_blk s1 b = s_blk s b).
    { intros b Hb. unfold s1. cbn [s_blk]. unfold upd. destruct (Nat.eqb b (s_n s)) eqn:E; [apply Nat.eqb_eq in E; contradiction|reflexivity]. }
    assert (New : s_blk s1 (s_n s) = {| b_name := name; b_par := Some c; b_rew := b_rew (s_blk s c); b_decl := []; b_sub := os; b_may := false |}).
    { unfold s1. cbn [s_blk]. unfold upd. rewrite Nat.eqb_refl. reflexivity. }
    pose proof (z_0 s W) as H0. split; [reflexivity|]. split; [reflexivity|].
    assert (Hcase : forall b, b < s_n s1 -> b < s_n s \/ b = s_n s) by (intros b Hb; unfold s1 in Hb; cbn [s_n] in Hb; lia).
    split.
    { constructor.
      - unfold s1; cbn [s_n]; lia.
      - unfold s1; cbn [s_n s_last]; lia.
      - rewrite (Old 0) by lia. apply z_top. exact W.
      - intros b H1 H2. destruct (Hcase b H2) as [Hb| ->].
        + rewrite (Old b) by lia. apply z_par; assumption.
        + rewrite New. exists c. split; [reflexivity|exact Hc].
      - intros b H1 H2. destruct (Hcase b H2) as [Hb| ->].
        + rewrite (Old b) by lia. exact (z_name s W b H1 Hb).
        + rewrite New. cbn [b_name]. destruct Hn as [(N & X1 & X2 & _)|X]; [left; exists N; split; assumption|right; exact X].
      - intros b b' k H1 H2 A1 A2.
        assert (Fresh : forall b0, b0 < s_n s -> anon k name -> anon k (b_name (s_blk s b0)) -> False).
        { intros b0 Hb0 B1 B2. destruct Hn as [(N & X1 & X2 & X3)|X]; [|exact (anon_named ls k name B1 X)].
          assert (N = k) by (exact (anon_inj N k name name "" "" X2 B1 eq_refl)). subst N. exact (X3 b0 Hb0 B2). }
        destruct (Hcase b H1) as [Hb| ->]; destruct (Hcase b' H2) as [Hb'| ->].
        + rewrite (Old b) in A1 by lia. rewrite (Old b') in A2 by lia. exact (z_uniq s W b b' k Hb Hb' A1 A2).
        + rewrite (Old b) in A1 by lia. rewrite New in A2. exfalso. exact (Fresh b Hb A2 A1).
        + rewrite (Old b') in A2 by lia. rewrite New in A1. exfalso. exact (Fresh b' Hb' A1 A2).
        + reflexivity.
      - intros v Hv. destruct (z_vars s W v Hv) as (b & x & X1 & X2). exists b, x. rewrite (Old b) by lia. split; [unfold s1; cbn [s_n]; lia|exact X2].
      - intros b v H1 H2. destruct (Hcase b H1) as [Hb| ->].
        + rewrite (Old b) in * by lia. exact (z_decl s W b v Hb H2).
        + rewrite New in H2. contradiction. }
    split.
    { constructor; [unfold s1; cbn [s_n]; lia|unfold s1; cbn [s_gen]; lia| |exists []; rewrite app_nil_r; reflexivity].
      intros b Hb. rewrite (Old b) by lia. repeat split. }
    rewrite New. repeat split.
  Qed.

  Lemma Z_gen : forall s, Z s -> Z (next_gen s).
  Proof.
    intros s W. destruct W as [A A' B C D E F G]. constructor; try assumption. intros b H1 H2. destruct (D b H1 H2) as [(N & X1 & X2)|X]; [left|right; exact X].
    exists N. split; [cbn [s_gen next_gen]; lia|exact X2].
  Qed.
  Lemma fresh_gen : forall s N b, Z s -> s_gen s <= N -> b < s_n s -> ~ anon N (b_name (s_blk s b)).
  Proof.
    intros s N b W HN Hb A. destruct (Nat.eq_dec b 0) as [->|Hb0]; [rewrite (proj1 (z_top s W)) in A; exact (anon_not_top N A)|].
    destruct (z_name s W b ltac:(lia) Hb) as [(M & X1 & X2)|X]; [|exact (anon_named ls N _ A X)].
    assert (M = N) by (exact (anon_inj M N _ _ "" "" X2 A eq_refl)). lia.
  Qed.

  (** The new block becomes the current one: [f] as it was, in a new run. *)
  Lemma lo_child : forall s s1 c nb f r, Z s -> Z s1 -> c < s_n s -> fr s s1 (s_n s) -> s_vars s1 = s_vars s -> b_par (s_blk s1 nb) = Some c -> nb = s_n s -> s_n s1 = S (s_n s) ->
    b_decl (s_blk s1 nb) = [] ->
    match r with RRoot => False | RNamed n => b_name (s_blk s1 nb) = n /\ named ls n | RAnon => exists N, anon N (b_name (s_blk s1 nb)) end ->
    (f_pre f = true -> b_sub (s_blk s1 nb) = None -> forall x, In x (f_vis f) <-> has s c x) -> lo s1 nb (start f r).
  Proof.
    intros s s1 c nb f r W W1 Hc F V Hp -> Hn Hd Hr Hv. constructor.
    - cbn [f_run start]. destruct r; [contradiction|exact Hr|exact Hr].
    - intros x. rewrite Hd. cbn [f_dec start In]. tauto.
    - cbn [f_pre f_vis start]. intros Hpre Hsub x. rewrite (Hv Hpre Hsub x). unfold has.
      assert (Sc : scopes s1 (s_n s) = s_n s :: scopes s c).
      { unfold scopes. cbn [chain]. rewrite Hp. f_equal. rewrite (zchain_same (s_n s) s s1 c W Hc); [|intros a Ha; apply (k_blk _ _ _ F a Ha)].
        apply (zchain_fuel (s_n s) (S c) s c W Hc); lia. }
      rewrite Sc, V. split; intros (a & v & H1 & H2 & H3).
      + exists a, v. pose proof (zchain_le _ s c a W Hc H1). destruct (k_blk _ _ _ F a ltac:(lia)) as (_ & _ & _ & D). rewrite D by lia. split; [right; exact H1|tauto].
      + destruct H1 as [<-|H1]; [rewrite Hd in H2; contradiction|]. exists a, v. pose proof (zchain_le _ s c a W Hc H1).
        destruct (k_blk _ _ _ F a ltac:(lia)) as (_ & _ & _ & D). rewrite D in H2 by lia. tauto.
  Qed.

  Lemma names_child : forall s s1 nb f, fr s s1 (s_n s) -> s_n s1 = S (s_n s) -> nb = s_n s -> b_decl (s_blk s1 nb) = [] -> gl s f ->
    forall v, In v (f_names f) <-> exists b, b < s_n s1 /\ named ls (b_name (s_blk s1 b)) /\ In v (b_decl (s_blk s1 b)).
  Proof.
    intros s s1 nb f F Hn -> Hd G v. rewrite (l_names _ _ G v). split; intros (b & H1 & H2 & H3); exists b.
    - destruct (k_blk _ _ _ F b H1) as (A & _ & _ & D). rewrite A, D by lia. split; [lia|tauto].
    - destruct (Nat.eq_dec b (s_n s)) as [->|Hb]; [rewrite Hd in H3; contradiction|]. destruct (k_blk _ _ _ F b ltac:(lia)) as (A & _ & _ & D).
      rewrite A in H2. rewrite D in H3 by lia. split; [lia|tauto].
  Qed.

  Lemma Z_new : forall s pre post c nb s1 f, Z s -> c < s_n s -> new s pre post c = (nb, s1) ->
    (pre = "" /\ (post = "" \/ post = "_case")) \/ (pre = "__while" /\ post = "") -> gl s f ->
    (f_pre f = true -> b_sub (s_blk s c) = None -> forall x, In x (f_vis f) <-> has s c x) ->
    nb = s_n s /\ s_n s1 = S (s_n s) /\ Z s1 /\ fr s s1 (s_n s) /\ b_sub (s_blk s1 nb) = b_sub (s_blk s c) /\ gl s1 f /\ lo s1 nb (enter f).
  Proof.
    intros s pre post c nb s1 f W Hc H Hp G Hv. unfold new, add in H.
    assert (An : anon (s_gen s) (pre ++ block_name s ++ post)%string).
    { unfold block_name. destruct Hp as [[-> Hp]|[-> ->]].
      - exists "__block_", post. split; [tauto|]. split; [exact Hp|]. reflexivity.
      - exists "__while__block_", "". split; [tauto|]. split; [tauto|]. reflexivity. }
    destruct (Z_add (next_gen s) _ c _ nb s1 (Z_gen s W) Hc H) as (A & B & C & D & E & F & K & L).
    { left. exists (s_gen s). split; [cbn [s_gen next_gen]; lia|]. split; [exact An|]. intros b Hb. exact (fresh_gen s (s_gen s) b W (Nat.le_refl _) Hb). }
    cbn [s_n next_gen] in A, B, D. assert (D' : fr s s1 (s_n s)).
    { destruct D as [D1 D2 D3 D4]. cbn [s_n s_gen s_blk s_vars next_gen] in D1, D2, D3, D4. constructor; [lia|lia|exact D3|exact D4]. }
    assert (Oth : s_vars s1 = s_vars s /\ s_pre s1 = s_pre s /\ s_rep s1 = s_rep s /\ s_known s1 = s_known s /\ s_lbl s1 = s_lbl s /\ s_fwd s1 = s_fwd s).
    { unfold add_ctx in H. injection H as <- <-. repeat split. }
    destruct Oth as (O1 & O2 & O3 & O4 & O5 & O6).
    split; [exact A|]. split; [exact B|]. split; [exact C|]. split; [exact D'|]. split; [exact L|]. split.
    - destruct G as [G1 G2 G3 G4 G5 G6] eqn:EG. constructor; try congruence. exact (names_child s s1 nb f D' B A K G).
    - apply (lo_child s s1 c nb f RAnon W C Hc D' O1 E A B K); [|rewrite L; exact Hv]. exists (s_gen s). rewrite F. exact An.
  Qed.

  (** ** Declarations *)
  Lemma collides : forall s cur x, Z s -> cur < s_n s -> ~ mg x -> In x ds ->
    (In (blockVIOName (b_name (s_blk s cur)) x) (var_names s) <->
     exists b, b < s_n s /\ (b = cur \/ (named ls (b_name (s_blk s cur)) /\ named ls (b_name (s_blk s b)))) /\ In (blockVIOName (b_name (s_blk s cur)) x) (b_decl (s_blk s b))).
  Proof.
    intros s cur x W Hc Hx Hd. set (v := blockVIOName (b_name (s_blk s cur)) x). split.
    - intros Hv. destruct (z_vars s W v Hv) as (b & y & Hb & Hin & Ev & Hy & Hyd). exists b. split; [exact Hb|]. split; [|exact Hin].
      destruct (Nat.eq_dec b cur) as [->|Hbc]; [left; reflexivity|right].
      assert (NT : forall k, 0 < k -> k < s_n s -> b_name (s_blk s k) <> "_top").
      { intros k H1 H2 E. destruct (z_name s W k H1 H2) as [(N & _ & A)|A]; rewrite E in A; [exact (anon_not_top N A)|exact (named_not_top ls A)]. }
      assert (GM : forall k z, 0 < k -> k < s_n s -> In z ds -> mg (joined (b_name (s_blk s k)) z)).
      { intros k z H1 H2 Hz. destruct (z_name s W k H1 H2) as [(N & _ & A)|[(f & A)|(A & _)]].
        - left. exact (anon_head N _ z A).
        - left. rewrite A. eexists. reflexivity.
        - right. exists (b_name (s_blk s k)), z. repeat split; assumption. }
      destruct (Nat.eq_dec cur 0) as [->|Hc0].
      { exfalso. apply Hx. unfold v in Ev. rewrite (proj1 (z_top s W)) in Ev. unfold blockVIOName at 1 in Ev. cbn [String.eqb Ascii.eqb Bool.eqb] in Ev.
        change (x = blockVIOName (b_name (s_blk s b)) y) in Ev. rewrite Ev, vio_joined by (apply NT; lia). apply GM; [lia|exact Hb|exact Hyd]. }
      destruct (Nat.eq_dec b 0) as [->|Hb0].
      { exfalso. apply Hy. rewrite (proj1 (z_top s W)) in Ev. change (v = y) in Ev. rewrite <- Ev. unfold v. rewrite vio_joined by (apply NT; lia). apply GM; [lia|exact Hc|exact Hd]. }
      unfold v in Ev. rewrite !vio_joined in Ev by (apply NT; lia).
      destruct (z_name s W cur ltac:(lia) Hc) as [(N & _ & A)|A]; destruct (z_name s W b ltac:(lia) Hb) as [(M & _ & B)|B].
      + exfalso. assert (N = M) by (exact (anon_inj N M _ _ x y A B Ev)). subst M. apply Hbc. exact (z_uniq s W b cur N Hb Hc B A).
      + exfalso. exact (anon_not_named ls N _ _ x y A B Ev).
      + exfalso. exact (anon_not_named ls M _ _ y x B A (eq_sym Ev)).
      + split; assumption.
    - intros (b & Hb & _ & Hin). exact (proj1 (z_decl s W b v Hb Hin)).
  Qed.

  Lemma taken_ok : forall s cur f x, Z s -> cur < s_n s -> gl s f -> lo s cur f -> ~ mg x -> In x ds ->
    mem (blockVIOName (b_name (s_blk s cur)) x) (var_names s) = taken f x.
  Proof.
    intros s cur f x W Hc G L Hx Hd. apply eq_true_iff_eq. rewrite mem_In, (collides s cur x W Hc Hx Hd). unfold taken. pose proof (l_run _ _ _ L) as Hr.
    destruct (f_run f) as [|n|].
    - rewrite mem_In, (l_dec _ _ _ L x). split.
      + intros (b & Hb & [->|[Hn _]] & Hin); [exact Hin|]. exfalso. subst cur. rewrite (proj1 (z_top s W)) in Hn. exact (named_not_top ls Hn).
      + intros Hin. exists cur. tauto.
    - rewrite mem_In, (l_names _ _ G). destruct Hr as [Hr1 Hr2].
      assert (NT : n <> "_top") by (intros ->; exact (named_not_top ls Hr2)). rewrite Hr1, (vio_joined n x NT). split.
      + intros (b & Hb & [->|[_ Hn]] & Hin).
        * exists cur. rewrite Hr1. tauto.
        * exists b. tauto.
      + intros (b & Hb & Hn & Hin). exists b. tauto.
    - rewrite mem_In, (l_dec _ _ _ L x). destruct Hr as (N & Hr). split.
      + intros (b & Hb & [->|[Hn _]] & Hin); [exact Hin|]. exfalso. exact (anon_named ls N _ Hr Hn).
      + intros Hin. exists cur. tauto.
  Qed.

  Lemma decl_fit : forall s cur f x, Z s -> cur < s_n s -> gl s f -> lo s cur f -> ~ mg x -> In x ds ->
    if clash ports f x then add_var ports s cur x = None
    else exists s1, add_var ports s cur x = Some s1 /\ Z s1 /\ s_n s1 = s_n s /\ b_sub (s_blk s1 cur) = b_sub (s_blk s cur) /\ gl s1 (declare f x)
         /\ lo s1 cur (declare f x) /\ fr s s1 cur.
  Proof.
    intros s cur f x W Hc G L Hx Hd. unfold clash. rewrite <- (taken_ok s cur f x W Hc G L Hx Hd), <- (l_known _ _ G).
    set (v := blockVIOName (b_name (s_blk s cur)) x).
    unfold add_var. fold v. cbv zeta.
    set (s0 := match b_sub (s_blk s cur) with None => s | Some i => with_subs s (upd_sub (s_subs s) i (allow v)) (s_known s) end).
    assert (S0 : same4 s s0) by (unfold s0; destruct (b_sub (s_blk s cur)); [apply same4_subs|apply same4_refl]).
    assert (F0 : s_known s0 = s_known s /\ s_pre s0 = s_pre s /\ s_rep s0 = s_rep s /\ s_lbl s0 = s_lbl s /\ s_fwd s0 = s_fwd s /\ s_blk s0 = s_blk s /\ s_vars s0 = s_vars s).
    { unfold s0. destruct (b_sub (s_blk s cur)); repeat split. }
    destruct F0 as (K0 & P0 & R0 & L0 & W0 & B0 & V0).
    unfold available. rewrite K0. destruct (mem x (s_known s)); [reflexivity|]. destruct (mem x ports); [reflexivity|].
    assert (VN0 : var_names s0 = var_names s) by (unfold var_names; rewrite V0; reflexivity). rewrite VN0. destruct (mem v (var_names s)) eqn:Em; [reflexivity|]. cbn [orb].
    assert (Nv : ~ In v (var_names s)) by (rewrite <- mem_In, Em; discriminate).
    set (ins := fun s => with_vars (with_blk s (upd (s_blk s) cur {| b_name := b_name (s_blk s0 cur); b_par := b_par (s_blk s0 cur);
            b_rew := (x, v) :: b_rew (s_blk s0 cur); b_decl := v :: b_decl (s_blk s0 cur); b_sub := b_sub (s_blk s0 cur); b_may := b_may (s_blk s0 cur) |}))
            (s_vars s ++ [{| v_name := v; v_base := x |}])).
    match goal with |- context[if ?b then Shadowing else Available] => destruct b end; (eexists; split; [reflexivity|]);
      match goal with |- Z ?t /\ _ => set (s1 := t) end;
      (assert (Old : forall b, b <> cur -> s_blk s1 b = s_blk s b)
        by (intros b Hb; unfold s1, with_vars, with_blk, say; cbn [s_blk]; rewrite B0; unfold upd; destruct (Nat.eqb b cur) eqn:E; [apply Nat.eqb_eq in E; contradiction|reflexivity]));
      (assert (New : s_blk s1 cur = {| b_name := b_name (s_blk s cur); b_par := b_par (s_blk s cur); b_rew := (x, v) :: b_rew (s_blk s cur);
                                     b_decl := v :: b_decl (s_blk s cur); b_sub := b_sub (s_blk s cur); b_may := b_may (s_blk s cur) |})
        by (unfold s1, with_vars, with_blk, say; cbn [s_blk]; unfold upd; rewrite Nat.eqb_refl; reflexivity));
      (assert (V1 : s_vars s1 = s_vars s ++ [{| v_name := v; v_base := x |}]) by (unfold s1, with_vars, with_blk, say; cbn [s_vars]; rewrite V0; reflexivity));
      (assert (N1 : s_n s1 = s_n s) by (unfold s1, with_vars, with_blk, say; cbn [s_n]; exact (proj1 S0)));
      (assert (La1 : s_last s1 < s_n s) by (unfold s1, with_vars, with_blk, say; cbn [s_last]; apply (proj1 (proj2 (proj2 (proj2 S0)))); exact (z_last s W)));
      (assert (G1 : s_gen s1 = s_gen s) by (unfold s1, with_vars, with_blk, say; cbn [s_gen]; exact (proj1 (proj2 S0))));
      (assert (O1 : s_known s1 = s_known s /\ s_pre s1 = s_pre s /\ s_rep s1 = s_rep s /\ s_lbl s1 = s_lbl s /\ s_fwd s1 = s_fwd s)
        by (unfold s1, with_vars, with_blk, say; cbn [s_known s_pre s_rep s_lbl s_fwd]; tauto));
      clearbody s1; destruct O1 as (O1 & O2 & O3 & O4 & O5);
      (assert (Nm : forall b, b_name (s_blk s1 b) = b_name (s_blk s b)) by (intros b; destruct (Nat.eq_dec b cur) as [->|Hb]; [rewrite New; reflexivity|rewrite (Old b Hb); reflexivity]));
      (assert (Pr : forall b, b_par (s_blk s1 b) = b_par (s_blk s b)) by (intros b; destruct (Nat.eq_dec b cur) as [->|Hb]; [rewrite New; reflexivity|rewrite (Old b Hb); reflexivity]));
      (assert (Dc : forall b w, In w (b_decl (s_blk s1 b)) <-> (b = cur /\ w = v) \/ In w (b_decl (s_blk s b)))
        by (intros b w; destruct (Nat.eq_dec b cur) as [->|Hb]; [rewrite New; cbn [b_decl In]; intuition congruence|rewrite (Old b Hb); tauto]));
      (assert (Vn : var_names s1 = var_names s ++ [v]) by (unfold var_names; rewrite V1, map_app; reflexivity));
      (assert (Bold : forall w, In w (var_names s) -> base_of (s_vars s1) w = base_of (s_vars s) w) by (intros w Hw; rewrite V1; apply base_app_in; exact Hw));
      (assert (Bnew : base_of (s_vars s1) v = Some x) by (rewrite V1; apply base_last; exact Nv)).
    all: split; [|split; [exact N1|split; [rewrite New; reflexivity|split; [|split]]]].
    all: try (constructor; [lia|lia| |eexists; exact V1]; intros b Hb; split; [apply Nm|split; [apply Pr|split; [destruct (Nat.eq_dec b cur) as [->|Hb']; [rewrite New; reflexivity|rewrite (Old b Hb'); reflexivity]|intros Hb'; rewrite (Old b Hb'); reflexivity]]]; fail).
    all: try (constructor;
      [ rewrite N1; exact (z_0 s W)
      | rewrite N1; exact La1
      | rewrite Nm, Pr; exact (z_top s W)
      | intros b H1 H2; rewrite N1 in H2; rewrite Pr; exact (z_par s W b H1 H2)
      | intros b H1 H2; rewrite N1 in H2; rewrite Nm, G1; exact (z_name s W b H1 H2)
      | intros b b' k H1 H2; rewrite N1 in *; rewrite !Nm; exact (z_uniq s W b b' k H1 H2)
      | intros w Hw; rewrite Vn in Hw; apply in_app_or in Hw; destruct Hw as [Hw|[<-|[]]];
          [destruct (z_vars s W w Hw) as (b & y & X1 & X2 & X3); exists b, y; rewrite N1, Nm; split; [exact X1|split; [apply Dc; right; exact X2|exact X3]]
          |exists cur, x; rewrite N1, Nm; split; [exact Hc|split; [apply Dc; left; split; reflexivity|split; [reflexivity|split; assumption]]]]
      | intros b w H1 H2; rewrite N1 in H1; rewrite Nm, Vn; apply Dc in H2; destruct H2 as [[-> ->]|H2];
          [split; [apply in_or_app; right; left; reflexivity|exists x; split; [reflexivity|exact Bnew]]
          |destruct (z_decl s W b w H1 H2) as (X1 & y & X2 & X3); split; [apply in_or_app; left; exact X1|exists y; split; [exact X2|rewrite (Bold w X1); exact X3]]] ]; fail).
    all: try (constructor; cbn [f_pre f_rep f_known f_lbl f_fwd declare];
      [ rewrite O2; exact (l_pre _ _ G) | rewrite O3; exact (l_rep _ _ G) | rewrite O1; exact (l_known _ _ G) | rewrite O4; exact (l_lbl _ _ G) | rewrite O5; exact (l_fwd _ _ G) | ];
      intros w; pose proof (l_run _ _ _ L) as Hr; cbn [f_names declare]; rewrite N1;
      assert (Side : (exists b, b < s_n s /\ named ls (b_name (s_blk s1 b)) /\ In w (b_decl (s_blk s1 b))) <->
                     (named ls (b_name (s_blk s cur)) /\ w = v) \/ exists b, b < s_n s /\ named ls (b_name (s_blk s b)) /\ In w (b_decl (s_blk s b)))
        by (split; [intros (b & H1 & H2 & H3); rewrite Nm in H2; apply Dc in H3; destruct H3 as [[-> ->]|H3]; [left; tauto|right; exists b; tauto]
                   |intros [[H1 ->]|(b & H1 & H2 & H3)]; [exists cur; rewrite Nm; split; [exact Hc|split; [exact H1|apply Dc; left; split; reflexivity]]
                                                         |exists b; rewrite Nm; split; [exact H1|split; [exact H2|apply Dc; right; exact H3]]]]);
      rewrite Side, <- (l_names _ _ G w); destruct (f_run f) as [|n|];
      [ subst cur; split; [tauto|]; intros [[H1 _]|H1]; [exfalso; rewrite (proj1 (z_top s W)) in H1; exact (named_not_top ls H1)|exact H1]
      | destruct Hr as [Hr1 Hr2]; cbn [In]; assert (NT : n <> "_top") by (intros ->; exact (named_not_top ls Hr2));
        assert (Ev : v = joined n x) by (unfold v; rewrite Hr1; apply vio_joined; exact NT); rewrite Hr1, Ev; intuition congruence
      | destruct Hr as (N & Hr); split; [tauto|]; intros [[H1 _]|H1]; [exfalso; exact (anon_named ls N _ Hr H1)|exact H1] ]; fail).
    all: constructor; cbn [f_run f_dec f_vis f_pre declare];
      [ rewrite Nm; exact (l_run _ _ _ L)
      | intros y; rewrite Nm; rewrite (Dc cur); cbn [In]; rewrite (l_dec _ _ _ L y); split;
          [intros [->|H]; [left; split; reflexivity|right; exact H]|intros [[_ H]|H]; [left; exact (eq_sym (vio_inj _ _ _ H))|right; exact H]]
      | intros Hp Hs y; rewrite New in Hs; cbn [b_sub] in Hs; cbn [In]; rewrite (l_vis _ _ _ L Hp Hs y); unfold has, scopes; rewrite (chain_par s s1) by exact Pr; split;
          [intros [<-|(a & w & H1 & H2 & H3)];
             [exists cur, v; split; [left; reflexivity|split; [apply Dc; left; split; reflexivity|exact Bnew]]
             |exists a, w; split; [exact H1|split; [apply Dc; right; exact H2|]]; rewrite Bold; [exact H3|]; apply (proj1 (z_decl s W a w ltac:(pose proof (zchain_le _ s cur a W Hc H1); lia) H2))]
          |intros (a & w & H1 & H2 & H3); apply Dc in H2; destruct H2 as [[-> ->]|H2]; [left; congruence|right; exists a, w; split; [exact H1|split; [exact H2|]]; rewrite Bold in H3; [exact H3|];
             apply (proj1 (z_decl s W a w ltac:(pose proof (zchain_le _ s cur a W Hc H1); lia) H2))]] ].
  Qed.

  (** * The code and the rules agree *)
  Definition isS {A} (o : option A) : bool := match o with Some _ => true | None => false end.
  Definition clF (c : code) : Prop :=
    (forall x, In x (decls_of c) -> ~ mg x /\ In x ds) /\ (forall l, In l (labels_of c) -> In l ls /\ lab_ok l) /\ (forall n, In n (subs_of c) -> ~ mg n).
  Definition clFs (cs : codes) : Prop :=
    (forall x, In x (decls_ofs cs) -> ~ mg x /\ In x ds) /\ (forall l, In l (labels_ofs cs) -> In l ls /\ lab_ok l) /\ (forall n, In n (subs_ofs cs) -> ~ mg n).
  Definition subof (s : st) (c : nat) := b_sub (s_blk s c).

  Record OK (s : st) (cur : nat) (f : fs) (s' : st) (cur' : nat) (f' : fs) : Prop := {
    o_Z : Z s'; o_cur : cur' < s_n s'; o_sub : subof s' cur' = subof s cur; o_gl : gl s' f'; o_lo : lo s' cur' f'; o_fr : fr s s' cur;
    o_or : cur' = cur \/ s_n s <= cur'; o_pre : f_pre f = false -> f_pre f' = false }.
  Definition agree (s : st) (cur : nat) (f : fs) (r : option fs) (g : option (nat * st)) : Prop :=
    match r with None => g = None | Some f' => exists cur' s', g = Some (cur', s') /\ OK s cur f s' cur' f' end.
  Definition PF (c : code) : Prop := forall brk cur s f, Z s -> cur < s_n s -> gl s f -> lo s cur f -> clF c ->
    agree s cur f (fit ports c (isS brk) (isS (subof s cur)) f) (gather ports c brk cur s).

  Lemma cont : forall k brk s cur f s1 c1 f1, PF k -> clF k -> cur < s_n s -> OK s cur f s1 c1 f1 ->
    agree s cur f (fit ports k (isS brk) (isS (subof s cur)) f1) (gather ports k brk c1 s1).
  Proof.
    intros k brk s cur f s1 c1 f1 IH C Hc [Z1 C1 S1 G1 L1 F1 Or1 P1]. specialize (IH brk c1 s1 f1 Z1 C1 G1 L1 C). rewrite S1 in IH. unfold agree in *.
    destruct (fit ports k (isS brk) (isS (subof s cur)) f1) as [f2|]; [|exact IH].
    destruct IH as (c2 & s2 & E & [Z2 C2 S2 G2 L2 F2 Or2 P2]). exists c2, s2. split; [exact E|]. constructor; try assumption.
    - congruence.
    - exact (fr_trans s s1 s2 cur c1 F1 F2 Or1).
    - pose proof (k_n _ _ _ F1). destruct Or2 as [->|Or2]; [exact Or1|right; lia].
    - tauto.
  Qed.

  Definition St (s : st) (f : fs) : Prop := Z s /\ gl s f /\ f_pre f = false.
  Definition fn (s s' : st) : Prop := fr s s' (s_n s).
  Lemma fn_trans : forall a b c, fn a b -> fn b c -> fn a c.
  Proof. intros a b c F G. apply (fr_trans a b c _ (s_n b) F G). right. exact (k_n _ _ _ F). Qed.
  Lemma fn_refl : forall s, fn s s. Proof. intros s. apply fr_refl. Qed.
  Lemma fn_same : forall s s', same4 s s' -> fn s s'. Proof. intros s s' H. apply same4_fr. exact H. Qed.
  Lemma fn_sub : forall s s' c, fn s s' -> c < s_n s -> subof s' c = subof s c.
  Proof. intros s s' c F H. apply (k_blk _ _ _ F c H). Qed.
  Lemma gl_enter : forall s f, gl s f -> gl s (enter f).
  Proof. intros s f [A B C D E F]. constructor; assumption. Qed.
  Lemma gl_start : forall s f r, gl s f -> gl s (start f r).
  Proof. intros s f r [A B C D E F]. constructor; assumption. Qed.
  Lemma gl_of_enter : forall s f, gl s (enter f) -> gl s f.
  Proof. intros s f [A B C D E F]. constructor; assumption. Qed.
  Lemma gl_same : forall s s' f, same4 s s' -> gl s f -> s_pre s' = s_pre s -> s_rep s' = s_rep s -> s_known s' = s_known s -> s_lbl s' = s_lbl s -> s_fwd s' = s_fwd s -> gl s' f.
  Proof.
    intros s s' f S G A B C D E. pose proof (same4_names s s' f S G) as N. destruct G as [G1 G2 G3 G4 G5 G6]. constructor; try congruence. exact N.
  Qed.
  Lemma gl_nopre : forall s f, gl s f -> gl (with_pre s false) (nopre f).
  Proof. intros s f [A B C D E F]. constructor; try assumption. reflexivity. Qed.
  Lemma lo_nopre : forall s c f, lo s c f -> lo s c (nopre f).
  Proof. intros s c f [A B C]. constructor; try assumption. intros H. discriminate H. Qed.
  Lemma St_nopre : forall s f, Z s -> gl s f -> St (with_pre s false) (nopre f).
  Proof. intros s f W G. split; [exact (same4_Z _ _ (same4_pre s false) W)|]. split; [exact (gl_nopre s f G)|reflexivity]. Qed.
  Lemma St_same : forall s s' f, same4 s s' -> St s f -> s_pre s' = s_pre s -> s_rep s' = s_rep s -> s_known s' = s_known s -> s_lbl s' = s_lbl s -> s_fwd s' = s_fwd s -> St s' f.
  Proof. intros s s' f S (A & B & C) E1 E2 E3 E4 E5. split; [exact (same4_Z s s' S A)|]. split; [exact (gl_same s s' f S B E1 E2 E3 E4 E5)|exact C]. Qed.

  Lemma St_new : forall s f c pre post nb s1, St s f -> c < s_n s -> new s pre post c = (nb, s1) ->
    (pre = "" /\ (post = "" \/ post = "_case")) \/ (pre = "__while" /\ post = "") ->
    St s1 f /\ fn s s1 /\ nb = s_n s /\ s_n s1 = S (s_n s) /\ subof s1 nb = subof s c /\ lo s1 nb (enter f).
  Proof.
    intros s f c pre post nb s1 (A & B & C) Hc H Hp. destruct (Z_new s pre post c nb s1 f A Hc H Hp B) as (X1 & X2 & X3 & X4 & X5 & X6 & X7).
    { intros Hf. congruence. }
    split; [split; [exact X3|split; [exact X6|exact C]]|]. split; [exact X4|]. tauto.
  Qed.
  Lemma lo_keep : forall s s' a f f1, fn s s' -> a < s_n s -> lo s a (enter f) -> f_pre f1 = false -> lo s' a (enter f1).
  Proof.
    intros s s' a f f1 F Ha [L1 L2 L3] Hp. destruct (k_blk _ _ _ F a Ha) as (A & B & C & D). specialize (D ltac:(lia)). constructor.
    - cbn [f_run enter start] in *. rewrite A. exact L1.
    - intros x. rewrite A, D. exact (L2 x).
    - cbn [f_pre enter start]. congruence.
  Qed.
  Lemma fr_sub : forall s s' k c, fr s s' k -> c < s_n s -> subof s' c = subof s c.
  Proof. intros s s' k c F H. apply (k_blk _ _ _ F c H). Qed.

  Lemma block_F : forall b brk cur s f, PF b -> clF b -> St s f -> cur < s_n s ->
    match fit ports b (isS brk) (isS (subof s cur)) (enter f) with
    | None => gblock ports b brk cur s = None
    | Some f1 => exists a s', gblock ports b brk cur s = Some (a, s') /\ St s' f1 /\ fn s s' /\ s_n s <= a /\ a < s_n s' /\ subof s' a = subof s cur /\ lo s' a (enter f1)
    end.
  Proof.
    intros b brk cur s f IH C H Hc. unfold gblock. destruct (new s "" "" cur) as [nb s1] eqn:E1.
    destruct (St_new s f cur "" "" nb s1 H Hc E1 ltac:(tauto)) as ((Z1 & G1 & P1) & F1 & N1 & N1' & S1 & L1).
    specialize (IH brk nb s1 (enter f) Z1 ltac:(lia) (gl_enter _ _ G1) L1 C). rewrite S1 in IH. unfold agree in IH.
    destruct (fit ports b (isS brk) (isS (subof s cur)) (enter f)) as [f1|]; [|rewrite IH; reflexivity].
    destruct IH as (c2 & s2 & E2 & [Z2 C2 S2 G2 L2 F2 Or2 P2]). rewrite E2. cbn [obind]. specialize (P2 P1).
    assert (F12 : fn s s2). { apply (fr_trans s s1 s2 _ nb F1 F2). right. lia. }
    destruct (new s2 "" "" cur) as [a s3] eqn:E3. exists a, s3. split; [reflexivity|].
    pose proof (k_n _ _ _ F12).
    destruct (St_new s2 f1 cur "" "" a s3 (conj Z2 (conj G2 P2)) ltac:(lia) E3 ltac:(tauto)) as (St3 & F3 & N3 & N3' & S3 & L3).
    split; [exact St3|]. split; [exact (fn_trans _ _ _ F12 F3)|]. split; [lia|]. split; [lia|]. split; [|exact L3].
    rewrite S3. exact (fn_sub s s2 cur F12 Hc).
  Qed.

  Lemma done : forall s cur f s' a f1, St s' f1 -> fn s s' -> s_n s <= a -> a < s_n s' -> subof s' a = subof s cur -> lo s' a (enter f1) -> OK s cur f s' a (enter f1).
  Proof.
    intros s cur f s' a f1 (A & B & C) F H1 H2 H3 H4. constructor; try assumption.
    - apply gl_enter. exact B.
    - apply fr_any. exact F.
    - right. exact H1.
    - intros _. exact C.
  Qed.

  Ltac cleanF C := destruct C as (?C1 & ?C2 & ?C3); split; [|split]; intros ?q ?Hq;
    repeat match goal with K : forall x, In x _ -> _ |- _ => specialize (K q) end;
    cbn [decls_of labels_of subs_of decls_ofs labels_ofs subs_ofs] in *; rewrite ?in_app_iff in *; cbn [In] in *; rewrite ?in_app_iff in *; tauto.

  Lemma fit_end : PF KEnd.
  Proof.
    intros brk cur s f W Hc G L C. cbn [fit gather agree]. exists cur, s. split; [reflexivity|]. constructor; try assumption; try reflexivity; try tauto. apply fr_refl.
  Qed.
  Lemma fit_decl : forall x k, PF k -> PF (KDecl x k).
  Proof.
    intros x k IH brk cur s f W Hc G L C. cbn [fit gather].
    assert (Cx : ~ mg x /\ In x ds) by (apply C; left; reflexivity). destruct Cx as [Cx1 Cx2].
    pose proof (decl_fit s cur f x W Hc G L Cx1 Cx2) as D. destruct (clash ports f x); [rewrite D; reflexivity|].
    destruct D as (s1 & E & Z1 & N1 & S1 & G1 & L1 & F1). rewrite E. cbn [obind].
    apply (cont k brk s cur f s1 cur (declare f x) IH ltac:(cleanF C) Hc). constructor; try assumption; try tauto. lia.
  Qed.
  Lemma fit_use : forall u w x k, PF k -> PF (KUse u w x k).
  Proof.
    intros u w x k IH brk cur s f W Hc G L C. cbn [fit gather].
    assert (S : same4 s (with_pre (say s (LUse u w x cur)) false)) by exact (same4_refl s).
    apply (cont k brk s cur f _ cur (nopre f) IH ltac:(cleanF C) Hc). constructor.
    - exact (same4_Z _ _ S W).
    - exact Hc.
    - reflexivity.
    - exact (gl_nopre (say s (LUse u w x cur)) f (gl_same s (say s (LUse u w x cur)) f (same4_say s _) G eq_refl eq_refl eq_refl eq_refl eq_refl)).
    - exact (same4_lo _ _ _ _ S (lo_nopre s cur f L)).
    - exact (same4_fr _ _ _ S).
    - left. reflexivity.
    - intros _. reflexivity.
  Qed.
  Lemma fit_block : forall b k, PF b -> PF k -> PF (KBlock b k).
  Proof.
    intros b k IHb IH brk cur s f W Hc G L C.
    change (gather ports (KBlock b k) brk cur s) with (do (a, s1) <- gblock ports b brk cur (with_pre s false); gather ports k brk a s1).
    cbn [fit]. pose proof (block_F b brk cur (with_pre s false) (nopre f) IHb ltac:(cleanF C) (St_nopre s f W G) Hc) as B.
    change (subof (with_pre s false) cur) with (subof s cur) in B.
    destruct (fit ports b (isS brk) (isS (subof s cur)) (enter (nopre f))) as [f1|]; [|rewrite B; reflexivity].
    destruct B as (a & s' & E & S1 & F1 & A1 & A2 & Sb & L1). rewrite E. cbn [obind].
    exact (cont k brk s cur f s' a (enter f1) IH ltac:(cleanF C) Hc (done s cur f s' a f1 S1 (fn_trans _ _ _ (fn_same s _ (same4_pre s false)) F1) A1 A2 Sb L1)).
  Qed.

  (** States after some new blocks. *)
  Ltac grow H E := let St' := fresh "St" in let F' := fresh "F" in let N' := fresh "N" in let M' := fresh "M" in let S' := fresh "S" in let L' := fresh "L" in
    let Hn := fresh "Hn" in match type of E with new ?s _ _ ?c = _ => assert (Hn : c < s_n s) by lia end;
    destruct (St_new _ _ _ _ _ _ _ H Hn E ltac:(tauto)) as (St' & F' & N' & M' & S' & L').

  Lemma fit_if : forall u x b k, PF b -> PF k -> PF (KIf u x b k).
  Proof.
    intros u x b k IHb IH brk cur s f W Hc G L C.
    change (gather ports (KIf u x b k) brk cur s) with
      (let s0 := say (with_pre s false) (LUse u false x cur) in
       let (ib, s1) := new s0 "" "" cur in let (eb, s2) := new s1 "" "" cur in
       do (_, s3) <- gblock ports b brk ib s2;
       let (af, s4) := new s3 "" "" cur in gather ports k brk af (set_may s4 af)).
    cbv zeta. cbn [fit]. set (s0 := say (with_pre s false) (LUse u false x cur)).
    assert (H0 : St s0 (nopre f)) by exact (St_same _ s0 _ (same4_say _ _) (St_nopre s f W G) eq_refl eq_refl eq_refl eq_refl eq_refl).
    assert (F0 : fn s s0) by (apply fn_same; exact (same4_refl s)).
    assert (Hc0 : cur < s_n s0) by exact Hc. assert (Sc0 : subof s0 cur = subof s cur) by reflexivity. clearbody s0.
    destruct (new s0 "" "" cur) as [ib s1] eqn:E1. grow H0 E1. rename St0 into H1.
    destruct (new s1 "" "" cur) as [eb s2] eqn:E2. grow H1 E2. rename St0 into H2.
    pose proof (block_F b brk ib s2 (nopre f) IHb ltac:(cleanF C) H2 ltac:(lia)) as B.
    assert (Si : subof s2 ib = subof s cur) by (rewrite (fn_sub s1 s2 ib F1) by lia; congruence). rewrite Si in B.
    destruct (fit ports b (isS brk) (isS (subof s cur)) (enter (nopre f))) as [f1|]; [|rewrite B; reflexivity].
    destruct B as (a & s3 & E & H3 & F3 & A1 & A2 & Sb & L1'). rewrite E. cbn [obind]. pose proof (k_n _ _ _ F3) as Kn3.
    destruct (new s3 "" "" cur) as [af s4] eqn:E4. grow H3 E4. rename St0 into H4.
    assert (FF : fn s s3) by exact (fn_trans _ _ _ F0 (fn_trans _ _ _ F (fn_trans _ _ _ F1 F3))).
    apply (cont k brk s cur f _ af (enter f1) IH ltac:(cleanF C) Hc). apply done.
    - exact (St_same s4 (set_may s4 af) f1 (same4_may s4 af) H4 eq_refl eq_refl eq_refl eq_refl eq_refl).
    - exact (fn_trans _ _ _ FF (fn_trans _ _ _ F2 (fn_same _ _ (same4_may s4 af)))).
    - pose proof (k_n _ _ _ FF) as KnF. lia.
    - cbn [s_n set_may with_blk]. lia.
    - rewrite (fr_sub _ _ _ af (fn_same _ _ (same4_may s4 af))) by lia. rewrite S1. exact (fn_sub s s3 cur FF Hc).
    - exact (same4_lo _ _ _ _ (same4_may s4 af) L2).
  Qed.
  Lemma fit_ifelse : forall u x b1 b2 k, PF b1 -> PF b2 -> PF k -> PF (KIfElse u x b1 b2 k).
  Proof.
    intros u x b1 b2 k IHb1 IHb2 IH brk cur s f W Hc G L C.
    change (gather ports (KIfElse u x b1 b2 k) brk cur s) with
      (let s0 := say (with_pre s false) (LUse u false x cur) in
       let (ib, s1) := new s0 "" "" cur in let (eb, s2) := new s1 "" "" cur in
       do (_, s3) <- gblock ports b1 brk ib s2; do (_, s4) <- gblock ports b2 brk eb s3;
       let (af, s5) := new s4 "" "" cur in gather ports k brk af (set_may s5 af)).
    cbv zeta. cbn [fit]. set (s0 := say (with_pre s false) (LUse u false x cur)).
    assert (H0 : St s0 (nopre f)) by exact (St_same _ s0 _ (same4_say _ _) (St_nopre s f W G) eq_refl eq_refl eq_refl eq_refl eq_refl).
    assert (F0 : fn s s0) by (apply fn_same; exact (same4_refl s)).
    assert (Hc0 : cur < s_n s0) by exact Hc. assert (Sc0 : subof s0 cur = subof s cur) by reflexivity. clearbody s0.
    destruct (new s0 "" "" cur) as [ib s1] eqn:E1. grow H0 E1. rename St0 into H1.
    destruct (new s1 "" "" cur) as [eb s2] eqn:E2. grow H1 E2. rename St0 into H2.
    pose proof (block_F b1 brk ib s2 (nopre f) IHb1 ltac:(cleanF C) H2 ltac:(lia)) as B.
    assert (Si : subof s2 ib = subof s cur) by (rewrite (fn_sub s1 s2 ib F1) by lia; congruence). rewrite Si in B.
    destruct (fit ports b1 (isS brk) (isS (subof s cur)) (enter (nopre f))) as [f1|]; [|rewrite B; reflexivity].
    destruct B as (a & s3 & E & H3 & F3 & A1 & A2 & Sb & L1'). rewrite E. cbn [obind]. pose proof (k_n _ _ _ F3) as Kn3.
    pose proof (block_F b2 brk eb s3 f1 IHb2 ltac:(cleanF C) H3 ltac:(lia)) as B.
    assert (Se : subof s3 eb = subof s cur).
    { rewrite (fn_sub s2 s3 eb F3) by lia. rewrite S0. rewrite (fn_sub s0 s1 cur F) by lia. exact Sc0. }
    rewrite Se in B.
    destruct (fit ports b2 (isS brk) (isS (subof s cur)) (enter f1)) as [f2|]; [|rewrite B; reflexivity].
    destruct B as (a' & s4 & E' & H4 & F4 & A1' & A2' & Sb' & L2'). rewrite E'. cbn [obind]. pose proof (k_n _ _ _ F4) as Kn4.
    destruct (new s4 "" "" cur) as [af s5] eqn:E5. grow H4 E5. rename St0 into H5.
    assert (FF : fn s s4) by exact (fn_trans _ _ _ F0 (fn_trans _ _ _ F (fn_trans _ _ _ F1 (fn_trans _ _ _ F3 F4)))).
    apply (cont k brk s cur f _ af (enter f2) IH ltac:(cleanF C) Hc). apply done.
    - exact (St_same s5 (set_may s5 af) f2 (same4_may s5 af) H5 eq_refl eq_refl eq_refl eq_refl eq_refl).
    - exact (fn_trans _ _ _ FF (fn_trans _ _ _ F2 (fn_same _ _ (same4_may s5 af)))).
    - pose proof (k_n _ _ _ FF) as KnF. lia.
    - cbn [s_n set_may with_blk]. lia.
    - rewrite (fr_sub _ _ _ af (fn_same _ _ (same4_may s5 af))) by lia. rewrite S1. exact (fn_sub s s4 cur FF Hc).
    - exact (same4_lo _ _ _ _ (same4_may s5 af) L2).
  Qed.

  Definition PCF (cs : codes) : Prop := forall brk cur s f, St s f -> cur < s_n s -> clFs cs ->
    match fit_cases ports cs (isS brk) (isS (subof s cur)) f with
    | None => gcases ports cs brk cur s = None
    | Some f1 => exists s', gcases ports cs brk cur s = Some s' /\ St s' f1 /\ fn s s'
    end.
  Definition PSF (ss : codes) : Prop := forall cur from s f, St s f -> cur < s_n s -> from < s_n s -> clFs ss ->
    match fit_stages ports ss (isS (subof s cur)) f with
    | None => gstages ports ss cur from s = None
    | Some f1 => exists s', gstages ports ss cur from s = Some s' /\ St s' f1 /\ fn s s'
    end.
  Lemma fit_cases_nil : PCF CNil.
  Proof. intros brk cur s f H Hc C. cbn [fit_cases gcases]. exists s. split; [reflexivity|]. split; [exact H|apply fn_refl]. Qed.
  Lemma fit_cases_cons : forall c r, PF c -> PCF r -> PCF (CCons c r).
  Proof.
    intros c r IHc IH brk cur s f H0 Hc C.
    change (gcases ports (CCons c r) brk cur s) with
      (let (cb, s1) := new s "" "_case" cur in let (nb, s2) := new s1 "" "" cb in
       do (_, s3) <- gather ports c brk nb s2; gcases ports r brk cur (snd (new s3 "" "" cb))).
    change (fit_cases ports (CCons c r) (isS brk) (isS (subof s cur)) f) with
      (do f1 <- fit ports c (isS brk) (isS (subof s cur)) (enter f); fit_cases ports r (isS brk) (isS (subof s cur)) f1).
    destruct (new s "" "_case" cur) as [cb s1] eqn:E1. grow H0 E1. rename St0 into H1.
    pose proof (block_F c brk cb s1 f IHc ltac:(cleanF C) H1 ltac:(lia)) as B. unfold gblock in B.
    rewrite S in B. destruct (new s1 "" "" cb) as [nb s2] eqn:E2.
    destruct (fit ports c (isS brk) (isS (subof s cur)) (enter f)) as [f1|].
    - destruct B as (a & s4 & E & H4 & F4 & A1 & A2 & Sb & L1).
      destruct (gather ports c brk nb s2) as [[c3 s3]|]; [|discriminate]. cbn [obind] in *.
      assert (E3 : new s3 "" "" cb = (a, s4)) by congruence. rewrite E3. cbn [snd].
      pose proof (fn_trans _ _ _ F F4) as FF. pose proof (k_n _ _ _ FF) as KnF.
      specialize (IH brk cur s4 f1 H4 ltac:(lia) ltac:(cleanF C)). rewrite (fn_sub s s4 cur FF Hc) in IH.
      destruct (fit_cases ports r (isS brk) (isS (subof s cur)) f1) as [f2|]; [|exact IH].
      destruct IH as (s5 & E5 & H5 & F5). exists s5. split; [exact E5|]. split; [exact H5|exact (fn_trans _ _ _ FF F5)].
    - destruct (gather ports c brk nb s2) as [[c3 s3]|]; [discriminate|reflexivity].
  Qed.
  Lemma fit_switch : forall u x cs k, PCF cs -> PF k -> PF (KSwitch u x cs k).
  Proof.
    intros u x cs k IHc IH brk cur s f W Hc G L C.
    change (gather ports (KSwitch u x cs k) brk cur s) with
      (let s0 := say (with_pre s false) (LUse u false x cur) in
       let (af, s1) := new s0 "" "" cur in do s2 <- gcases ports cs brk cur s1; gather ports k brk af (set_may s2 af)).
    change (fit ports (KSwitch u x cs k) (isS brk) (isS (subof s cur)) f) with
      (do f1 <- fit_cases ports cs (isS brk) (isS (subof s cur)) (nopre f); fit ports k (isS brk) (isS (subof s cur)) (enter f1)).
    cbv zeta. set (s0 := say (with_pre s false) (LUse u false x cur)).
    assert (H0 : St s0 (nopre f)) by exact (St_same _ s0 _ (same4_say _ _) (St_nopre s f W G) eq_refl eq_refl eq_refl eq_refl eq_refl).
    assert (F0 : fn s s0) by (apply fn_same; exact (same4_refl s)).
    assert (Hc0 : cur < s_n s0) by exact Hc. assert (Sc0 : subof s0 cur = subof s cur) by reflexivity. clearbody s0.
    destruct (new s0 "" "" cur) as [af s1] eqn:E1. grow H0 E1. rename St0 into H1.
    specialize (IHc brk cur s1 (nopre f) H1 ltac:(lia) ltac:(cleanF C)). rewrite (fn_sub s0 s1 cur F) in IHc by lia. rewrite Sc0 in IHc.
    destruct (fit_cases ports cs (isS brk) (isS (subof s cur)) (nopre f)) as [f1|]; [|rewrite IHc; reflexivity].
    destruct IHc as (s2 & E & H2 & F2). rewrite E. cbn [obind]. pose proof (k_n _ _ _ F2) as Kn2. pose proof (k_n _ _ _ F0) as Kn0.
    apply (cont k brk s cur f _ af (enter f1) IH ltac:(cleanF C) Hc). apply done.
    - exact (St_same s2 (set_may s2 af) f1 (same4_may s2 af) H2 eq_refl eq_refl eq_refl eq_refl eq_refl).
    - exact (fn_trans _ _ _ F0 (fn_trans _ _ _ F (fn_trans _ _ _ F2 (fn_same _ _ (same4_may s2 af))))).
    - lia.
    - cbn [s_n set_may with_blk]. lia.
    - rewrite (fr_sub _ _ _ af (fn_same _ _ (same4_may s2 af))) by lia. rewrite (fn_sub s1 s2 af F2) by lia. congruence.
    - apply (same4_lo _ _ _ _ (same4_may s2 af)). apply (lo_keep s1 s2 af (nopre f) f1 F2 ltac:(lia) L0). apply H2.
  Qed.
  Lemma fit_while : forall u x b k, PF b -> PF k -> PF (KWhile u x b k).
  Proof.
    intros u x b k IHb IH brk cur s f W Hc G L C.
    change (gather ports (KWhile u x b k) brk cur s) with
      (let (h, s1) := new (with_pre s false) "__while" "" cur in
       let s2 := say (set_may s1 h) (LUse u false x h) in
       let (it, s3) := new s2 "" "" cur in let (af, s4) := new s3 "" "" cur in
       do (_, s5) <- gblock ports b (Some af) it s4; gather ports k brk af (with_fsm s5 af (s_lbl s5) (s_fwd s5))).
    cbn [fit]. pose proof (St_nopre s f W G) as H0. set (s0 := with_pre s false) in *.
    assert (F0 : fn s s0) by (apply fn_same; exact (same4_refl s)).
    assert (Hc0 : cur < s_n s0) by exact Hc. assert (Sc0 : subof s0 cur = subof s cur) by reflexivity. clearbody s0.
    destruct (new s0 "__while" "" cur) as [h s1] eqn:E1. grow H0 E1. rename St0 into H1. cbv zeta.
    set (s2 := say (set_may s1 h) (LUse u false x h)).
    assert (S12 : same4 s1 s2) by exact (same4_trans _ _ _ (same4_may s1 h) (same4_say _ _)).
    assert (H2 : St s2 (nopre f)) by exact (St_same s1 s2 _ S12 H1 eq_refl eq_refl eq_refl eq_refl eq_refl).
    pose proof (fn_same _ _ S12) as F12. assert (N2 : s_n s2 = s_n s1) by reflexivity. clearbody s2.
    destruct (new s2 "" "" cur) as [it s3] eqn:E3. grow H2 E3. rename St0 into H3.
    destruct (new s3 "" "" cur) as [af s4] eqn:E4. grow H3 E4. rename St0 into H4.
    assert (F02 : fn s s2) by exact (fn_trans _ _ _ F0 (fn_trans _ _ _ F F12)).
    assert (F03 : fn s s3) by exact (fn_trans _ _ _ F02 F1).
    pose proof (block_F b (Some af) it s4 (nopre f) IHb ltac:(cleanF C) H4 ltac:(lia)) as B.
    assert (Si : subof s4 it = subof s cur).
    { rewrite (fn_sub s3 s4 it F2) by lia. rewrite S0. exact (fn_sub s s2 cur F02 Hc). }
    rewrite Si in B. change (isS (Some af)) with true in B.
    destruct (fit ports b true (isS (subof s cur)) (enter (nopre f))) as [f1|]; [|rewrite B; reflexivity].
    destruct B as (a & s5 & E & H5 & F5 & A1 & A2 & Sb & L1'). rewrite E. cbn [obind]. pose proof (k_n _ _ _ F5) as Kn5. pose proof (k_n _ _ _ F03) as Kn03.
    assert (S56 : same4 s5 (with_fsm s5 af (s_lbl s5) (s_fwd s5))) by (apply same4_fsm; lia).
    apply (cont k brk s cur f _ af (enter f1) IH ltac:(cleanF C) Hc). apply done.
    - exact (St_same s5 _ f1 S56 H5 eq_refl eq_refl eq_refl eq_refl eq_refl).
    - exact (fn_trans _ _ _ F03 (fn_trans _ _ _ F2 (fn_trans _ _ _ F5 (fn_same _ _ S56)))).
    - lia.
    - cbn [s_n with_fsm]. lia.
    - rewrite (fr_sub _ _ _ af (fn_same _ _ S56)) by lia. rewrite (fn_sub s4 s5 af F5) by lia. rewrite S1. exact (fn_sub s s3 cur F03 Hc).
    - apply (same4_lo _ _ _ _ S56). apply (lo_keep s4 s5 af (nopre f) f1 F5 ltac:(lia) L2). apply H5.
  Qed.
  Lemma fit_split : forall k brk cur s f s1 s2 nb f1, PF k -> clF k -> cur < s_n s -> St s1 f1 -> same4 s s1 -> new s1 "" "" cur = (nb, s2) ->
    forall s3, same4 s2 s3 -> s_pre s3 = s_pre s2 -> s_rep s3 = s_rep s2 -> s_known s3 = s_known s2 -> s_lbl s3 = s_lbl s2 -> s_fwd s3 = s_fwd s2 ->
    agree s cur f (fit ports k (isS brk) (isS (subof s cur)) (enter f1)) (gather ports k brk nb s3).
  Proof.
    intros k brk cur s f s1 s2 nb f1 IH C Hc H1 S1 E s3 S3 e1 e2 e3 e4 e5. pose proof (proj1 S1) as N1.
    grow H1 E. pose proof (proj1 S3) as N3.
    apply (cont k brk s cur f s3 nb (enter f1) IH C Hc). apply done.
    - exact (St_same s2 s3 f1 S3 St0 e1 e2 e3 e4 e5).
    - exact (fn_trans _ _ _ (fn_same _ _ S1) (fn_trans _ _ _ F (fn_same _ _ S3))).
    - lia.
    - lia.
    - rewrite (fr_sub _ _ _ nb (fn_same _ _ S3)) by lia. rewrite S. apply (fn_sub s s1 cur (fn_same _ _ S1) Hc).
    - exact (same4_lo _ _ _ _ S3 L).
  Qed.
  Lemma fit_break : forall k, PF k -> PF (KBreak k).
  Proof.
    intros k IH brk cur s f W Hc G L C. cbn [fit gather]. destruct brk as [t|]; cbn [isS]; [|reflexivity].
    destruct (new (set_may (with_pre s false) t) "" "" cur) as [nb s1] eqn:E.
    assert (S : same4 s (set_may (with_pre s false) t)) by exact (same4_trans _ _ _ (same4_pre s false) (same4_may _ t)).
    exact (fit_split k (Some t) cur s f _ s1 nb (nopre f) IH ltac:(cleanF C) Hc
             (St_same _ _ _ (same4_may _ t) (St_nopre s f W G) eq_refl eq_refl eq_refl eq_refl eq_refl) S E s1 (same4_refl s1) eq_refl eq_refl eq_refl eq_refl eq_refl).
  Qed.
  Lemma fit_step : forall k, PF k -> PF (KStep k).
  Proof.
    intros k IH brk cur s f W Hc G L C. cbn [fit gather]. destruct (new (with_pre s false) "" "" cur) as [nb s1] eqn:E.
    exact (fit_split k brk cur s f _ s1 nb (nopre f) IH ltac:(cleanF C) Hc (St_nopre s f W G) (same4_pre s false) E (set_may s1 nb) (same4_may s1 nb)
             eq_refl eq_refl eq_refl eq_refl eq_refl).
  Qed.
  Lemma sassoc_mem : forall l m, match sassoc l m with Some _ => mem l (map fst m) = true | None => mem l (map fst m) = false end.
  Proof.
    intros l m. unfold mem. induction m as [|[a b] m IH]; [reflexivity|]. cbn [sassoc map existsb fst]. destruct (String.eqb l a); [reflexivity|]. exact IH.
  Qed.
  Lemma fit_goto : forall l k, PF k -> PF (KGoto l k).
  Proof.
    intros l k IH brk cur s f W Hc G L C. cbn [fit gather]. pose proof (sassoc_mem l (s_lbl s)) as M. rewrite (l_lbl _ _ G) in M.
    change (s_lbl (with_pre s false)) with (s_lbl s). pose proof (St_nopre s f W G) as H0.
    destruct (sassoc l (s_lbl s)) as [t|]; rewrite M.
    - destruct (new (set_may (with_pre s false) t) "" "" cur) as [nb s1] eqn:E.
      assert (S : same4 s (set_may (with_pre s false) t)) by exact (same4_trans _ _ _ (same4_pre s false) (same4_may _ t)).
      assert (H1 : St (with_pre s false) (jumps (nopre f) (f_lbl f) (f_fwd f))).
      { destruct H0 as (A & [G1 G2 G3 G4 G5 G6] & P). split; [exact A|]. split; [|exact P]. constructor; assumption. }
      exact (fit_split k brk cur s f _ s1 nb (jumps (nopre f) (f_lbl f) (f_fwd f)) IH ltac:(cleanF C) Hc
             (St_same _ _ _ (same4_may (with_pre s false) t) H1 eq_refl eq_refl eq_refl eq_refl eq_refl) S E s1 (same4_refl s1) eq_refl eq_refl eq_refl eq_refl eq_refl).
    - set (s1 := with_fsm (with_pre s false) (s_last (with_pre s false)) (s_lbl s) (l :: s_fwd (with_pre s false))).
      destruct (new s1 "" "" cur) as [nb s2] eqn:E.
      refine (fit_split k brk cur s f s1 s2 nb (jumps (nopre f) (f_lbl f) (l :: f_fwd f)) IH ltac:(cleanF C) Hc _ _ E s2 (same4_refl s2) eq_refl eq_refl eq_refl eq_refl eq_refl).
      + destruct H0 as (A & [G1 G2 G3 G4 G5 G6] & P). split; [|split; [|exact P]].
        * exact (same4_Z _ s1 (same4_fsm (with_pre s false) (s_last s) (s_lbl s) (l :: s_fwd s) (z_last s W)) A).
        * constructor; try assumption. cbn [s_fwd s1 with_fsm with_pre f_fwd jumps]. f_equal. exact G5.
      + exact (same4_fsm s (s_last s) (s_lbl s) (l :: s_fwd s) (z_last s W)).
  Qed.
  Lemma fit_return : forall k, PF k -> PF (KReturn k).
  Proof.
    intros k IH brk cur s f W Hc G L C. cbn [fit gather]. change (b_sub (s_blk (with_pre s false) cur)) with (subof s cur).
    destruct (subof s cur) as [i|] eqn:Es; cbn [isS].
    - destruct (new (with_pre s false) "" "" cur) as [nb s1] eqn:E.
      pose proof (fit_split k brk cur s f _ s1 nb (nopre f) IH ltac:(cleanF C) Hc (St_nopre s f W G) (same4_pre s false) E (set_may s1 cur) (same4_may s1 cur)
             eq_refl eq_refl eq_refl eq_refl eq_refl) as R. rewrite Es in R. exact R.
    - assert (R : agree s cur f (fit ports k (isS brk) (isS (subof s cur)) (nopre f)) (gather ports k brk cur (with_pre s false))); [|rewrite Es in R; exact R].
      apply (cont k brk s cur f _ cur (nopre f) IH ltac:(cleanF C) Hc). constructor.
      + apply (St_nopre s f W G).
      + exact Hc.
      + reflexivity.
      + exact (gl_nopre s f G).
      + exact (same4_lo s (with_pre s false) cur _ (same4_pre s false) (lo_nopre s cur f L)).
      + exact (same4_fr _ _ _ (same4_pre s false)).
      + left. reflexivity.
      + intros _. reflexivity.
  Qed.
  Lemma fit_label : forall l k, PF k -> PF (KLabel l k).
  Proof.
    intros l k IH brk cur s f W Hc G L C. cbn [fit gather]. pose proof (sassoc_mem l (s_lbl s)) as M. rewrite (l_lbl _ _ G) in M.
    destruct (sassoc l (s_lbl s)) as [t|]; rewrite M; [reflexivity|].
    assert (Cl : In l ls /\ lab_ok l) by (apply C; left; reflexivity).
    destruct (St_nopre s f W G) as (Z0 & G0 & P0). set (s0 := with_pre s false) in *.
    assert (S0 : same4 s s0) by exact (same4_refl s). assert (Hc0 : cur < s_n s0) by exact Hc. assert (N0 : s_n s0 = s_n s) by reflexivity.
    assert (Ss : subof s0 cur = subof s cur) by reflexivity. clearbody s0.
    unfold add. destruct (add_ctx s0 l cur (b_sub (s_blk s0 cur))) as [nb s1] eqn:E.
    destruct (Z_add s0 l cur _ nb s1 Z0 Hc0 E) as (A & B & Z1 & F1 & P1 & Nm & D & Sb).
    { right. right. exact Cl. }
    assert (Oth : s_vars s1 = s_vars s0 /\ s_pre s1 = s_pre s0 /\ s_rep s1 = s_rep s0 /\ s_known s1 = s_known s0 /\ s_lbl s1 = s_lbl s0 /\ s_fwd s1 = s_fwd s0 /\ s_last s1 < s_n s1).
    { unfold add_ctx in E. injection E as <- <-. repeat split. cbn [s_last s_n]. lia. }
    destruct Oth as (O1 & O2 & O3 & O4 & O5 & O6 & O7).
    assert (S2 : same4 s1 (with_fsm s1 (s_last s1) ((l, nb) :: s_lbl s1) (s_fwd s1))) by (apply same4_fsm; exact O7).
    apply (cont k brk s cur f _ nb _ IH ltac:(cleanF C) Hc). constructor.
    - exact (same4_Z _ _ S2 Z1).
    - cbn [s_n with_fsm]. lia.
    - change (subof s1 nb = subof s cur). unfold subof at 1. rewrite Sb. exact Ss.
    - pose proof (names_child s0 s1 nb (nopre f) F1 B A D G0) as Nc. destruct G0 as [G1 G2 G3 G4 G5 G6].
      cbn [f_pre f_rep f_known f_lbl f_fwd nopre] in G1, G2, G3, G4, G5.
      constructor; cbn [s_pre s_rep s_known s_lbl s_fwd with_fsm f_pre f_rep f_known f_lbl f_fwd f_names jumps start nopre map fst]; try congruence.
      exact Nc.
    - assert (Lc : lo s1 nb (start (nopre f) (RNamed l))).
      { apply (lo_child s0 s1 cur nb (nopre f) (RNamed l) Z0 Z1 Hc0 F1 O1 P1 A B D).
        - split; [exact Nm|]. right. exact Cl.
        - intros Hp. discriminate Hp. }
      destruct (same4_lo _ _ _ _ S2 Lc) as [X1 X2 X3]. constructor; assumption.
    - apply fr_any. exact (fn_trans _ _ _ (fn_same _ _ S0) (fn_trans _ _ _ F1 (fn_same _ _ S2))).
    - right. lia.
    - intros _. reflexivity.
  Qed.

  Lemma rep_F : forall b brk, PF b -> clF b -> forall n cur s f, Z s -> cur < s_n s -> gl s f -> lo s cur f ->
    agree s cur f (rep_fit ports b (isS brk) (isS (subof s cur)) n f) (rep_gather ports b brk n cur s).
  Proof.
    intros b brk IH C. induction n as [|n IHn]; intros cur s f W Hc G L; cbn [rep_fit rep_gather].
    - exact (fit_end None cur s f W Hc G L ltac:(split; [|split]; intros q [])).
    - pose proof (IH brk cur s f W Hc G L C) as H. unfold agree in H. destruct (fit ports b (isS brk) (isS (subof s cur)) f) as [f1|]; [|rewrite H; reflexivity].
      destruct H as (c1 & s1 & E & [Z1 C1 S1 G1 L1 F1 Or1 P1]). rewrite E. cbn [obind].
      specialize (IHn c1 s1 f1 Z1 C1 G1 L1). rewrite S1 in IHn. change ((fix rep (n0 : nat) (f2 : fs) {struct n0} : option fs :=
          match n0 with 0 => Some f2 | S m => do f3 <- fit ports b (isS brk) (isS (subof s cur)) f2; rep m f3 end) n f1)
        with (rep_fit ports b (isS brk) (isS (subof s cur)) n f1). unfold agree in *.
      change ((fix rep (n0 cur0 : nat) (s0 : st) {struct n0} : option (nat * st) :=
          match n0 with 0 => Some (cur0, s0) | S m => do (c, s') <- gather ports b brk cur0 s0; rep m c s' end) n c1 s1)
        with (rep_gather ports b brk n c1 s1).
      destruct (rep_fit ports b (isS brk) (isS (subof s cur)) n f1) as [f2|]; [|exact IHn].
      destruct IHn as (c2 & s2 & E2 & [Z2 C2 S2 G2 L2 F2 Or2 P2]). exists c2, s2. split; [exact E2|]. constructor; try assumption.
      + congruence.
      + exact (fr_trans s s1 s2 cur c1 F1 F2 Or1).
      + pose proof (k_n _ _ _ F1). destruct Or2 as [->|Or2]; [exact Or1|right; lia].
      + tauto.
  Qed.
  Lemma fit_repeat : forall n b k, PF b -> PF k -> PF (KRepeat n b k).
  Proof.
    intros n b k IHb IH brk cur s f W Hc G L C.
    change (gather ports (KRepeat n b k) brk cur s) with
      (let s0 := with_pre s false in if s_rep s0 then None else if Nat.eqb n 0 then None
       else do (a, s1) <- rep_gather ports b brk n cur (with_rep s0 true); gather ports k brk a (with_rep s1 false)).
    change (fit ports (KRepeat n b k) (isS brk) (isS (subof s cur)) f) with
      (if f_rep f then None else if Nat.eqb n 0 then None else
        do f1 <- rep_fit ports b (isS brk) (isS (subof s cur)) n (frep (nopre f) true); fit ports k (isS brk) (isS (subof s cur)) (frep f1 false)).
    cbv zeta. change (s_rep (with_pre s false)) with (s_rep s). rewrite (l_rep _ _ G). destruct (f_rep f); [reflexivity|]. destruct (Nat.eqb n 0); [reflexivity|].
    set (s0 := with_rep (with_pre s false) true). assert (S0 : same4 s s0) by exact (same4_refl s).
    assert (G0 : gl s0 (frep (nopre f) true)).
    { destruct (gl_nopre s f G) as [G1 G2 G3 G4 G5 G6]. constructor; try assumption. reflexivity. }
    assert (L0 : lo s0 cur (frep (nopre f) true)).
    { destruct (same4_lo _ _ _ _ S0 (lo_nopre s cur f L)) as [L1 L2 L3]. constructor; try assumption. }
    pose proof (rep_F b brk IHb ltac:(cleanF C) n cur s0 _ (same4_Z _ _ S0 W) Hc G0 L0) as R. unfold agree in R at 1.
    change (subof s0 cur) with (subof s cur) in R.
    destruct (rep_fit ports b (isS brk) (isS (subof s cur)) n (frep (nopre f) true)) as [f1|]; [|rewrite R; reflexivity].
    destruct R as (c1 & s1 & E & [Z1 C1 S1 G1 L1 F1 Or1 P1]). rewrite E. cbn [obind].
    apply (cont k brk s cur f _ c1 _ IH ltac:(cleanF C) Hc). constructor.
    - exact (same4_Z _ _ (same4_rep s1 false) Z1).
    - exact C1.
    - exact S1.
    - destruct G1 as [g1 g2 g3 g4 g5 g6]. constructor; try assumption. reflexivity.
    - destruct (same4_lo _ _ _ _ (same4_rep s1 false) L1) as [l1 l2 l3]. constructor; assumption.
    - apply (fr_trans s s1 _ cur cur); [|exact (same4_fr _ _ _ (same4_rep s1 false))|left; reflexivity].
      exact (fr_trans s s0 s1 cur cur (same4_fr _ _ _ S0) F1 (or_introl eq_refl)).
    - exact Or1.
    - intros _. exact (P1 eq_refl).
  Qed.

  Lemma forward_fit : forall fwd lbl s,
    if forallb (fun l => mem l (map fst lbl)) fwd then exists s', forward fwd lbl s = Some s' /\ same4 s s' /\ s_pre s' = s_pre s /\ s_rep s' = s_rep s
         /\ s_known s' = s_known s /\ s_lbl s' = s_lbl s /\ s_fwd s' = s_fwd s
    else forward fwd lbl s = None.
  Proof.
    induction fwd as [|l r IH]; intros lbl s; cbn [forallb forward].
    - exists s. repeat (split; [reflexivity|]). split; [apply same4_refl|]. repeat split.
    - pose proof (sassoc_mem l lbl) as M. destruct (sassoc l lbl) as [b|]; rewrite M; cbn [andb]; [|reflexivity].
      specialize (IH lbl (set_may s b)). destruct (forallb (fun l => mem l (map fst lbl)) r); [|exact IH].
      destruct IH as (s' & E & S & X). exists s'. split; [exact E|]. split; [exact (same4_trans _ _ _ (same4_may s b) S)|exact X].
  Qed.
  Lemma landed_ok : forall s f, gl s f -> landed f = forallb (fun l => mem l (map fst (s_lbl s))) (s_fwd s).
  Proof. intros s f G. unfold landed. rewrite (l_lbl _ _ G), (l_fwd _ _ G). reflexivity. Qed.

  Lemma fit_stages_nil : PSF CNil.
  Proof. intros cur from s f H Hc Hf C. cbn [fit_stages gstages]. exists s. split; [reflexivity|]. split; [exact H|apply fn_refl]. Qed.
  Lemma fit_stages_cons : forall c r, PF c -> PSF r -> PSF (CCons c r).
  Proof.
    intros c r IHc IH cur from s f (W & G & P) Hc Hf C.
    change (gstages ports (CCons c r) cur from s) with
      (let (fb, s1) := add_ctx (next_gen s) ("__stage_" ++ block_name s)%string from (subof s cur) in
       do (_, s2) <- gather ports c None fb (with_fsm s1 fb [] []); do s3 <- forward (s_fwd s2) (s_lbl s2) s2; gstages ports r cur (s_last s3) s3).
    change (fit_stages ports (CCons c r) (isS (subof s cur)) f) with
      (do f1 <- fit ports c false (isS (subof s cur)) (enter (jumps f [] [])); if landed f1 then fit_stages ports r (isS (subof s cur)) f1 else None).
    destruct (add_ctx (next_gen s) ("__stage_" ++ block_name s)%string from (subof s cur)) as [fb s1] eqn:E.
    assert (An : anon (s_gen s) ("__stage_" ++ block_name s)%string).
    { exists "__stage___block_", "". split; [tauto|]. split; [tauto|]. unfold block_name. rewrite app_nil_str. reflexivity. }
    destruct (Z_add (next_gen s) _ from _ fb s1 (Z_gen s W) Hf E) as (A & B & Z1 & F1 & P1 & Nm & D & Sb).
    { left. exists (s_gen s). split; [cbn [s_gen next_gen]; lia|]. split; [exact An|]. intros b Hb. exact (fresh_gen s (s_gen s) b W (Nat.le_refl _) Hb). }
    cbn [s_n next_gen] in A, B, F1. assert (F1' : fn s s1).
    { destruct F1 as [D1 D2 D3 D4]. cbn [s_n s_gen s_blk s_vars next_gen] in D1, D2, D3, D4. constructor; [lia|lia|exact D3|exact D4]. }
    assert (Oth : s_vars s1 = s_vars s /\ s_pre s1 = s_pre s /\ s_rep s1 = s_rep s /\ s_known s1 = s_known s).
    { unfold add_ctx in E. injection E as <- <-. repeat split. }
    destruct Oth as (O1 & O2 & O3 & O4).
    assert (Gj : gl (with_fsm s1 fb [] []) (enter (jumps f [] []))).
    { pose proof (names_child s s1 fb f F1' B A D G) as Nc. destruct G as [G1 G2 G3 G4 G5 G6].
      constructor; cbn [s_pre s_rep s_known s_lbl s_fwd with_fsm f_pre f_rep f_known f_lbl f_fwd f_names jumps enter start map]; try congruence. exact Nc. }
    assert (S2 : same4 s1 (with_fsm s1 fb [] [])) by (apply same4_fsm; lia).
    assert (Lj : lo (with_fsm s1 fb [] []) fb (enter (jumps f [] []))).
    { apply (same4_lo _ _ _ _ S2). apply (lo_child s s1 from fb (jumps f [] []) RAnon W Z1 Hf F1' O1 P1 A B D).
      - exists (s_gen s). rewrite Nm. exact An.
      - cbn [f_pre jumps]. intros Hp. congruence. }
    pose proof (IHc None fb _ _ (same4_Z _ _ S2 Z1) ltac:(cbn [s_n with_fsm]; lia) Gj Lj ltac:(cleanF C)) as R. unfold agree in R.
    assert (Sf : subof (with_fsm s1 fb [] []) fb = subof s cur) by exact Sb. rewrite Sf in R. change (isS None) with false in R.
    destruct (fit ports c false (isS (subof s cur)) (enter (jumps f [] []))) as [f1|]; [|rewrite R; reflexivity].
    destruct R as (c2 & s2 & E2 & [Z2 C2 Sb2 G2 L2 F2 Or2 P2]). rewrite E2. cbn [obind].
    specialize (P2 P). rewrite (landed_ok s2 f1 G2).
    pose proof (forward_fit (s_fwd s2) (s_lbl s2) s2) as FF. destruct (forallb (fun l => mem l (map fst (s_lbl s2))) (s_fwd s2)); [|rewrite FF; reflexivity].
    destruct FF as (s3 & E3 & S3 & e1 & e2 & e3 & e4 & e5). rewrite E3. cbn [obind].
    assert (H3 : St s3 f1) by exact (St_same s2 s3 f1 S3 (conj Z2 (conj G2 P2)) e1 e2 e3 e4 e5).
    assert (F03 : fn s s3).
    { apply (fn_trans s s2 s3); [|exact (fn_same _ _ S3)]. apply (fr_trans s (with_fsm s1 fb [] []) s2 _ fb); [|exact F2|right; lia].
      exact (fn_trans _ _ _ F1' (fn_same _ _ S2)). }
    pose proof (k_n _ _ _ F03) as Kn03. specialize (IH cur (s_last s3) s3 f1 H3 ltac:(lia) (z_last s3 (proj1 H3)) ltac:(cleanF C)).
    rewrite (fn_sub s s3 cur F03 Hc) in IH. destruct (fit_stages ports r (isS (subof s cur)) f1) as [f2|]; [|exact IH].
    destruct IH as (s4 & E4 & H4 & F4). exists s4. split; [exact E4|]. split; [exact H4|exact (fn_trans _ _ _ F03 F4)].
  Qed.
  Lemma fit_pipe : forall ss k, PSF ss -> PF k -> PF (KPipe ss k).
  Proof.
    intros ss k IHs IH brk cur s f W Hc G L C.
    change (gather ports (KPipe ss k) brk cur s) with
      (match ss with CNil | CCons _ CNil => None
       | _ => do s1 <- gstages ports ss cur cur (with_pre s false);
              let (af, s2) := new (with_fsm s1 (s_last s) (s_lbl s) (s_fwd s)) "" "" cur in gather ports k brk af s2 end).
    change (fit ports (KPipe ss k) (isS brk) (isS (subof s cur)) f) with
      (match ss with CNil | CCons _ CNil => None
       | _ => do f1 <- fit_stages ports ss (isS (subof s cur)) (nopre f); fit ports k (isS brk) (isS (subof s cur)) (enter (jumps f1 (f_lbl f) (f_fwd f))) end).
    pose proof (IHs cur cur (with_pre s false) (nopre f) (St_nopre s f W G) Hc Hc ltac:(cleanF C)) as R.
    change (subof (with_pre s false) cur) with (subof s cur) in R.
    destruct ss as [|c1 [|c2 r]]; [reflexivity|reflexivity|].
    destruct (fit_stages ports (CCons c1 (CCons c2 r)) (isS (subof s cur)) (nopre f)) as [f1|]; [|rewrite R; reflexivity].
    destruct R as (s1 & E & (Z1 & G1 & P1) & F1). rewrite E. cbn [obind].
    assert (F01 : fn s s1) by exact (fn_trans _ _ _ (fn_same _ _ (same4_pre s false)) F1). pose proof (k_n _ _ _ F01). pose proof (z_last s W).
    set (s2 := with_fsm s1 (s_last s) (s_lbl s) (s_fwd s)). assert (S2 : same4 s1 s2) by (apply same4_fsm; lia).
    assert (H2 : St s2 (jumps f1 (f_lbl f) (f_fwd f))).
    { split; [exact (same4_Z _ _ S2 Z1)|]. split; [|exact P1]. destruct G1 as [g1 g2 g3 g4 g5 g6]. constructor; try assumption.
      - exact (l_lbl _ _ G).
      - exact (l_fwd _ _ G). }
    assert (N2 : s_n s2 = s_n s1) by reflexivity.
    assert (F02 : fn s s2) by exact (fn_trans _ _ _ F01 (fn_same _ _ S2)). clearbody s2.
    destruct (new s2 "" "" cur) as [af s3] eqn:E3. grow H2 E3.
    apply (cont k brk s cur f _ af (enter (jumps f1 (f_lbl f) (f_fwd f))) IH ltac:(cleanF C) Hc). apply done.
    - exact St0.
    - exact (fn_trans _ _ _ F02 F).
    - lia.
    - lia.
    - rewrite S. exact (fn_sub s s2 cur F02 Hc).
    - exact L0.
  Qed.

  Lemma sub_free : forall s cur f name, Z s -> cur < s_n s -> gl s f -> lo s cur f -> ~ mg name -> f_pre f = true -> subof s cur = None ->
    available ports s cur name name = Available <-> mem name (f_known f) || mem name ports || mem name (f_vis f) = false.
  Proof.
    intros s cur f name W Hc G L Hn Hp Hs. unfold available. rewrite (l_known _ _ G).
    destruct (mem name (f_known f)); [split; discriminate|]. destruct (mem name ports); [split; discriminate|]. cbn [orb].
    assert (V : mem name (f_vis f) = true <-> has s cur name) by (rewrite mem_In; exact (l_vis _ _ _ L Hp Hs name)).
    assert (A : mem name (var_names s) = true -> has s cur name).
    { rewrite mem_In. intros H. destruct (z_vars s W name H) as (b & y & H1 & H2 & H3 & H4 & H5). destruct (Nat.eq_dec b 0) as [->|Hb].
      - rewrite (proj1 (z_top s W)) in H3. change (name = y) in H3. subst y. exists 0, name. split; [exact (zroot (S cur) s cur W Hc (Nat.lt_succ_diag_r cur))|]. split; [exact H2|].
        destruct (z_decl s W 0 name H1 H2) as (_ & y & E1 & E2). rewrite (proj1 (z_top s W)) in E1. change (name = y) in E1. congruence.
      - exfalso. apply Hn. destruct (z_name s W b ltac:(lia) H1) as [(N & _ & B)|B].
        + rewrite vio_joined in H3 by (intros E; rewrite E in B; exact (anon_not_top N B)). left. rewrite H3. exact (anon_head N _ y B).
        + rewrite vio_joined in H3 by (intros E; rewrite E in B; exact (named_not_top ls B)). rewrite H3. destruct B as [(g & B)|(B & _)].
          * left. rewrite B. eexists. reflexivity.
          * right. exists (b_name (s_blk s b)), y. repeat split; assumption. }
    assert (E : existsb (fun a => existsb (is_base s name) (b_decl (s_blk s a))) (scopes s cur) = true <-> has s cur name).
    { rewrite existsb_exists. unfold has. split.
      - intros (a & H1 & H2). apply existsb_exists in H2. destruct H2 as (v & H2 & H3). exists a, v. unfold is_base in H3.
        destruct (base_of (s_vars s) v) as [y|]; [|discriminate]. apply String.eqb_eq in H3. subst y. tauto.
      - intros (a & v & H1 & H2 & H3). exists a. split; [exact H1|]. apply existsb_exists. exists v. split; [exact H2|]. unfold is_base. rewrite H3. apply String.eqb_refl. }
    destruct (mem name (f_vis f)); destruct (mem name (var_names s)); destruct (existsb (fun a => existsb (is_base s name) (b_decl (s_blk s a))) (scopes s cur));
      try (split; congruence); exfalso.
    - assert (false = true) by tauto. discriminate.
    - assert (false = true) by tauto. discriminate.
    - assert (false = true) by tauto. discriminate.
    - assert (false = true) by tauto. discriminate.
  Qed.
  Lemma fit_sub : forall name r w b k, PF b -> PF k -> PF (KSub name r w b k).
  Proof.
    intros name r w b k IHb IH brk cur s f W Hc G L C. cbn [fit gather]. rewrite (l_pre _ _ G). destruct (f_pre f) eqn:Hp; cbn [negb]; [|reflexivity].
    change (b_sub (s_blk s cur)) with (subof s cur). destruct (subof s cur) as [i0|] eqn:Es; cbn [isS]; [reflexivity|].
    assert (Cn : ~ mg name) by (apply C; left; reflexivity).
    pose proof (sub_free s cur f name W Hc G L Cn Hp Es) as Sf.
    destruct (mem name (f_known f) || mem name ports || mem name (f_vis f)).
    { destruct (available ports s cur name name); try reflexivity. exfalso. assert (true = false) by tauto. discriminate. }
    rewrite (proj2 Sf eq_refl). clear Sf.
    set (i := length (s_subs s)). destruct (add_ctx s ("__sub_" ++ name)%string cur (Some i)) as [sb s1] eqn:E.
    assert (Nd : named ls ("__sub_" ++ name)%string) by (left; eexists; reflexivity).
    destruct (Z_add s _ cur _ sb s1 W Hc E (or_intror Nd)) as (A & B & Z1 & F1 & P1 & Nm & D & Sb).
    assert (Oth : s_vars s1 = s_vars s /\ s_pre s1 = s_pre s /\ s_rep s1 = s_rep s /\ s_known s1 = s_known s /\ s_lbl s1 = s_lbl s /\ s_fwd s1 = s_fwd s).
    { unfold add_ctx in E. injection E as <- <-. repeat split. }
    destruct Oth as (O1 & O2 & O3 & O4 & O5 & O6).
    set (s2 := with_subs (set_may s1 sb) (s_subs s1 ++ [{| u_reads := map (translate s cur) r; u_writes := map (translate s cur) w |}]) (s_known s1)).
    assert (S2 : same4 s1 s2) by exact (same4_trans _ _ _ (same4_may s1 sb) (same4_subs _ _ _)).
    assert (G2 : gl s2 (start f (RNamed ("__sub_" ++ name)%string))).
    { pose proof (names_child s s1 sb f F1 B A D G) as Nc. destruct G as [g1 g2 g3 g4 g5 g6].
      assert (g : gl s1 f) by (constructor; try congruence; exact Nc).
      apply gl_start. exact (gl_same s1 s2 f S2 g eq_refl eq_refl eq_refl eq_refl eq_refl). }
    assert (L2 : lo s2 sb (start f (RNamed ("__sub_" ++ name)%string))).
    { apply (same4_lo _ _ _ _ S2). apply (lo_child s s1 cur sb f _ W Z1 Hc F1 O1 P1 A B D); [split; [exact Nm|exact Nd]|]. intros _ Hx. congruence. }
    assert (Sub2 : subof s2 sb = Some i) by (rewrite (fr_sub _ _ _ sb (fn_same _ _ S2)) by lia; exact Sb).
    pose proof (IHb brk sb s2 _ (same4_Z _ _ S2 Z1) ltac:(rewrite (proj1 S2); lia) G2 L2 ltac:(cleanF C)) as R. unfold agree in R at 1.
    rewrite Sub2 in R. change (isS (Some i)) with true in R. fold s2.
    destruct (fit ports b (isS brk) true (start f (RNamed ("__sub_" ++ name)%string))) as [f1|]; [|rewrite R; reflexivity].
    destruct R as (c3 & s3 & E3 & [Z3 C3 Sb3 G3 L3 F3 Or3 P3]). rewrite E3. cbn [obind].
    set (s4 := with_pre (with_subs s3 (s_subs s3) (name :: s_known s3)) true).
    assert (S4 : same4 s3 s4) by exact (same4_refl s3).
    assert (F03 : fn s s3).
    { apply (fr_trans s s2 s3 _ sb); [exact (fn_trans _ _ _ F1 (fn_same _ _ S2))|exact F3|right; lia]. }
    pose proof (k_n _ _ _ F03) as Kn. destruct (k_blk _ _ _ F03 cur Hc) as (K1 & K2 & K3 & K4). specialize (K4 ltac:(lia)).
    assert (R : agree s cur f (fit ports k (isS brk) (isS (subof s cur)) (back f f1 name)) (gather ports k brk cur s4)); [|rewrite Es in R; exact R].
    apply (cont k brk s cur f s4 cur (back f f1 name) IH ltac:(cleanF C) Hc). constructor.
    - exact (same4_Z _ _ S4 Z3).
    - cbn [s_n s4 with_pre with_subs]. lia.
    - exact K3.
    - destruct G3 as [g1 g2 g3 g4 g5 g6]. constructor; try assumption; [reflexivity|]. cbn [s_known s4 with_pre with_subs f_known back]. f_equal. exact g3.
    - destruct L as [l1 l2 l3]. apply (same4_lo _ _ _ _ S4). constructor; cbn [f_run f_dec f_vis f_pre back].
      + rewrite K1. exact l1.
      + intros x. rewrite K1, K4. exact (l2 x).
      + intros _ _ x. rewrite (l3 Hp Es x). unfold has, scopes. rewrite (zchain_same _ s s3 cur W Hc) by (intros a Ha; apply (k_blk _ _ _ F03 a Ha)).
        destruct (k_vars _ _ _ F03) as (vs & Ev).
        assert (Keep : forall a v, In a (chain (S cur) s cur) -> (In v (b_decl (s_blk s3 a)) <-> In v (b_decl (s_blk s a)))
                         /\ (In v (b_decl (s_blk s a)) -> base_of (s_vars s3) v = base_of (s_vars s) v)).
        { intros a v Ha. pose proof (zchain_le _ s cur a W Hc Ha). destruct (k_blk _ _ _ F03 a ltac:(lia)) as (_ & _ & _ & Da). rewrite Da by lia. split; [tauto|].
          intros Hv. rewrite Ev. apply base_app_in. exact (proj1 (z_decl s W a v ltac:(lia) Hv)). }
        split; intros (a & v & H1 & H2 & H3); exists a, v; destruct (Keep a v H1) as (Q1 & Q2).
        * split; [exact H1|]. split; [apply Q1; exact H2|]. rewrite (Q2 H2). exact H3.
        * apply Q1 in H2. split; [exact H1|]. split; [exact H2|]. rewrite <- (Q2 H2). exact H3.
    - apply (fr_any s s4 cur). exact (fn_trans _ _ _ F03 (fn_same _ _ S4)).
    - left. reflexivity.
    - intros Hf. congruence.
  Qed.

  Theorem fit_exact : (forall c, PF c) /\ (forall cs, PCF cs /\ PSF cs).
  Proof.
    apply code_codes_ind.
    - exact fit_end.
    - intros x k IH. exact (fit_decl x k IH).
    - intros u w x k IH. exact (fit_use u w x k IH).
    - intros b IHb k IH. exact (fit_block b k IHb IH).
    - intros u x b IHb k IH. exact (fit_if u x b k IHb IH).
    - intros u x b1 IHb1 b2 IHb2 k IH. exact (fit_ifelse u x b1 b2 k IHb1 IHb2 IH).
    - intros u x cs [IHc _] k IH. exact (fit_switch u x cs k IHc IH).
    - intros u x b IHb k IH. exact (fit_while u x b k IHb IH).
    - intros k IH. exact (fit_break k IH).
    - intros k IH. exact (fit_step k IH).
    - intros l k IH. exact (fit_label l k IH).
    - intros l k IH. exact (fit_goto l k IH).
    - intros k IH. exact (fit_return k IH).
    - intros n b IHb k IH. exact (fit_repeat n b k IHb IH).
    - intros name r w b IHb k IH. exact (fit_sub name r w b k IHb IH).
    - intros ss [_ IHs] k IH. exact (fit_pipe ss k IHs IH).
    - split; [exact fit_cases_nil|exact fit_stages_nil].
    - intros c IHc r [IHr IHs]. split; [exact (fit_cases_cons c r IHc IHr)|exact (fit_stages_cons c r IHc IHs)].
  Qed.

  Lemma Z_st0 : Z st0.
  Proof.
    assert (one : forall b, b < s_n st0 -> b = 0) by (intros b H; change (s_n st0) with 1 in H; lia). constructor.
    - apply Nat.lt_0_1.
    - apply Nat.lt_0_1.
    - split; reflexivity.
    - intros b H1 H2. apply one in H2. lia.
    - intros b H1 H2. apply one in H2. lia.
    - intros b b' N H1 H2 _ _. apply one in H1, H2. congruence.
    - intros v [].
    - intros b v H1 H2. apply one in H1. subst b. contradiction.
  Qed.
  Lemma gl_st0 : gl st0 f0.
  Proof.
    constructor; try reflexivity. intros v. split; [intros []|]. intros (b & H1 & H2 & H3). change (s_n st0) with 1 in H1. assert (b = 0) by lia. subst b. contradiction.
  Qed.
  Lemma lo_st0 : lo st0 0 f0.
  Proof.
    constructor; [reflexivity| |].
    - intros x. split; intros [].
    - intros _ _ x. split; [intros []|]. intros (a & v & [<-|[]] & H & _). contradiction.
  Qed.

  Theorem algorithm_fit : forall p, clF p -> isS (gather_algorithm ports p) = fits_algorithm ports p.
  Proof.
    intros p C. pose proof (proj1 fit_exact p None 0 st0 f0 Z_st0 Nat.lt_0_1 gl_st0 lo_st0 C) as R. change (isS (subof st0 0)) with false in R. change (isS None) with false in R.
    unfold gather_algorithm, fits_algorithm. destruct (fit ports p false false f0) as [f|]; cbn [agree] in R; [|rewrite R; reflexivity].
    destruct R as (c & s & E & O). rewrite E. cbn [obind]. rewrite (landed_ok s f (o_gl _ _ _ _ _ _ O)).
    pose proof (forward_fit (s_fwd s) (s_lbl s) s) as FF. destruct (forallb (fun l => mem l (map fst (s_lbl s))) (s_fwd s)).
    - destruct FF as (s' & -> & _). reflexivity.
    - rewrite FF. reflexivity.
  Qed.
  Lemma vars_fit : forall xs s f, Z s -> gl s f -> lo s 0 f -> (forall x, In x xs -> ~ mg x /\ In x ds) ->
    match fit_vars ports xs f with
    | None => add_vars ports xs 0 s = None
    | Some f1 => exists s1, add_vars ports xs 0 s = Some s1 /\ Z s1 /\ gl s1 f1 /\ lo s1 0 f1 /\ subof s1 0 = subof s 0
    end.
  Proof.
    induction xs as [|x r IH]; intros s f W G L C; cbn [fit_vars add_vars].
    - exists s. repeat (split; [assumption || reflexivity|]). reflexivity.
    - destruct (C x (or_introl eq_refl)) as [C1 C2]. pose proof (decl_fit s 0 f x W (z_0 s W) G L C1 C2) as D. destruct (clash ports f x); [rewrite D; reflexivity|].
      destruct D as (s1 & E & Z1 & N1 & S1 & G1 & L1 & _). rewrite E. cbn [obind]. specialize (IH s1 (declare f x) Z1 G1 L1 ltac:(intros y Hy; apply C; right; exact Hy)).
      destruct (fit_vars ports r (declare f x)) as [f1|]; [|exact IH]. destruct IH as (s2 & E2 & Z2 & G2 & L2 & S2). exists s2. repeat (split; [assumption|]). unfold subof in *. congruence.
  Qed.
  Theorem unit_fit : forall xs p, (forall x, In x xs -> ~ mg x /\ In x ds) -> clF p -> isS (gather_unit ports xs p) = fits_unit ports xs p.
  Proof.
    intros xs p Cx C. unfold gather_unit, fits_unit. pose proof (vars_fit xs st0 f0 Z_st0 gl_st0 lo_st0 Cx) as V.
    destruct (fit_vars ports xs f0) as [f|]; [|rewrite V; reflexivity]. destruct V as (s & E & W & G & L & S0). rewrite E. cbn [obind].
    destruct (new s "" "" 0) as [nb s1] eqn:E1.
    destruct (Z_new s "" "" 0 nb s1 f W (z_0 s W) E1 ltac:(tauto) G (l_vis _ _ _ L)) as (A & B & Z1 & F1 & Sb & G1 & L1).
    pose proof (proj1 fit_exact p None nb s1 (enter f) Z1 ltac:(lia) (gl_enter _ _ G1) L1 C) as R. change (isS None) with false in R.
    assert (Sn : subof s1 nb = None) by (unfold subof in *; rewrite Sb, S0; reflexivity). rewrite Sn in R. change (isS None) with false in R.
    destruct (fit ports p false false (enter f)) as [f1|]; cbn [agree] in R; [|rewrite R; reflexivity].
    destruct R as (c & s2 & E2 & O). rewrite E2. cbn [obind]. rewrite (landed_ok s2 f1 (o_gl _ _ _ _ _ _ O)).
    destruct (new s2 "" "" 0) as [nb' s3] eqn:E3.
    assert (Oth : s_lbl s3 = s_lbl s2 /\ s_fwd s3 = s_fwd s2) by (unfold new, add, add_ctx in E3; injection E3 as <- <-; split; reflexivity). destruct Oth as [-> ->].
    pose proof (forward_fit (s_fwd s2) (s_lbl s2) s3) as FF. destruct (forallb (fun l => mem l (map fst (s_lbl s2))) (s_fwd s2)).
    - destruct FF as (s' & -> & _). reflexivity.
    - rewrite FF. reflexivity.
  Qed.
End Proof.
