(** Proofs on the reading of images. *)
From Coq Require Import String Ascii List Bool Arith NArith ZArith Lia.
From Verif Require Import LiteralModel ImageModel.
Import ListNotations.
Local Open Scope Z_scope.
Local Open Scope list_scope.

(** * Specification: what the bytes of a file mean *)

Definition byte (z : Z) : Prop := 0 <= z < 256.

(** The bytes of a pixel in a file and its components: red, green, blue, alpha; or gray, alpha; or an index (Truevision TGA 2.0). *)
Inductive codes : fmt -> list Z -> list Z -> Prop :=
| codes_8 : forall i, byte i -> codes F8 [i] [i]
| codes_g8 : forall v, byte v -> codes G8 [v] [v]
| codes_g16 : forall v a, byte v -> byte a -> codes G16 [v; a] [v; a]
| codes_16 : forall lo hi a r g b, byte lo -> byte hi -> 0 <= r < 32 -> 0 <= g < 32 -> 0 <= b < 32 ->
    lo + 256 * hi = a * 32768 + r * 1024 + g * 32 + b -> codes F16 [lo; hi] [8 * r; 8 * g; 8 * b]
| codes_24 : forall r g b, byte r -> byte g -> byte b -> codes F24 [b; g; r] [r; g; b]
| codes_32 : forall r g b a, byte r -> byte g -> byte b -> byte a -> codes F32 [b; g; r; a] [r; g; b; a].

(** Packets of a compressed image: a pixel repeated, or pixels. *)
Inductive packet := Run (n : nat) (bs px : list Z) | Lit (l : list (list Z * list Z)).
Definition packet_ok (m : fmt) (p : packet) : Prop :=
  match p with
  | Run n bs px => (1 <= n <= 128)%nat /\ codes m bs px
  | Lit l => (1 <= length l <= 128)%nat /\ Forall (fun c => codes m (fst c) (snd c)) l
  end.
Definition packet_bytes (p : packet) : list Z :=
  match p with
  | Run n bs _ => (127 + Z.of_nat n) :: bs
  | Lit l => (Z.of_nat (length l) - 1) :: concat (map fst l)
  end.
Definition packet_pixels (p : packet) : list (list Z) :=
  match p with Run n _ px => repeat px n | Lit l => map snd l end.

(** The bytes of a file: header with the coordinates [org] of the origin, identification, color map, pixels. *)
Definition tga (h : header) (org id cmap data : list Z) : file :=
  [h_id h; h_cmtype h; h_type h] ++ word16 (h_first h) ++ word16 (h_cmlen h) ++ [h_cmsize h] ++ org ++ word16 (h_w h) ++ word16 (h_h h)
  ++ [h_depth h; h_desc h] ++ id ++ cmap ++ data.

(** Type and depth for a format. *)
Definition kind (rle : bool) (m : fmt) (h : header) : Prop :=
  (h_type h = (match m with F8 => 1 | G8 | G16 => 3 | _ => 2 end) + (if rle then 8 else 0)) /\
  h_depth h = match m with F8 | G8 => 8 | F16 | G16 => 16 | F24 => 24 | F32 => 32 end.

Definition sound (h : header) (org id cmap : list Z) : Prop :=
  length org = 4%nat /\ h_id h = Z.of_nat (length id) /\ 0 <= h_w h < 32768 /\ 0 <= h_h h < 32768 /\ 0 <= h_first h < 32768 /\
  0 <= h_cmlen h < 32768 /\ 0 <= h_cmsize h < 256 /\
  Z.of_nat (length cmap) = (if h_cmtype h =? 0 then 0 else h_cmlen h * (h_cmsize h / 8)).

(** The number of a pixel in a table: [d] bits for each component, the first one above. *)
Definition packed (d : Z) (px : list Z) : Z := fold_left (fun v c => v * 2 ^ d + c / 2 ^ (8 - d)) px 0.

(** * Arrays *)

Lemma skipn_add : forall A m n (l : list A), skipn n (skipn m l) = skipn (m + n) l.
Proof. intros A m n. induction m; intros l; [reflexivity|]. destruct l; cbn [skipn plus]; [apply skipn_nil|apply IHm]. Qed.

Lemma poke_app : forall A R o v, poke (A ++ R) (length A + o) v = option_map (app A) (poke R o v).
Proof.
  induction A; intros R o v; cbn [length plus app].
  - destruct (poke R o v); reflexivity.
  - cbn [poke]. rewrite IHA. destruct (poke R o v); reflexivity.
Qed.
Lemma pokes_app : forall l A R, pokes (A ++ R) (length A) l = option_map (app A) (pokes R 0 l).
Proof.
  induction l as [|[o v] l IH]; intros A R; cbn [pokes]; [reflexivity|]. rewrite poke_app. cbn [plus].
  destruct (poke R o v); cbn [option_map]; [apply IH|reflexivity].
Qed.

(** The components written by [load]. *)
Definition pix (rl : bool) (m : fmt) (f : file) : list Z :=
  match fst (load rl m f) with
  | [(2%nat, b); (_, g); (_, r)] => [r; g; b]
  | [(2%nat, b); (_, g); (_, r); (_, a)] => [r; g; b; a]
  | l => map snd l
  end.
Lemma load_pokes : forall rl m f l f' A R, load rl m f = (l, f') -> (chans m <= length R)%nat ->
  pokes (A ++ R) (length A) l = Some (A ++ map Some (pix rl m f) ++ skipn (chans m) R) /\ length (pix rl m f) = chans m.
Proof.
  intros rl m f l f' A R H L. unfold pix. rewrite H. rewrite pokes_app. cbn [fst].
  destruct m; cbn [load] in H; unfold color16, rgb16 in H;
  repeat (match type of H with context [getc ?f] => destruct (getc f) end); injection H as <- <-;
  cbn [chans] in *; do 4 (destruct R as [|? R]; cbn [length] in L; try lia; try (split; [reflexivity|reflexivity])).
Qed.
Lemma load_pix_len : forall rl m f, length (pix rl m f) = chans m.
Proof.
  intros rl m f. destruct (load rl m f) as [l f'] eqn:E. apply (load_pokes rl m f l f' [] (repeat None (chans m)) E). rewrite repeat_length. lia.
Qed.

Lemma load_run_pokes : forall rl m f l f' A R, load_run rl m f = Some (l, f') -> (chans m <= length R)%nat ->
  exists px, length px = chans m /\ pokes (A ++ R) (length A) l = Some (A ++ map Some px ++ skipn (chans m) R).
Proof.
  intros rl m f l f' A R H L.
  destruct m; cbn [load_run] in H;
  try (match type of H with Some ?x = _ => assert (H' : x = (l, f')) by congruence end; destruct (load_pokes _ _ _ _ _ A R H' L) as [P Q]; eexists; split; [exact Q|exact P]).
  - destruct f as [|x [|y [|z r]]]; try discriminate. injection H as <- <-. cbn [chans] in *. exists [z; y; x]. split; [reflexivity|].
    rewrite pokes_app. do 3 (destruct R as [|? R]; cbn [length] in L; try lia). reflexivity.
  - destruct f as [|x [|y [|z [|a r]]]]; try discriminate. injection H as <- <-. cbn [chans] in *. exists [z; y; x; a]. split; [reflexivity|].
    rewrite pokes_app. do 4 (destruct R as [|? R]; cbn [length] in L; try lia). reflexivity.
Qed.

(** * Pixels of a file *)

Lemma five_bits : forall c, 0 <= c < 65536 ->
  Z.shiftr (Z.land c 0x7C00) 10 = (c / 1024) mod 32 /\ Z.shiftr (Z.land c 0x03E0) 5 = (c / 32) mod 32 /\ Z.shiftr (Z.land c 0x001F) 0 = c mod 32.
Proof.
  intros c H. rewrite !Z.shiftr_land.
  change (Z.shiftr 0x7C00 10) with (Z.ones 5). change (Z.shiftr 0x03E0 5) with (Z.ones 5). change (Z.shiftr 0x001F 0) with (Z.ones 5).
  rewrite !Z.land_ones, !Z.shiftr_div_pow2 by lia. change (2 ^ 10) with 1024. change (2 ^ 5) with 32. change (2 ^ 0) with 1. rewrite Z.div_1_r. split; [|split]; reflexivity.
Qed.

Lemma uchar_byte : forall z, byte z -> uchar z = z. Proof. intros z H. apply Z.mod_small. exact H. Qed.

Lemma codes_load : forall m bs px, codes m bs px -> forall rest, pix false m (bs ++ rest) = px /\ snd (load false m (bs ++ rest)) = rest.
Proof.
  intros m bs px H rest. destruct H; unfold pix; cbn [app load getc fst snd map]; rewrite ?uchar_byte by assumption; try (split; reflexivity).
  unfold color16. cbn [app getc fst snd map rgb16]. split; [|reflexivity]. unfold byte in *.
  assert (E : (lo + hi * 256) mod 65536 = lo + 256 * hi) by (rewrite Z.mod_small; lia). rewrite E.
  destruct (five_bits (lo + 256 * hi)) as (-> & -> & ->); [lia|]. rewrite H4. rewrite !Z.shiftl_mul_pow2 by lia. change (2 ^ 3) with 8.
  assert (R1 : ((a * 32768 + r * 1024 + g * 32 + b) / 1024) mod 32 = r).
  { replace (a * 32768 + r * 1024 + g * 32 + b) with ((a * 32 + r) * 1024 + (g * 32 + b)) by ring. rewrite Z.div_add_l by lia.
    rewrite (Z.div_small (g * 32 + b)) by lia. rewrite Z.add_0_r, Z.add_comm, Z.mod_add by lia. apply Z.mod_small. lia. }
  assert (R2 : ((a * 32768 + r * 1024 + g * 32 + b) / 32) mod 32 = g).
  { replace (a * 32768 + r * 1024 + g * 32 + b) with ((a * 1024 + r * 32 + g) * 32 + b) by ring. rewrite Z.div_add_l by lia.
    rewrite (Z.div_small b) by lia. rewrite Z.add_0_r. replace (a * 1024 + r * 32 + g) with (g + (a * 32 + r) * 32) by ring. rewrite Z.mod_add by lia. apply Z.mod_small. lia. }
  assert (R3 : (a * 32768 + r * 1024 + g * 32 + b) mod 32 = b).
  { replace (a * 32768 + r * 1024 + g * 32 + b) with (b + (a * 1024 + r * 32 + g) * 32) by ring. rewrite Z.mod_add by lia. apply Z.mod_small. lia. }
  rewrite R1, R2, R3. rewrite !uchar_byte by (unfold byte; lia). rewrite (Z.mul_comm r), (Z.mul_comm g), (Z.mul_comm b). reflexivity.
Qed.
Lemma codes_length : forall m bs px, codes m bs px -> length px = chans m. Proof. intros m bs px H. destruct H; reflexivity. Qed.
Lemma codes_bytes : forall m bs px, codes m bs px -> Forall byte px.
Proof. intros m bs px H. destruct H; repeat constructor; unfold byte in *; try assumption; try lia. Qed.

Lemma codes_run : forall m bs px, codes m bs px -> forall rest A R, (chans m <= length R)%nat ->
  exists l, load_run false m (bs ++ rest) = Some (l, rest) /\ pokes (A ++ R) (length A) l = Some (A ++ map Some px ++ skipn (chans m) R).
Proof.
  intros m bs px H rest A R L. destruct (codes_load m bs px H rest) as [P Q].
  destruct (load false m (bs ++ rest)) as [l f'] eqn:E. cbn [snd] in Q. subst f'. destruct (load_pokes _ _ _ _ _ A R E L) as [K _]. rewrite P in K.
  destruct H; cbn [load_run]; try (exists l; split; [exact (f_equal Some E)|exact K]).
  - cbn [app chans] in *. eexists. split; [reflexivity|]. rewrite pokes_app. do 3 (destruct R as [|? R]; cbn [length] in L; try lia). reflexivity.
  - cbn [app chans] in *. eexists. split; [reflexivity|]. rewrite pokes_app. do 4 (destruct R as [|? R]; cbn [length] in L; try lia). reflexivity.
Qed.

Lemma read_px_codes : forall m l A R rest, Forall (fun c => codes m (fst c) (snd c)) l -> (length l * chans m <= length R)%nat ->
  read_px false m (length l) (length A) (concat (map fst l) ++ rest) (A ++ R)
    = Some (A ++ map Some (concat (map snd l)) ++ skipn (length l * chans m) R, rest).
Proof.
  intros m l. induction l as [|[bs px] l IH]; intros A R rest F L; cbn [length read_px map concat app mult skipn].
  - reflexivity.
  - inversion F as [|? ? C F']; subst. cbn [fst snd] in *. rewrite <- app_assoc.
    destruct (codes_load m bs px C (concat (map fst l) ++ rest)) as [P Q]. destruct (load false m _) as [ll f'] eqn:E. cbn [snd] in Q. subst f'.
    cbn [length mult] in L.
    destruct (load_pokes _ _ _ _ _ A R E ltac:(lia)) as [K _]. rewrite K, P.
    assert (EL : (length A + chans m = length (A ++ map Some px))%nat) by (rewrite app_length, map_length, (codes_length m bs px C); reflexivity).
    rewrite EL, app_assoc, IH; [|exact F'|rewrite skipn_length; lia].
    rewrite skipn_add, map_app, <- !app_assoc. reflexivity.
Qed.

Lemma put_run_ok : forall m n l px A R, (forall A R, (chans m <= length R)%nat -> pokes (A ++ R) (length A) l = Some (A ++ map Some px ++ skipn (chans m) R)) ->
  length px = chans m -> (n * chans m <= length R)%nat ->
  put_run m n (length A) l (A ++ R) = Some (A ++ map Some (concat (repeat px n)) ++ skipn (n * chans m) R).
Proof.
  intros m n l px. induction n as [|n IH]; intros A R P E L; cbn [put_run repeat concat map app mult skipn]; [reflexivity|].
  cbn [mult] in L. rewrite P by lia.
  assert (EL : (length A + chans m = length (A ++ map Some px))%nat) by (rewrite app_length, map_length, E; reflexivity).
  rewrite EL, app_assoc, IH; [|exact P|exact E|rewrite skipn_length; lia].
  rewrite skipn_add, map_app, <- !app_assoc. reflexivity.
Qed.

Lemma chans_pos : forall m, (1 <= chans m)%nat. Proof. destruct m; cbn; lia. Qed.

Lemma run_header : forall n, (1 <= n <= 128)%nat -> let c := 127 + Z.of_nat n in
  Z.land (uchar c) 0x80 <> 0 /\ Z.to_nat (1 + Z.land (uchar c) 0x7f) = n.
Proof.
  intros n H. cbv zeta. rewrite uchar_byte by (unfold byte; lia). remember (Z.of_nat n - 1) as k. assert (K : 0 <= k < 128) by lia.
  replace (127 + Z.of_nat n) with (k + 1 * 128) by lia.
  change 0x7f with (Z.ones 7). rewrite Z.land_ones by lia. change (2 ^ 7) with 128. rewrite Z.mod_add by lia. rewrite Z.mod_small by lia. split; [|lia].
  intro E. assert (B : Z.testbit (Z.land (k + 1 * 128) 0x80) 7 = false) by (rewrite E; reflexivity).
  rewrite Z.land_spec in B. change (Z.testbit 0x80 7) with true in B. rewrite andb_true_r in B. apply Z.testbit_false in B; [|lia].
  change (2 ^ 7) with 128 in B. rewrite Z.div_add in B by lia. rewrite Z.div_small in B by lia. discriminate B.
Qed.
Lemma lit_header : forall n, (1 <= n <= 128)%nat -> let c := Z.of_nat n - 1 in
  Z.land (uchar c) 0x80 = 0 /\ Z.to_nat (1 + Z.land (uchar c) 0x7f) = n.
Proof.
  intros n H. cbv zeta. rewrite uchar_byte by (unfold byte; lia). change 0x7f with (Z.ones 7). rewrite Z.land_ones by lia. change (2 ^ 7) with 128. rewrite Z.mod_small by lia. split; [|lia].
  apply Z.bits_inj'. intros i Hi. rewrite Z.land_spec, Z.bits_0. change 0x80 with (2 ^ 7). rewrite Z.pow2_bits_eqb by lia. destruct (Z.eqb_spec 7 i) as [<-|]; [|apply andb_false_r].
  rewrite andb_true_r. apply Z.testbit_false; [lia|]. change (2 ^ 7) with 128. rewrite Z.div_small by lia. reflexivity.
Qed.

Lemma concat_pixels_length : forall m (l : list (list Z)), Forall (fun px => length px = chans m) l -> length (concat l) = (length l * chans m)%nat.
Proof. induction 1; cbn [concat length mult]; [reflexivity|]. rewrite app_length, H, IHForall. reflexivity. Qed.
Lemma packet_pixels_length : forall m p, packet_ok m p -> Forall (fun px : list Z => length px = chans m) (packet_pixels p) /\ (1 <= length (packet_pixels p))%nat.
Proof.
  intros m [n bs px|l] [H K]; cbn [packet_pixels].
  - rewrite repeat_length. split; [|lia]. apply Forall_forall. intros x I. apply repeat_spec in I. subst x. exact (codes_length m bs px K).
  - rewrite map_length. split; [|lia]. rewrite Forall_map. apply Forall_impl with (2 := K). intros c C. exact (codes_length m _ _ C).
Qed.
Lemma all_pixels_length : forall m ps, Forall (packet_ok m) ps -> Forall (fun px : list Z => length px = chans m) (concat (map packet_pixels ps)) /\ (length ps <= length (concat (map packet_pixels ps)))%nat.
Proof.
  intros m ps H. induction H; cbn [map concat length]; [split; [constructor|lia]|]. destruct (packet_pixels_length m x H), IHForall.
  split; [apply Forall_app; split; assumption|]. rewrite app_length. lia.
Qed.

Lemma read_rle_packets : forall m ps fuel A R rest, Forall (packet_ok m) ps -> (length ps <= fuel)%nat ->
  length R = (length (concat (map packet_pixels ps)) * chans m)%nat ->
  read_rle fuel false m (length A + length R) (length A) (concat (map packet_bytes ps) ++ rest) (A ++ R)
    = Done (A ++ map Some (concat (concat (map packet_pixels ps)))).
Proof.
  intros m ps. induction ps as [|p ps IH]; intros fuel A R rest F LF LR.
  - cbn in LR. destruct R; [|discriminate]. cbn [map concat app length]. rewrite Nat.add_0_r. destruct fuel; cbn [read_rle]; rewrite Nat.ltb_irrefl; reflexivity.
  - inversion F as [|? ? P F']; subst. cbn [length] in LF. destruct fuel as [|fuel]; [lia|].
    destruct (packet_pixels_length m p P) as [PL PN]. destruct (all_pixels_length m ps F') as [AL _].
    cbn [map concat] in LR. rewrite app_length in LR. pose proof (chans_pos m) as CP.
    remember (length (packet_pixels p)) as k eqn:EK. remember (length (concat (map packet_pixels ps))) as k' eqn:EK'.
    assert (LT : (length A <? length A + length R)%nat = true) by (apply Nat.ltb_lt; nia).
    cbn [read_rle]. rewrite LT.
    assert (STEP : forall B, B = A ++ map Some (concat (packet_pixels p)) ++ skipn (k * chans m) R ->
      read_rle fuel false m (length A + length R) (length A + k * chans m) (concat (map packet_bytes ps) ++ rest) B
        = Done (A ++ map Some (concat (concat (map packet_pixels (p :: ps)))))).
    { intros B ->. pose proof (concat_pixels_length m _ PL) as CL. rewrite <- EK in CL.
      replace (length A + k * chans m)%nat with (length (A ++ map Some (concat (packet_pixels p)))) by (rewrite app_length, map_length, CL; reflexivity).
      replace (length A + length R)%nat with (length (A ++ map Some (concat (packet_pixels p))) + length (skipn (k * chans m) R))%nat
        by (rewrite app_length, map_length, CL, skipn_length; nia).
      rewrite app_assoc, IH; [|exact F'|lia|rewrite skipn_length; nia].
      cbn [map concat]. rewrite concat_app, map_app, <- !app_assoc. reflexivity. }
    destruct p as [n bs px|l]; cbn [packet_pixels packet_ok packet_bytes map concat app getc] in *; destruct P as [H K].
    + destruct (run_header n H) as [N S]. rewrite S. apply Z.eqb_neq in N. rewrite N. cbn [negb]. rewrite <- app_assoc. rewrite repeat_length in EK. subst k.
      destruct (codes_run m bs px K (concat (map packet_bytes ps) ++ rest) A R ltac:(nia)) as (l & E & _). rewrite E.
      rewrite (put_run_ok m n l px); [apply STEP; reflexivity| |exact (codes_length m bs px K)|nia].
      intros A' R' L'. destruct (codes_run m bs px K (concat (map packet_bytes ps) ++ rest) A' R' L') as (l' & E' & PK). rewrite E in E'. injection E' as <-. exact PK.
    + destruct (lit_header (length l) H) as [N S]. rewrite S, N. cbn [negb Z.eqb]. rewrite <- app_assoc. rewrite map_length in EK. subst k.
      rewrite read_px_codes; [apply STEP; reflexivity|exact K|nia].
Qed.

(** * Any file *)

Lemma read_px_any : forall rl m n A R f, (n * chans m <= length R)%nat ->
  exists l f', length l = (n * chans m)%nat /\ read_px rl m n (length A) f (A ++ R) = Some (A ++ map Some l ++ skipn (n * chans m) R, f').
Proof.
  intros rl m n. induction n as [|n IH]; intros A R f L; cbn [read_px mult skipn].
  - exists [], f. split; reflexivity.
  - destruct (load rl m f) as [l f'] eqn:E. cbn [mult] in L. destruct (load_pokes _ _ _ _ _ A R E ltac:(lia)) as [K KL]. rewrite K.
    destruct (IH (A ++ map Some (pix rl m f)) (skipn (chans m) R) f') as (l2 & f2 & L2 & E2); [rewrite skipn_length; lia|].
    rewrite app_length, map_length, KL, <- app_assoc in E2. exists (pix rl m f ++ l2), f2. split; [rewrite app_length; lia|].
    rewrite E2, skipn_add, map_app, <- !app_assoc. reflexivity.
Qed.

Lemma rle_fuel : forall rl m fuel lim ptr f b, (lim <= ptr + fuel * chans m)%nat -> read_rle fuel rl m lim ptr f b <> Fuel.
Proof.
  intros rl m. induction fuel as [|fuel IH]; intros lim ptr f b L; cbn [read_rle].
  - destruct (Nat.ltb_spec ptr lim); [lia|discriminate].
  - destruct (Nat.ltb_spec ptr lim); [|discriminate]. destruct (getc f) as [c f1]. cbn [mult] in L.
    assert (S : (1 <= Z.to_nat (1 + Z.land (uchar c) 0x7f))%nat).
    { assert (0 <= Z.land (uchar c) 0x7f) by (apply Z.land_nonneg; right; lia). lia. }
    pose proof (chans_pos m). assert (N : (chans m <= Z.to_nat (1 + Z.land (uchar c) 0x7f) * chans m)%nat) by nia.
    destruct (negb _).
    + destruct (load_run rl m f1) as [[l f2]|]; [|discriminate]. destruct (put_run _ _ _ _ _); [|discriminate]. apply IH. lia.
    + destruct (read_px _ _ _ _ _ _) as [[b' f2]|]; [|discriminate]. apply IH. lia.
Qed.
