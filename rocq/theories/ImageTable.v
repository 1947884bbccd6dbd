(** Files read as images, images as tables, tables as files. *)
From Coq Require Import String Ascii List Bool Arith NArith ZArith Lia.
From Verif Require Import LiteralModel ImageModel ImageProofs.
Import ListNotations.
Local Open Scope Z_scope.
Local Open Scope list_scope.

Lemma short_word : forall z, 0 <= z < 32768 -> short (z mod 256) (z / 256 mod 256) = z.
Proof.
  intros z H. unfold short. assert (D : z / 256 < 128) by (apply Z.div_lt_upper_bound; lia). assert (D0 : 0 <= z / 256) by (apply Z.div_pos; lia).
  rewrite (Z.mod_small (z / 256)) by lia. pose proof (Z.div_mod z 256 ltac:(lia)). replace (z mod 256 + 256 * (z / 256)) with z by lia.
  destruct (Z.ltb_spec z 32768); lia.
Qed.

Lemma header_read : forall h org id cmap data, sound h org id cmap -> read_header (tga h org id cmap data) = Some (h, id ++ cmap ++ data).
Proof.
  intros [a b c d e f w hh p q] org id cmap data (O & I & W & H & F & L & S & M). cbn [h_id h_cmtype h_type h_first h_cmlen h_cmsize h_w h_h h_depth h_desc] in *.
  do 4 (destruct org as [|? org]; [discriminate|]). destruct org; [|discriminate]. unfold tga, word16. cbn [app read_header h_id h_cmtype h_type h_first h_cmlen h_cmsize h_w h_h h_depth h_desc].
  rewrite !short_word by assumption. reflexivity.
Qed.

Lemma kind_depth : forall rle m h, kind rle m h -> depth_of h = Some (8 * Z.of_nat (chans m)) /\ select h = Some (rle, m).
Proof. intros rle m h [T D]. unfold depth_of, select. rewrite T, D. destruct m, rle; split; reflexivity. Qed.

Lemma sizes : forall h org id cmap m, sound h org id cmap ->
  uint (h_w h) = h_w h /\ uint (h_h h) = h_h h /\ uint (h_w h * h_h h) = h_w h * h_h h /\
  uint (h_w h * h_h h * (8 * Z.of_nat (chans m) / 8)) = h_w h * h_h h * Z.of_nat (chans m) /\
  uint (h_w h * h_h h * Z.of_nat (chans m)) = h_w h * h_h h * Z.of_nat (chans m) /\
  Z.to_nat (h_w h * h_h h * Z.of_nat (chans m)) = (Z.to_nat (h_w h * h_h h) * chans m)%nat.
Proof.
  intros h org id cmap m (_ & _ & W & H & _). assert (C : (1 <= chans m <= 4)%nat) by (destruct m; cbn; lia). unfold uint. change (2 ^ 32) with 4294967296.
  assert (P : 0 <= h_w h * h_h h <= 32767 * 32767) by nia. assert (Q : 0 <= h_w h * h_h h * Z.of_nat (chans m) <= 32767 * 32767 * 4) by nia.
  rewrite (Z.mul_comm 8), Z.div_mul by lia. rewrite !Z.mod_small by lia. do 5 (split; [reflexivity|]). rewrite Z2Nat.inj_mul by lia. rewrite Nat2Z.id. reflexivity.
Qed.

(** The image of a file, but for its pixels. *)
Definition image_of (h : header) (m : fmt) (cmap : list Z) (b : buffer) : image :=
  {| i_w := h_w h; i_h := h_h h; i_depth := 8 * Z.of_nat (chans m); i_pix := b;
     i_cmap := if h_cmtype h =? 0 then None else Some (map Some cmap);
     i_cmsize := if h_cmtype h =? 0 then 0 else h_cmlen h; i_cmchans := if h_cmtype h =? 0 then 0 else h_cmsize h / 8 |}.

Lemma fread_all : forall l r, fread (length l) (l ++ r) = (map Some l, r).
Proof.
  intros l r. unfold fread. f_equal.
  - rewrite map_app, <- app_assoc, firstn_app, map_length, Nat.sub_diag, firstn_O, app_nil_r. rewrite <- (map_length Some l), firstn_all. reflexivity.
  - rewrite skipn_app, skipn_all, Nat.sub_diag. reflexivity.
Qed.

Lemma read_tga_raw : forall rl h org id cmap data m, sound h org id cmap -> kind false m h ->
  read_tga rl (tga h org id cmap data) =
    let n := Z.to_nat (h_w h * h_h h) in
    match read_px rl m n 0 data (repeat None (n * chans m)) with Some (b, _) => Ok (image_of h m cmap b) | None => Undef end.
Proof.
  intros rl h org id cmap data m S K. unfold read_tga. rewrite (header_read h org id cmap data S). destruct (kind_depth false m h K) as [-> ->].
  destruct (sizes h org id cmap m S) as (-> & -> & -> & -> & _ & ->). destruct S as (_ & I & W & H & F & L & CS & M). rewrite I, Nat2Z.id.
  rewrite skipn_app, skipn_all, Nat.sub_diag. cbn [skipn app]. unfold image_of. cbv zeta. destruct (Z.eqb_spec (h_cmtype h) 0) as [E|E]; cbn [negb andb].
  - destruct cmap; [|discriminate M]. reflexivity.
  - assert (D : 0 <= h_cmsize h / 8) by (apply Z.div_pos; lia). assert (P : (h_cmlen h * (h_cmsize h / 8) <? 0) = false) by (apply Z.ltb_ge; nia). rewrite P, <- M, Nat2Z.id, fread_all.
    unfold uint at 1. rewrite (Z.mod_small (h_cmlen h)) by lia. reflexivity.
Qed.
Lemma read_tga_rle : forall rl h org id cmap data m, sound h org id cmap -> kind true m h ->
  read_tga rl (tga h org id cmap data) =
    let n := Z.to_nat (h_w h * h_h h) in
    match read_rle (S n) rl m (n * chans m) 0 data (repeat None (n * chans m)) with Done b => Ok (image_of h m cmap b) | _ => Undef end.
Proof.
  intros rl h org id cmap data m S K. unfold read_tga. rewrite (header_read h org id cmap data S). destruct (kind_depth true m h K) as [-> ->].
  destruct (sizes h org id cmap m S) as (-> & -> & -> & -> & -> & ->). destruct S as (_ & I & W & H & F & L & CS & M). rewrite I, Nat2Z.id.
  rewrite skipn_app, skipn_all, Nat.sub_diag. cbn [skipn app]. unfold image_of. cbv zeta. destruct (Z.eqb_spec (h_cmtype h) 0) as [E|E]; cbn [negb andb].
  - destruct cmap; [|discriminate M]. reflexivity.
  - assert (D : 0 <= h_cmsize h / 8) by (apply Z.div_pos; lia). assert (P : (h_cmlen h * (h_cmsize h / 8) <? 0) = false) by (apply Z.ltb_ge; nia). rewrite P, <- M, Nat2Z.id, fread_all.
    unfold uint at 1. rewrite (Z.mod_small (h_cmlen h)) by lia. reflexivity.
Qed.

Theorem raw_image : forall h org id cmap l rest m, sound h org id cmap -> kind false m h ->
  Forall (fun c => codes m (fst c) (snd c)) l -> Z.of_nat (length l) = h_w h * h_h h ->
  read_tga false (tga h org id cmap (concat (map fst l) ++ rest)) = Ok (image_of h m cmap (map Some (concat (map snd l)))).
Proof.
  intros h org id cmap l rest m S K C N. rewrite (read_tga_raw false h org id cmap _ m S K). cbv zeta. rewrite <- N, Nat2Z.id.
  pose proof (read_px_codes m l [] (repeat None (length l * chans m)) rest C) as E. rewrite repeat_length in E. specialize (E (le_n _)). cbn [app length] in E.
  rewrite E. rewrite <- (repeat_length (@None Z) (length l * chans m)) at 1. rewrite skipn_all, app_nil_r. reflexivity.
Qed.

Theorem rle_image : forall h org id cmap ps rest m, sound h org id cmap -> kind true m h ->
  Forall (packet_ok m) ps -> Z.of_nat (length (concat (map packet_pixels ps))) = h_w h * h_h h ->
  read_tga false (tga h org id cmap (concat (map packet_bytes ps) ++ rest)) = Ok (image_of h m cmap (map Some (concat (concat (map packet_pixels ps))))).
Proof.
  intros h org id cmap ps rest m S K C N. rewrite (read_tga_rle false h org id cmap _ m S K). cbv zeta. rewrite <- N, Nat2Z.id.
  destruct (all_pixels_length m ps C) as [_ LP]. set (n := length (concat (map packet_pixels ps))) in *.
  pose proof (read_rle_packets m ps (Datatypes.S n) [] (repeat None (n * chans m)) rest C ltac:(lia)) as E. rewrite repeat_length in E. specialize (E eq_refl). cbn [app length plus] in E.
  rewrite E. reflexivity.
Qed.

(** * Tables *)

Lemma take_all : forall l R, take (length l) (map Some l ++ R) = Some (l, R).
Proof. induction l; intros R; [reflexivity|]. cbn [length take map app]. rewrite IHl. reflexivity. Qed.
Lemma numbers_all : forall d nc pxs R, Forall (fun px : list Z => length px = nc) pxs ->
  numbers d nc (length pxs) (map Some (concat pxs) ++ R) = Some (map (fun px => fold_left (push d) px 0) pxs, R).
Proof.
  intros d nc pxs R H. induction H as [|px pxs E H IH]; [reflexivity|]. cbn [length numbers concat map]. rewrite map_app, <- app_assoc, <- E, take_all, E, IH. reflexivity.
Qed.
Lemma rows_all : forall d nc w img R, Forall (fun row : list (list Z) => length row = w /\ Forall (fun px => length px = nc) row) img ->
  rows d nc w (length img) (map Some (concat (concat img)) ++ R) = Some (map (map (fun px => fold_left (push d) px 0)) img).
Proof.
  intros d nc w img R H. induction H as [|row img [E F] H IH]; [reflexivity|]. cbn [length rows concat map]. rewrite concat_app, map_app, <- app_assoc, <- E, numbers_all by exact F.
  rewrite E, IH. reflexivity.
Qed.

Lemma component_div : forall d b, 0 <= d <= 8 -> byte b -> component d b = b / 2 ^ (8 - d) /\ 0 <= component d b < 2 ^ d.
Proof.
  intros d b H B. unfold component. rewrite Z.shiftl_1_l. rewrite Z.sub_1_r, <- Z.ones_equiv, Z.land_ones, Z.shiftr_div_pow2 by lia.
  assert (P : 0 < 2 ^ (8 - d)) by (apply Z.pow_pos_nonneg; lia). assert (Q : 0 < 2 ^ d) by (apply Z.pow_pos_nonneg; lia).
  assert (E : 2 ^ (8 - d) * 2 ^ d = 256) by (rewrite <- Z.pow_add_r by lia; replace (8 - d + d) with 8 by lia; reflexivity).
  unfold byte in B. assert (L : 0 <= b / 2 ^ (8 - d) < 2 ^ d) by (split; [apply Z.div_pos; lia|apply Z.div_lt_upper_bound; lia]).
  rewrite Z.mod_small by exact L. split; [reflexivity|exact L].
Qed.
Lemma shift_lor : forall v d c, 0 <= d -> 0 <= c < 2 ^ d -> Z.lor (Z.shiftl v d) c = v * 2 ^ d + c.
Proof.
  intros v d c D C. assert (N : Z.land (Z.shiftl v d) c = 0).
  { apply Z.bits_inj'. intros i Hi. rewrite Z.land_spec, Z.bits_0. destruct (Z.ltb_spec i d).
    - rewrite Z.shiftl_spec_low by lia. reflexivity.
    - rewrite <- (Z.mod_small c (2 ^ d)) by lia. rewrite Z.mod_pow2_bits_high by lia. apply andb_false_r. }
  rewrite <- Z.lxor_lor by exact N. rewrite <- Z.add_nocarry_lxor by exact N. rewrite Z.shiftl_mul_pow2 by lia. reflexivity.
Qed.
Lemma push_packed : forall d px v k, 0 <= d <= 8 -> Forall byte px -> 0 <= v < 2 ^ (d * Z.of_nat k) -> (k + length px <= 4)%nat ->
  fold_left (push d) px v = fold_left (fun v c => v * 2 ^ d + c / 2 ^ (8 - d)) px v /\ 0 <= fold_left (push d) px v < 2 ^ (d * Z.of_nat (k + length px)).
Proof.
  intros d px. induction px as [|c px IH]; intros v k D F V L; cbn [fold_left length].
  - rewrite Nat.add_0_r. split; [reflexivity|exact V].
  - inversion F as [|? ? B F']; subst. cbn [length] in L. destruct (component_div d c D B) as [C CB].
    assert (S : 2 ^ (d * Z.of_nat k) * 2 ^ d = 2 ^ (d * Z.of_nat (Datatypes.S k))) by (rewrite <- Z.pow_add_r by nia; f_equal; lia).
    assert (P : 0 < 2 ^ d) by (apply Z.pow_pos_nonneg; lia).
    assert (Q : 2 ^ (d * Z.of_nat (Datatypes.S k)) <= 2 ^ 32) by (apply Z.pow_le_mono_r; nia).
    assert (E : push d v c = v * 2 ^ d + c / 2 ^ (8 - d)).
    { unfold push, uint. rewrite Z.mod_small; [rewrite shift_lor by lia; rewrite C; reflexivity|]. rewrite Z.shiftl_mul_pow2 by lia. nia. }
    rewrite E. destruct (IH (v * 2 ^ d + c / 2 ^ (8 - d)) (Datatypes.S k) D F') as [I1 I2]; [rewrite <- C; nia|lia|].
    split; [exact I1|]. replace (k + Datatypes.S (length px))%nat with (Datatypes.S k + length px)%nat by lia. exact I2.
Qed.
Lemma packed_ok : forall d px, 0 <= d <= 8 -> Forall byte px -> (length px <= 4)%nat -> fold_left (push d) px 0 = packed d px /\ 0 <= packed d px < 2 ^ (d * Z.of_nat (length px)).
Proof.
  intros d px D F L. destruct (push_packed d px 0 0 D F) as [E R]; [cbn; rewrite Z.mul_0_r; cbn; lia|exact L|]. cbn [plus] in R. rewrite E in R. split; [exact E|exact R].
Qed.

(** The table of an image given by rows of pixels. *)
Definition grid (m : fmt) (h : header) (img : list (list (list Z))) : Prop :=
  Z.of_nat (length img) = h_h h /\ Forall (fun row => Z.of_nat (length row) = h_w h) img.

Lemma image_table : forall rl f d h m cmap img, 0 <= d <= 8 -> 0 <= h_w h < 32768 -> 0 <= h_h h < 32768 -> grid m h img ->
  Forall (Forall (fun px => length px = chans m /\ Forall byte px)) img ->
  read_tga rl f = Ok (image_of h m cmap (map Some (concat (concat img)))) ->
  get_image rl f d = Ok (map (map (packed d)) img) /\ write_image rl f d = Ok (written (map (packed d) (concat img))).
Proof.
  intros rl f d h m cmap img D W H [GH GW] GP E. unfold get_image, write_image, bad_depth.
  destruct (Z.ltb_spec d 0); [lia|]. destruct (Z.gtb_spec d 8); [lia|]. cbn [orb]. rewrite E. cbn [bind image_of i_depth i_w i_h i_pix].
  rewrite (Z.mul_comm 8), Z.div_mul, Nat2Z.id by lia.
  assert (I : forall z, 0 <= z < 32768 -> int z = z) by (intros z Hz; unfold int; destruct (Z.ltb_spec z (2 ^ 31)); lia).
  rewrite !I by assumption. rewrite <- GH, Nat2Z.id.
  assert (R : rows d (chans m) (Z.to_nat (h_w h)) (length img) (map Some (concat (concat img))) = Some (map (map (packed d)) img)).
  { rewrite <- (app_nil_r (map Some _)). rewrite rows_all.
    - f_equal. apply map_ext_in. intros row Ir. apply map_ext_in. intros px Ip. rewrite Forall_forall in GP. specialize (GP row Ir). rewrite Forall_forall in GP. destruct (GP px Ip) as [L B].
      apply packed_ok; [exact D|exact B|rewrite L; destruct m; cbn; lia].
    - rewrite Forall_forall in *. intros row Ir. split; [rewrite <- (GW row Ir), Nat2Z.id; reflexivity|].
      apply Forall_impl with (2 := GP row Ir). intros px [L _]. exact L. }
  rewrite R. cbn [of_opt bind]. rewrite concat_map. split; reflexivity.
Qed.

Lemma grid_size : forall m h img, grid m h img -> Z.of_nat (length (concat img)) = h_w h * h_h h.
Proof.
  intros m h img [GH GW]. rewrite <- GH. clear GH. induction GW as [|row img E GW IH]; cbn [concat length]; [lia|]. rewrite app_length, Nat2Z.inj_add, IH, E. lia.
Qed.

(** * Palettes *)

Lemma palette_table : forall rl f d h m cmap b colors, 0 <= d <= 8 -> h_cmtype h <> 0 -> chans m = 1%nat -> h_cmsize h / 8 = 3 -> 0 <= h_cmlen h < 32768 ->
  Z.of_nat (length colors) = h_cmlen h -> Forall (fun c => length c = 3%nat /\ Forall byte c) colors -> concat colors = cmap ->
  read_tga rl f = Ok (image_of h m cmap b) ->
  get_palette rl f d = Ok (map (packed d) (firstn 256 colors) ++ repeat 0 (256 - length colors)).
Proof.
  intros rl f d h m cmap b colors D T M S L N C CM E. unfold get_palette, bad_depth.
  destruct (Z.ltb_spec d 0); [lia|]. destruct (Z.gtb_spec d 8); [lia|]. cbn [orb]. rewrite E. cbn [bind image_of i_depth i_cmap i_cmchans i_cmsize].
  apply Z.eqb_neq in T. rewrite T, M, S. cbn [Z.of_nat Z.mul Pos.of_succ_nat Z.eqb Pos.eqb negb Pos.mul]. rewrite <- N, Nat2Z.id. rewrite <- CM.
  assert (EN : Nat.min 256 (length colors) = length (firstn 256 colors)) by (rewrite firstn_length; reflexivity). rewrite EN.
  rewrite <- (firstn_skipn 256 colors) at 2. rewrite concat_app, map_app, numbers_all.
  - cbn [of_opt bind fst]. rewrite <- EN. f_equal. f_equal; [|f_equal; lia]. apply map_ext_in. intros px Ip.
    assert (Iq : In px colors) by (rewrite <- (firstn_skipn 256 colors); apply in_or_app; left; exact Ip).
    rewrite Forall_forall in C. destruct (C px Iq) as [L3 B]. apply packed_ok; [exact D|exact B|lia].
  - apply Forall_forall. intros px Ip. assert (Iq : In px colors) by (rewrite <- (firstn_skipn 256 colors); apply in_or_app; left; exact Ip).
    rewrite Forall_forall in C. exact (proj1 (C px Iq)).
Qed.

(** * Saving *)

Lemma color_split : forall c, 0 <= c < 2 ^ 24 -> color_bytes c = [c / 65536; c / 256 mod 256; c mod 256].
Proof.
  intros c H. change (2 ^ 24) with 16777216 in H. unfold color_bytes, uint. rewrite (Z.mod_small c) by (change (2 ^ 32) with 4294967296; lia). unfold swap_color.
  change 255 with (Z.ones 8). rewrite !Z.land_ones, !Z.shiftr_div_pow2 by lia. change (2 ^ 16) with 65536. change (2 ^ 8) with 256.
  set (r := c / 65536). set (g := c / 256 mod 256). set (b := c mod 256).
  assert (R : 0 <= r < 256) by (split; [apply Z.div_pos; lia|apply Z.div_lt_upper_bound; lia]).
  assert (G : 0 <= g < 256) by (apply Z.mod_pos_bound; lia). assert (B : 0 <= b < 256) by (apply Z.mod_pos_bound; lia).
  rewrite Z.lor_comm, (Z.lor_comm r).
  rewrite (shift_lor g 8 r) by (change (2 ^ 8) with 256; lia). rewrite (shift_lor b 16) by (change (2 ^ 16) with 65536; change (2 ^ 8) with 256; lia).
  change (2 ^ 16) with 65536. change (2 ^ 8) with 256.
  assert (E1 : (b * 65536 + (g * 256 + r)) mod 256 = r) by (replace (b * 65536 + (g * 256 + r)) with (r + (b * 256 + g) * 256) by ring; rewrite Z.mod_add by lia; apply Z.mod_small; lia).
  assert (E2 : (b * 65536 + (g * 256 + r)) / 256 = b * 256 + g) by (replace (b * 65536 + (g * 256 + r)) with ((b * 256 + g) * 256 + r) by ring; rewrite Z.div_add_l by lia; rewrite (Z.div_small r) by lia; lia).
  assert (E3 : (b * 65536 + (g * 256 + r)) / 65536 = b) by (rewrite Z.div_add_l by lia; rewrite (Z.div_small (g * 256 + r)) by lia; lia).
  rewrite E1, E2, E3. rewrite (Z.mod_small b) by lia. replace ((b * 256 + g) mod 256) with g; [reflexivity|].
  rewrite Z.add_comm, Z.mod_add by lia. symmetry. apply Z.mod_small. lia.
Qed.
Lemma color_back : forall c, 0 <= c < 2 ^ 24 -> packed 8 (color_bytes c) = c /\ Forall byte (color_bytes c) /\ length (color_bytes c) = 3%nat.
Proof.
  intros c H. rewrite (color_split c H). change (2 ^ 24) with 16777216 in H. split; [|split; [|reflexivity]].
  - unfold packed. cbn [fold_left]. change (8 - 8) with 0. change (2 ^ 0) with 1. change (2 ^ 8) with 256. rewrite !Z.div_1_r.
    pose proof (Z.div_mod c 256 ltac:(lia)). pose proof (Z.div_mod (c / 256) 256 ltac:(lia)) as Q. rewrite Z.div_div in Q by lia. change (256 * 256) with 65536 in Q. lia.
  - repeat constructor; unfold byte; try (apply Z.div_pos; lia); try (apply Z.div_lt_upper_bound; lia); apply Z.mod_pos_bound; lia.
Qed.

Lemma width_same : forall t w, Forall (fun r : list Z => length r = w) t -> table_width w t = Some w.
Proof.
  intros t w H. induction H as [|r t E H IH]; [reflexivity|]. cbn [table_width]. rewrite E, Nat.eqb_refl, andb_false_r. exact IH.
Qed.
Lemma width_ok : forall t w, Forall (fun r : list Z => length r = w) t -> (t = [] -> w = 0%nat) -> table_width 0 t = Some w.
Proof. intros [|r t] w H N; [rewrite N; reflexivity|]. inversion H as [|? ? E H']; subst. cbn [table_width Nat.eqb negb andb]. exact (width_same t (length r) H'). Qed.

Lemma row_ok : forall w r, length r = w -> Forall byte r -> pixel_row w r = map Some r.
Proof.
  intros w r E B. unfold pixel_row. rewrite firstn_app, map_length, E, Nat.sub_diag, firstn_O, app_nil_r.
  rewrite <- E. rewrite <- (map_length (fun p => Some (uchar p)) r), firstn_all. apply map_ext_in. intros x I. rewrite Forall_forall in B. rewrite uchar_byte by (apply B; exact I). reflexivity.
Qed.
Lemma definite_all : forall l, definite (map Some l) = Some l. Proof. induction l; [reflexivity|]. cbn [map definite]. rewrite IHl. reflexivity. Qed.

Definition saved_header (w h : nat) : header :=
  {| h_id := 0; h_cmtype := 1; h_type := 1; h_first := 0; h_cmlen := 256; h_cmsize := 24; h_w := Z.of_nat w; h_h := Z.of_nat h; h_depth := 8; h_desc := 32 |}.

Lemma saved : forall t pal w, Forall (fun r => length r = w /\ Forall byte r) t -> (t = [] -> w = 0%nat) -> length pal = 256%nat ->
  save_with_palette t pal = Ok (tga (saved_header w (length t)) [0; 0; 0; 0] [] (concat (map color_bytes pal)) (concat t)).
Proof.
  intros t pal w H N P. unfold save_with_palette. rewrite (width_ok t w); [|apply Forall_impl with (2 := H); tauto|exact N]. rewrite P. cbn [Nat.eqb negb].
  assert (E : concat (map (pixel_row w) t) = map Some (concat t)).
  { clear N. induction H as [|r t [E B] H IH]; [reflexivity|]. cbn [map concat]. rewrite map_app, IH, (row_ok w r E B). reflexivity. }
  rewrite E, definite_all. reflexivity.
Qed.

Lemma saved_sound : forall w h pal, Z.of_nat w < 32768 -> Z.of_nat h < 32768 -> length pal = 256%nat -> Forall (fun c => 0 <= c < 2 ^ 24) pal ->
  sound (saved_header w h) [0; 0; 0; 0] [] (concat (map color_bytes pal)).
Proof.
  intros w h pal W H P C. unfold sound, saved_header. cbn [h_id h_cmtype h_w h_h h_first h_cmlen h_cmsize Z.eqb]. change (24 / 8) with 3.
  assert (L : length (concat (map color_bytes pal)) = (length pal * 3)%nat).
  { clear P. induction C as [|c pal B C IH]; [reflexivity|]. cbn [map concat length mult]. rewrite app_length, IH, (proj2 (proj2 (color_back c B))). reflexivity. }
  rewrite L, P. cbn [length]. split; [reflexivity|]. split; [reflexivity|]. do 5 (split; [lia|]). reflexivity.
Qed.

Theorem saved_back : forall t pal w f, Forall (fun r => length r = w /\ Forall byte r) t -> (t = [] -> w = 0%nat) -> Z.of_nat w < 32768 -> Z.of_nat (length t) < 32768 ->
  Forall (fun c => 0 <= c < 2 ^ 24) pal -> save_with_palette t pal = Ok f -> get_image false f 8 = Ok t /\ get_palette false f 8 = Ok pal.
Proof.
  intros t pal w f H N W LT C E.
  assert (P : length pal = 256%nat).
  { unfold save_with_palette in E. destruct (table_width 0 t); [|discriminate]. destruct (Nat.eqb_spec (length pal) 256); [assumption|discriminate]. }
  rewrite (saved t pal w H N P) in E. injection E as <-.
  pose proof (saved_sound w (length t) pal W LT P C) as S.
  set (h := saved_header w (length t)) in *.
  assert (K : kind false F8 h) by (split; reflexivity).
  set (img := map (map (fun p : Z => [p])) t).
  assert (FL : concat (concat img) = concat t).
  { unfold img. rewrite <- concat_map. generalize (concat t). intro l. induction l; [reflexivity|]. cbn [map concat app]. rewrite IHl. reflexivity. }
  assert (G : grid F8 h img).
  { unfold grid, img, h. rewrite map_length. split; [reflexivity|]. rewrite Forall_map. apply Forall_impl with (2 := H). intros r [R _]. rewrite map_length, R. reflexivity. }
  assert (GB : Forall (Forall (fun px => length px = chans F8 /\ Forall byte px)) img).
  { unfold img. rewrite Forall_map. apply Forall_impl with (2 := H). intros r [_ B]. rewrite Forall_map. apply Forall_impl with (2 := B). intros p Bp. split; [reflexivity|]. constructor; [exact Bp|constructor]. }
  assert (R : read_tga false (tga h [0; 0; 0; 0] [] (concat (map color_bytes pal)) (concat t)) = Ok (image_of h F8 (concat (map color_bytes pal)) (map Some (concat (concat img))))).
  { pose proof (raw_image h [0; 0; 0; 0] [] (concat (map color_bytes pal)) (map (fun p => (p, p)) (concat img)) [] F8 S K) as RI.
    rewrite !map_map, map_length in RI. cbn [fst snd] in RI. rewrite !map_id, app_nil_r in RI. rewrite <- FL at 1. apply RI.
    - rewrite Forall_map. apply Forall_forall. intros px I. cbn [fst snd]. unfold img in I. rewrite <- concat_map in I. apply in_map_iff in I. destruct I as (p & <- & I). constructor.
      apply in_concat in I. destruct I as (r & Ir & Ip). rewrite Forall_forall in H. destruct (H r Ir) as [_ B]. rewrite Forall_forall in B. exact (B p Ip).
    - exact (grid_size F8 h img G). }
  split.
  - destruct (image_table false _ 8 h F8 _ img ltac:(lia) ltac:(unfold h; cbn; lia) ltac:(unfold h; cbn; lia) G GB R) as [E _]. rewrite E. f_equal. unfold img. rewrite map_map.
    rewrite <- (map_id t) at 2. apply map_ext_in. intros r _. rewrite map_map. rewrite <- (map_id r) at 2. apply map_ext. intro p. unfold packed. cbn [fold_left]. change (2 ^ (8 - 8)) with 1. rewrite Z.div_1_r. lia.
  - rewrite (palette_table false _ 8 h F8 (concat (map color_bytes pal)) (map Some (concat (concat img))) (map color_bytes pal) ltac:(lia) ltac:(unfold h; cbn; lia) eq_refl eq_refl ltac:(unfold h; cbn; lia)); [| | |reflexivity|exact R].
    + rewrite map_length, P. cbn [repeat Nat.sub]. rewrite app_nil_r. f_equal.
      assert (F256 : firstn 256 (map color_bytes pal) = map color_bytes pal) by (rewrite <- P, <- (map_length color_bytes pal); apply firstn_all). rewrite F256, map_map.
      rewrite <- (map_id pal) at 2. apply map_ext_in. intros c I. rewrite Forall_forall in C. exact (proj1 (color_back c (C c I))).
    + rewrite map_length, P. reflexivity.
    + rewrite Forall_map. apply Forall_impl with (2 := C). intros c B. destruct (color_back c B) as (_ & F & L). split; assumption.
Qed.

(** * Any file: what is not compressed is always read inside the array *)

Theorem raw_safe : forall rl h org id cmap data m, sound h org id cmap -> kind false m h ->
  exists l, Z.of_nat (length l) = h_w h * h_h h * Z.of_nat (chans m) /\ read_tga rl (tga h org id cmap data) = Ok (image_of h m cmap (map Some l)).
Proof.
  intros rl h org id cmap data m S K. rewrite (read_tga_raw rl h org id cmap data m S K). cbv zeta. set (n := Z.to_nat (h_w h * h_h h)).
  destruct (read_px_any rl m n [] (repeat None (n * chans m)) data) as (l & f' & L & E); [rewrite repeat_length; lia|]. cbn [app length] in E. rewrite E.
  exists l. split.
  - rewrite L, Nat2Z.inj_mul. unfold n. destruct S as (_ & _ & W & H & _). rewrite Z2Nat.id by nia. reflexivity.
  - rewrite <- (repeat_length (@None Z) (n * chans m)) at 1. rewrite skipn_all, app_nil_r. reflexivity.
Qed.
