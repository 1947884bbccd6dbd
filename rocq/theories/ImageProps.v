(** C58: images and palettes put in tables keep their pixels (src/tga.cpp, src/LuaPreProcessor.cpp 419-759). *)
From Coq Require Import String Ascii List Bool Arith NArith ZArith Lia.
From Verif Require Import LiteralModel LiteralProofs ImageModel ImageProofs ImageTable.
Import ListNotations.
Local Open Scope Z_scope.
Local Open Scope list_scope.

(** * The order in which the two bytes of a color are read matters for 16 bits only *)

Lemma load_order : forall rl m f, (m = F16 -> rl = false) -> load rl m f = load false m f /\ load_run rl m f = load_run false m f.
Proof. intros rl m f H. destruct m; try (split; reflexivity). rewrite (H eq_refl). split; reflexivity. Qed.
Lemma px_order : forall rl m, (m = F16 -> rl = false) -> forall n ptr f b, read_px rl m n ptr f b = read_px false m n ptr f b.
Proof.
  intros rl m H. induction n as [|n IH]; intros ptr f b; [reflexivity|]. cbn [read_px]. rewrite (proj1 (load_order rl m f H)).
  destruct (load false m f) as [l f']. destruct (pokes b ptr l); [apply IH|reflexivity].
Qed.
Lemma rle_order : forall rl m, (m = F16 -> rl = false) -> forall fuel lim ptr f b, read_rle fuel rl m lim ptr f b = read_rle fuel false m lim ptr f b.
Proof.
  intros rl m H. induction fuel as [|fuel IH]; intros lim ptr f b; [reflexivity|]. cbn [read_rle]. destruct (ptr <? lim)%nat; [|reflexivity].
  destruct (getc f) as [c f1]. destruct (negb (Z.land (uchar c) 128 =? 0)).
  - rewrite (proj2 (load_order rl m f1 H)). destruct (load_run false m f1) as [[l f2]|]; [|reflexivity]. destruct (put_run m _ ptr l b); [apply IH|reflexivity].
  - rewrite (px_order rl m H). destruct (read_px false m _ ptr f1 b) as [[b' f2]|]; [apply IH|reflexivity].
Qed.
Lemma tga_order : forall rl rle h org id cmap data m, sound h org id cmap -> kind rle m h -> (m = F16 -> rl = false) ->
  read_tga rl (tga h org id cmap data) = read_tga false (tga h org id cmap data).
Proof.
  intros rl [|] h org id cmap data m S K H.
  - rewrite !(read_tga_rle _ h org id cmap data m S K). cbv zeta. rewrite (rle_order rl m H). reflexivity.
  - rewrite !(read_tga_raw _ h org id cmap data m S K). cbv zeta. rewrite (px_order rl m H). reflexivity.
Qed.

Lemma codes_fine : forall m l, Forall (fun c => codes m (fst c) (snd c)) l -> Forall (fun px => length px = chans m /\ Forall byte px) (map snd l).
Proof. intros m l H. rewrite Forall_map. apply Forall_impl with (2 := H). intros c C. split; [exact (codes_length _ _ _ C)|exact (codes_bytes _ _ _ C)]. Qed.
Lemma fine_rows : forall (P : list Z -> Prop) img, Forall P (concat img) -> Forall (Forall P) img.
Proof. intros P img H. induction img as [|r img IH]; [constructor|]. cbn [concat] in H. apply Forall_app in H. destruct H. constructor; auto. Qed.
Lemma packets_fine : forall m ps, Forall (packet_ok m) ps -> Forall (fun px => length px = chans m /\ Forall byte px) (concat (map packet_pixels ps)).
Proof.
  intros m ps H. induction H as [|p ps O H IH]; [constructor|]. cbn [map concat]. apply Forall_app. split; [|exact IH].
  destruct p as [n bs px|l]; cbn [packet_pixels]; destruct O as [_ C]; [|exact (codes_fine m l C)].
  apply Forall_forall. intros x I. apply repeat_spec in I. subst x. split; [exact (codes_length _ _ _ C)|exact (codes_bytes _ _ _ C)].
Qed.

(** * Tables of images *)

(** An image that is not compressed: rows of pixels, each with its bytes in the file. The table has the rows, in the order of the file, and
    for each pixel the number packing its components. *)
Theorem C58_uncompressed : forall rl h org id cmap rest m d (cells : list (list (list Z * list Z))),
  sound h org id cmap -> kind false m h -> (m = F16 -> rl = false) -> 0 <= d <= 8 ->
  Z.of_nat (length cells) = h_h h -> Forall (fun row => Z.of_nat (length row) = h_w h) cells ->
  Forall (Forall (fun c => codes m (fst c) (snd c))) cells ->
  let f := tga h org id cmap (concat (map fst (concat cells)) ++ rest) in
  get_image rl f d = Ok (map (map (fun c => packed d (snd c))) cells) /\
  write_image rl f d = Ok (written (map (fun c => packed d (snd c)) (concat cells))).
Proof.
  intros rl h org id cmap rest m d cells S K O D GH GW C. cbv zeta.
  set (img := map (map snd) cells). assert (G : grid m h img).
  { unfold grid, img. rewrite map_length. split; [exact GH|]. rewrite Forall_map. apply Forall_impl with (2 := GW). intros r E. rewrite map_length. exact E. }
  assert (CF : Forall (fun c => codes m (fst c) (snd c)) (concat cells)).
  { clear - C. induction C; [constructor|]. cbn [concat]. apply Forall_app. split; assumption. }
  assert (CI : concat img = map snd (concat cells)) by (unfold img; rewrite <- concat_map; reflexivity).
  assert (R : read_tga rl (tga h org id cmap (concat (map fst (concat cells)) ++ rest)) = Ok (image_of h m cmap (map Some (concat (concat img))))).
  { rewrite (tga_order rl false h org id cmap _ m S K O), CI. apply raw_image; try assumption. rewrite <- (grid_size m h img G), CI, map_length. reflexivity. }
  destruct S as (_ & _ & W & H & _).
  assert (GP : Forall (Forall (fun px => length px = chans m /\ Forall byte px)) img).
  { unfold img. rewrite Forall_map. apply Forall_impl with (2 := C). intros r CR. exact (codes_fine m r CR). }
  destruct (image_table rl _ d h m cmap img D W H G GP R) as [A B].
  rewrite A, B, CI, map_map. unfold img. rewrite map_map. split; [|reflexivity]. f_equal. apply map_ext. intro r. apply map_map.
Qed.

(** A compressed image: packets giving exactly the pixels; the rows may be cut anywhere by the packets. *)
Theorem C58_compressed : forall rl h org id cmap rest m d ps (img : list (list (list Z))),
  sound h org id cmap -> kind true m h -> (m = F16 -> rl = false) -> 0 <= d <= 8 ->
  Z.of_nat (length img) = h_h h -> Forall (fun row => Z.of_nat (length row) = h_w h) img ->
  Forall (packet_ok m) ps -> concat (map packet_pixels ps) = concat img ->
  let f := tga h org id cmap (concat (map packet_bytes ps) ++ rest) in
  get_image rl f d = Ok (map (map (packed d)) img) /\
  write_image rl f d = Ok (written (map (packed d) (concat img))).
Proof.
  intros rl h org id cmap rest m d ps img S K O D GH GW C E. cbv zeta.
  assert (G : grid m h img) by (split; assumption).
  assert (R : read_tga rl (tga h org id cmap (concat (map packet_bytes ps) ++ rest)) = Ok (image_of h m cmap (map Some (concat (concat img))))).
  { rewrite (tga_order rl true h org id cmap _ m S K O), <- E. apply rle_image; try assumption. rewrite E. exact (grid_size m h img G). }
  destruct S as (_ & _ & W & H & _).
  apply (image_table rl _ d h m cmap img D W H G); [|exact R].
  apply fine_rows. rewrite <- E. exact (packets_fine m ps C).
Qed.

(** The numbers fit in as many bits as the components asked for. *)
Theorem C58_number_width : forall m bs px d, codes m bs px -> 0 <= d <= 8 -> 0 <= packed d px < 2 ^ (d * Z.of_nat (chans m)).
Proof.
  intros m bs px d C D. rewrite <- (codes_length m bs px C). apply packed_ok; [exact D|exact (codes_bytes m bs px C)|].
  rewrite (codes_length m bs px C). destruct m; cbn; lia.
Qed.
(** With 8 bits for each component, different pixels have different numbers. *)
Lemma packed8 : forall px v, Forall byte px -> fold_left (fun v c => v * 2 ^ 8 + c / 2 ^ (8 - 8)) px v = fold_left (fun v c => v * 256 + c) px v.
Proof. induction px as [|c px IH]; intros v H; [reflexivity|]. inversion H; subst. cbn [fold_left]. rewrite IH by assumption. change (2 ^ (8 - 8)) with 1. rewrite Z.div_1_r. reflexivity. Qed.
Lemma digits_inj : forall px py v w, length px = length py -> Forall byte px -> Forall byte py ->
  fold_left (fun v c => v * 256 + c) px v = fold_left (fun v c => v * 256 + c) py w -> px = py /\ v = w.
Proof.
  induction px as [|c px IH]; intros [|e py] v w L P Q E; try discriminate L; [split; [reflexivity|exact E]|].
  inversion P as [|? ? B P']; inversion Q as [|? ? B' Q']; subst. cbn [fold_left] in E. injection L as L.
  destruct (IH py _ _ L P' Q' E) as [-> F]. unfold byte in *. assert (c = e /\ v = w) as [-> ->] by lia. split; reflexivity.
Qed.
Theorem C58_exact : forall m bs px bs' px', codes m bs px -> codes m bs' px' -> packed 8 px = packed 8 px' -> px = px'.
Proof.
  intros m bs px bs' px' C C' E. pose proof (codes_bytes m bs px C) as B. pose proof (codes_bytes m bs' px' C') as B'.
  unfold packed in E. rewrite !packed8 in E by assumption. apply (digits_inj px px' 0 0) in E; try assumption; [tauto|].
  rewrite (codes_length m bs px C), (codes_length m bs' px' C'). reflexivity.
Qed.

(** * Text *)

(** The pieces of a text ended by commas. *)
Fixpoint pieces (cur s : string) : list string :=
  match s with
  | EmptyString => []
  | String c r => if Ascii.eqb c "," then cur :: pieces "" r else pieces (cur ++ String c "") r
  end.
Lemma append_assoc : forall a b c : string, ((a ++ b) ++ c = a ++ (b ++ c))%string.
Proof. induction a as [|x a IH]; intros b c; [reflexivity|]. cbn [append]. rewrite IH. reflexivity. Qed.
Lemma append_nil : forall a : string, (a ++ "" = a)%string. Proof. induction a as [|x a IH]; [reflexivity|]. cbn [append]. rewrite IH. reflexivity. Qed.
Lemma pieces_digits : forall a cur r, all_chars digitb a = true -> pieces cur (a ++ String "," r) = (cur ++ a)%string :: pieces "" r.
Proof.
  induction a as [|c a IH]; intros cur r H; cbn [append pieces].
  - rewrite append_nil. reflexivity.
  - cbn [all_chars] in H. apply andb_true_iff in H. destruct H as [H1 H2]. destruct (Ascii.eqb_spec c ",") as [->|N]; [discriminate H1|].
    rewrite IH by exact H2. rewrite append_assoc. reflexivity.
Qed.
Lemma concat_cons : forall x l, String.concat "" (x :: l) = (x ++ String.concat "" l)%string.
Proof. intros x [|y l]; cbn [String.concat]; [symmetry; apply append_nil|reflexivity]. Qed.
Theorem C58_text : forall l, map (dec_value 0) (pieces "" (written l)) = map Z.to_N l.
Proof.
  unfold written. induction l as [|v l IH]; [reflexivity|]. cbn [map]. rewrite concat_cons, append_assoc. cbn [append].
  rewrite pieces_digits by apply to_string_digits. cbn [map append]. rewrite to_string_value, IH. reflexivity.
Qed.

(** * Palettes *)

(** The 256 numbers of the palette: its first 256 entries in the order of the file, then zeros. The components are taken in the order of the
    file, that is blue first: see [C58_colors_refuted]. *)
Theorem C58_palette_partial : forall rl h org id colors data d,
  let cmap := concat colors in
  sound h org id cmap -> kind false F8 h -> 0 <= d <= 8 -> h_cmtype h <> 0 -> h_cmsize h = 24 ->
  Z.of_nat (length colors) = h_cmlen h -> Forall (fun c => length c = 3%nat /\ Forall byte c) colors ->
  let l := map (packed d) (firstn 256 colors) ++ repeat 0 (256 - length colors) in
  get_palette rl (tga h org id cmap data) d = Ok l /\ write_palette rl (tga h org id cmap data) d = Ok (written l) /\ length l = 256%nat.
Proof.
  intros rl h org id colors data d cmap S K D T CS L C l. destruct (raw_safe rl h org id cmap data F8 S K) as (b & _ & R).
  assert (E : get_palette rl (tga h org id cmap data) d = Ok l).
  { apply (palette_table rl _ d h F8 cmap (map Some b) colors); auto; [rewrite CS; reflexivity|destruct S as (_ & _ & _ & _ & _ & X & _); exact X]. }
  split; [exact E|split].
  - unfold write_palette. rewrite E. reflexivity.
  - unfold l. rewrite app_length, map_length, firstn_length, repeat_length. lia.
Qed.

(** * Saving *)

(** What is saved with a palette is read back: the same table, the same palette. *)
Theorem C58_saved_back : forall rl t pal w f, Forall (fun r => length r = w /\ Forall byte r) t -> (t = [] -> w = 0%nat) ->
  Z.of_nat w < 32768 -> Z.of_nat (length t) < 32768 -> Forall (fun c => 0 <= c < 2 ^ 24) pal ->
  save_with_palette t pal = Ok f -> get_image rl f 8 = Ok t /\ get_palette rl f 8 = Ok pal.
Proof.
  intros rl t pal w f H N W LT C E. destruct (saved_back t pal w f H N W LT C E) as [A B].
  assert (P : length pal = 256%nat).
  { unfold save_with_palette in E. destruct (table_width 0 t); [|discriminate]. destruct (Nat.eqb_spec (length pal) 256); [assumption|discriminate]. }
  rewrite (saved t pal w H N P) in E. injection E as <-.
  assert (Q : forall data, read_tga rl (tga (saved_header w (length t)) [0; 0; 0; 0] [] (concat (map color_bytes pal)) data)
    = read_tga false (tga (saved_header w (length t)) [0; 0; 0; 0] [] (concat (map color_bytes pal)) data)).
  { intro data. apply (tga_order rl false) with (m := F8); [exact (saved_sound w (length t) pal W LT P C)|split; reflexivity|discriminate]. }
  unfold get_image, get_palette in *. rewrite Q. split; assumption.
Qed.
(** It is saved whenever the rows have the same length and the palette 256 colors. *)
Theorem C58_saved : forall t pal w, Forall (fun r => length r = w /\ Forall byte r) t -> (t = [] -> w = 0%nat) -> length pal = 256%nat ->
  exists f, save_with_palette t pal = Ok f.
Proof. intros t pal w H N P. eexists. exact (saved t pal w H N P). Qed.

(** * Any content *)

(** An image that is not compressed never makes the reader write outside of its array nor leaves a pixel unset, even if the file is cut short:
    a table of the size announced is always given. *)
Lemma all_rows : forall d nc w h l, (length l = w * h * nc)%nat -> exists t, rows d nc w h (map Some l) = Some t /\ length t = h /\ Forall (fun r : list Z => length r = w) t.
Proof.
  intros d nc w h. induction h as [|h IH]; intros l L; cbn [rows].
  - exists []. split; [reflexivity|split; [reflexivity|constructor]].
  - assert (N : forall n l', (n * nc <= length l')%nat -> exists vs, numbers d nc n (map Some l') = Some (vs, map Some (skipn (n * nc) l')) /\ length vs = n).
    { clear. induction n as [|n IH]; intros l' L; cbn [numbers mult skipn]; [exists []; split; reflexivity|].
      cbn [mult] in L.
      assert (F : length (firstn nc l') = nc) by (rewrite firstn_length; lia). pose proof (take_all (firstn nc l') (map Some (skipn nc l'))) as T. rewrite F, <- map_app, firstn_skipn in T. rewrite T.
      destruct (IH (skipn nc l')) as (vs & E & V); [rewrite skipn_length; lia|]. rewrite E. eexists. split; [rewrite skipn_add; reflexivity|]. cbn [length]. rewrite V. reflexivity. }
    destruct (N w l) as (vs & E & V); [nia|]. rewrite E. destruct (IH (skipn (w * nc) l)) as (t & ET & LT & FT); [rewrite skipn_length; nia|]. rewrite ET.
    eexists. split; [reflexivity|]. split; [cbn [length]; rewrite LT; reflexivity|constructor; assumption].
Qed.
Theorem C58_uncompressed_safe : forall rl h org id cmap data m d, sound h org id cmap -> kind false m h -> 0 <= d <= 8 ->
  exists t, get_image rl (tga h org id cmap data) d = Ok t /\ Z.of_nat (length t) = h_h h /\ Forall (fun r => Z.of_nat (length r) = h_w h) t.
Proof.
  intros rl h org id cmap data m d S K D. destruct (raw_safe rl h org id cmap data m S K) as (l & L & R). destruct S as (_ & _ & W & H & _).
  unfold get_image, bad_depth. destruct (Z.ltb_spec d 0); [lia|]. destruct (Z.gtb_spec d 8); [lia|]. cbn [orb]. rewrite R. cbn [bind].
  unfold image_of. cbn [i_depth i_w i_h i_pix]. replace (8 * Z.of_nat (chans m) / 8) with (Z.of_nat (chans m)) by (rewrite Z.mul_comm, Z.div_mul; lia). rewrite Nat2Z.id.
  unfold int. destruct (Z.ltb_spec (h_w h) (2 ^ 31)); [|lia]. destruct (Z.ltb_spec (h_h h) (2 ^ 31)); [|lia].
  destruct (all_rows d (chans m) (Z.to_nat (h_w h)) (Z.to_nat (h_h h)) l) as (t & E & LT & FT).
  { apply Nat2Z.inj. rewrite L, !Nat2Z.inj_mul, !Z2Nat.id by lia. reflexivity. }
  exists t. rewrite E. split; [reflexivity|split]; [rewrite LT; lia|]. apply Forall_impl with (2 := FT). intros r Er. rewrite Er. lia.
Qed.
(** What is missing at the end of such a file counts as bytes 255 (but for 16 bits pixels, see below). *)
Lemma getc_pad : forall f k, exists k', uchar (fst (getc (f ++ repeat 255 k))) = uchar (fst (getc f)) /\ snd (getc (f ++ repeat 255 k)) = snd (getc f) ++ repeat 255 k'.
Proof.
  intros [|b f] k; [|exists k; split; reflexivity]. destruct k as [|k]; [exists 0%nat|exists k]; split; reflexivity.
Qed.
Lemma load_pad : forall rl m f k, m <> F16 -> exists k', fst (load rl m (f ++ repeat 255 k)) = fst (load rl m f) /\ snd (load rl m (f ++ repeat 255 k)) = snd (load rl m f) ++ repeat 255 k'.
Proof.
  assert (G : forall f k, exists c c' r k', getc f = (c, r) /\ getc (f ++ repeat 255 k) = (c', r ++ repeat 255 k') /\ uchar c' = uchar c).
  { intros f k. destruct (getc_pad f k) as (k' & A & B). destruct (getc f) as [c r]. destruct (getc (f ++ repeat 255 k)) as [c' r']. cbn [fst snd] in *. subst r'. exists c, c', r, k'. auto. }
  intros rl m f k N. destruct m; try congruence; cbn [load];
  destruct (G f k) as (c1 & d1 & r1 & k1 & A1 & B1 & E1); rewrite A1, B1;
  try (destruct (G r1 k1) as (c2 & d2 & r2 & k2 & A2 & B2 & E2); rewrite A2, B2);
  try (destruct (G r2 k2) as (c3 & d3 & r3 & k3 & A3 & B3 & E3); rewrite A3, B3);
  try (destruct (G r3 k3) as (c4 & d4 & r4 & k4 & A4 & B4 & E4); rewrite A4, B4); cbn [fst snd]; rewrite ?E1, ?E2, ?E3, ?E4; eexists; (split; reflexivity).
Qed.
Lemma px_pad : forall rl m, m <> F16 -> forall n ptr f b k, option_map fst (read_px rl m n ptr (f ++ repeat 255 k) b) = option_map fst (read_px rl m n ptr f b).
Proof.
  intros rl m N. induction n as [|n IH]; intros ptr f b k; [reflexivity|]. cbn [read_px]. destruct (load_pad rl m f k N) as (k' & A & B).
  destruct (load rl m (f ++ repeat 255 k)) as [l' r']. destruct (load rl m f) as [l r]. cbn [fst snd] in *. subst l' r'. destruct (pokes b ptr l); [apply IH|reflexivity].
Qed.
Theorem C58_cut_short : forall rl h org id cmap data m k, sound h org id cmap -> kind false m h -> m <> F16 ->
  read_tga rl (tga h org id cmap (data ++ repeat 255 k)) = read_tga rl (tga h org id cmap data).
Proof.
  intros rl h org id cmap data m k S K N. rewrite !(read_tga_raw rl h org id cmap _ m S K). cbv zeta. set (n := Z.to_nat (h_w h * h_h h)).
  pose proof (px_pad rl m N n 0 data (repeat None (n * chans m)) k) as E.
  destruct (read_px rl m n 0 (data ++ repeat 255 k) _) as [[b f]|], (read_px rl m n 0 data _) as [[b' f']|]; cbn in E; try discriminate E; [|reflexivity].
  injection E as ->. reflexivity.
Qed.
(** The reading of a compressed image always ends, whatever the content. *)
Theorem C58_compressed_ends : forall rl m n f b, read_rle (S n) rl m (n * chans m) 0 f b <> Fuel.
Proof. intros rl m n f b. apply rle_fuel. pose proof (chans_pos m). nia. Qed.

Print Assumptions C58_uncompressed.
Print Assumptions C58_compressed.
Print Assumptions C58_number_width.
Print Assumptions C58_exact.
Print Assumptions C58_text.
Print Assumptions C58_palette_partial.
Print Assumptions C58_saved_back.
Print Assumptions C58_saved.
Print Assumptions C58_uncompressed_safe.
Print Assumptions C58_cut_short.
Print Assumptions C58_compressed_ends.

(** * Examples *)

Definition hd (t cmt first cml cms w h p q : Z) : header :=
  {| h_id := 2; h_cmtype := cmt; h_type := t; h_first := first; h_cmlen := cml; h_cmsize := cms; h_w := w; h_h := h; h_depth := p; h_desc := q |}.

Ltac cells := repeat (apply Forall_cons || apply Forall_nil); cbn [fst snd]; constructor; unfold byte; lia.
Ltac colors := repeat (apply Forall_cons || apply Forall_nil || (split; [reflexivity|])); unfold byte; lia.

Example C58_uncompressed_ex :
  let h := hd 2 0 0 0 0 2 2 24 32 in
  let cells := [[([3; 2; 1], [1; 2; 3]); ([255; 0; 16], [16; 0; 255])]; [([0; 0; 0], [0; 0; 0]); ([7; 8; 9], [9; 8; 7])]] in
  sound h [0; 0; 0; 0] [65; 66] [] /\ kind false F24 h /\ Forall (Forall (fun c => codes F24 (fst c) (snd c))) cells /\
  get_image true (tga h [0; 0; 0; 0] [65; 66] [] (concat (map fst (concat cells)) ++ [42])) 8 = Ok [[66051; 1048831]; [0; 591879]] /\
  write_image true (tga h [0; 0; 0; 0] [65; 66] [] (concat (map fst (concat cells)) ++ [42])) 8 = Ok "66051,1048831,0,591879,"%string.
Proof.
  cbv zeta. split; [unfold sound; cbn; lia|]. split; [split; reflexivity|]. split; [cells|].
  split; vm_compute; reflexivity.
Qed.

(** A run crossing the end of the first row. *)
Example C58_compressed_ex :
  let h := hd 9 0 0 0 0 3 2 8 32 in
  let ps := [Run 4 [7] [7]; Lit [([1], [1]); ([2], [2])]] in
  let img := [[[7]; [7]; [7]]; [[7]; [1]; [2]]] in
  sound h [0; 0; 0; 0] [65; 66] [] /\ kind true F8 h /\ Forall (packet_ok F8) ps /\ concat (map packet_pixels ps) = concat img /\
  get_image false (tga h [0; 0; 0; 0] [65; 66] [] (concat (map packet_bytes ps))) 8 = Ok [[7; 7; 7]; [7; 1; 2]].
Proof.
  cbv zeta. split; [unfold sound; cbn; lia|]. split; [split; reflexivity|]. split.
  { constructor; [split; [lia|apply codes_8; unfold byte; lia]|]. constructor; [|constructor]. split; [cbn; lia|]. cells. }
  split; vm_compute; reflexivity.
Qed.

Example C58_number_ex : codes F16 [224; 127] [248; 248; 0] /\ packed 5 [248; 248; 0] = 32736 /\ packed 8 [248; 248; 0] = 16316416.
Proof. split; [apply (codes_16 224 127 0 31 31 0); unfold byte; lia|split; reflexivity]. Qed.

Example C58_text_ex : pieces "" (written [12; 0; 305]) = ["12"; "0"; "305"]%string. Proof. reflexivity. Qed.

Example C58_palette_ex :
  let h := hd 1 1 0 2 24 1 1 8 32 in
  sound h [0; 0; 0; 0] [65; 66] (concat [[1; 2; 3]; [4; 5; 6]]) /\ kind false F8 h /\
  get_palette false (tga h [0; 0; 0; 0] [65; 66] (concat [[1; 2; 3]; [4; 5; 6]]) [1]) 8 = Ok (66051 :: 263430 :: repeat 0 254).
Proof. cbv zeta. split; [unfold sound; cbn; lia|]. split; [split; reflexivity|vm_compute; reflexivity]. Qed.

Example C58_saved_ex :
  let t := [[1; 2; 3]; [4; 5; 255]] in let pal := map (fun n => 65400 + Z.of_nat n) (seq 0 256) in
  Forall (fun r => length r = 3%nat /\ Forall byte r) t /\ Forall (fun c => 0 <= c < 2 ^ 24) pal /\
  match save_with_palette t pal with Ok f => get_image false f 8 = Ok t /\ get_palette false f 8 = Ok pal | _ => False end.
Proof.
  cbv zeta. split; [colors|]. split.
  - rewrite Forall_map. apply Forall_forall. intros x I. apply in_seq in I. change (2 ^ 24) with 16777216. lia.
  - vm_compute. split; reflexivity.
Qed.

Example C58_uncompressed_safe_ex :
  get_image false (tga (hd 1 0 0 0 0 2 2 8 32) [0; 0; 0; 0] [65; 66] [] [5]) 8 = Ok [[5; 255]; [255; 255]].
Proof. reflexivity. Qed.

Example C58_cut_short_ex : let h := hd 2 0 0 0 0 1 2 24 32 in kind false F24 h /\
  read_tga false (tga h [0; 0; 0; 0] [65; 66] [] ([1] ++ repeat 255 9)) = read_tga false (tga h [0; 0; 0; 0] [65; 66] [] [1]) /\
  get_image false (tga h [0; 0; 0; 0] [65; 66] [] [1]) 8 = Ok [[16776961]; [16777215]].
Proof. cbv zeta. split; [split; reflexivity|split; reflexivity]. Qed.
(** For 16 bits pixels the green component is not 255. *)
Example C58_cut_short_16 : let h := hd 2 0 0 0 0 1 1 16 32 in
  get_image false (tga h [0; 0; 0; 0] [65; 66] [] []) 8 = Ok [[packed 8 [248; 184; 248]]] /\ get_image false (tga h [0; 0; 0; 0] [65; 66] [] [255; 255]) 8 = Ok [[packed 8 [248; 248; 248]]].
Proof. split; reflexivity. Qed.

(** * Where the property fails *)

(** A packet longer than what remains of the image is written after the end of the array. *)
Theorem C58_overrun_refuted : exists h p, sound h [0; 0; 0; 0] [65; 66] [] /\ kind true F8 h /\ packet_ok F8 p /\
  read_rle 2 false F8 1 0 (packet_bytes p) (repeat None 1) = Out /\
  get_image false (tga h [0; 0; 0; 0] [65; 66] [] (packet_bytes p)) 8 = Undef.
Proof.
  exists (hd 9 0 0 0 0 1 1 8 32), (Run 2 [7] [7]). split; [unfold sound; cbn; lia|]. split; [split; reflexivity|].
  split; [split; [lia|apply codes_8; unfold byte; lia]|]. split; reflexivity.
Qed.
(** A compressed file that is cut short is read as if it had packets of 128 pixels of value 255: outside of the array here. *)
Theorem C58_cut_short_refuted : exists h, sound h [0; 0; 0; 0] [65; 66] [] /\ kind true F8 h /\
  get_image false (tga h [0; 0; 0; 0] [65; 66] [] []) 8 = Undef.
Proof. exists (hd 9 0 0 0 0 2 2 8 32). split; [unfold sound; cbn; lia|]. split; [split; reflexivity|reflexivity]. Qed.

(** Types and depths that are not handled are not refused: nothing is read, and the table is made of unset memory, or read outside of it. *)
Theorem C58_unhandled_refuted : exists f1 f2 f3,
  f1 = tga (hd 2 0 0 0 0 1 1 8 32) [0; 0; 0; 0] [65; 66] [] [7] /\ get_image false f1 8 = Undef /\
  f2 = tga (hd 1 0 0 0 0 1 1 24 32) [0; 0; 0; 0] [65; 66] [] [7; 8; 9] /\ get_image false f2 8 = Undef /\
  f3 = tga (hd 0 0 0 0 0 1 1 8 32) [0; 0; 0; 0] [65; 66] [] [7] /\ get_image false f3 8 = Undef.
Proof.
  do 3 eexists. split; [reflexivity|]. split; [reflexivity|]. split; [reflexivity|]. split; [reflexivity|]. split; [reflexivity|]. reflexivity.
Qed.

(** Images of 32768 pixels or more in a row: the rows of the table are empty. *)
Lemma wide_word : forall z, 32768 <= z < 65536 -> short (z mod 256) (z / 256 mod 256) = z - 65536.
Proof.
  intros z H. unfold short. assert (D : z / 256 < 256) by (apply Z.div_lt_upper_bound; lia). assert (D0 : 0 <= z / 256) by (apply Z.div_pos; lia).
  rewrite (Z.mod_small (z / 256)) by lia. pose proof (Z.div_mod z 256 ltac:(lia)). replace (z mod 256 + 256 * (z / 256)) with z by lia.
  destruct (Z.ltb_spec z 32768); lia.
Qed.
Theorem C58_wide_refuted : forall rl w h data d, 32768 <= w < 65536 -> 0 <= h < 32768 -> 0 <= d <= 8 ->
  get_image rl (tga (hd 1 0 0 0 0 w h 8 32) [0; 0; 0; 0] [65; 66] [] data) d = Ok (repeat [] (Z.to_nat h)).
Proof.
  intros rl w h data d W H D. unfold get_image, bad_depth. destruct (Z.ltb_spec d 0); [lia|]. destruct (Z.gtb_spec d 8); [lia|]. cbn [orb].
  unfold read_tga, tga, word16, hd. cbn [app read_header h_id h_cmtype h_type h_first h_cmlen h_cmsize h_w h_h h_depth h_desc].
  rewrite (short_word h) by exact H. rewrite (wide_word w) by exact W. cbn [h_id h_cmtype h_type h_first h_cmlen h_cmsize h_w h_h h_depth h_desc].
  change (depth_of _) with (Some 8). cbn iota beta. change (8 / 8) with 1. change (Z.to_nat 2) with 2%nat. cbn [skipn Z.eqb negb andb].
  change (select _) with (Some (false, F8)). cbv zeta. cbn iota beta. rewrite Z.mul_1_r.
  set (n := Z.to_nat (uint (uint (w - 65536) * uint h))).
  destruct (read_px_any rl F8 n [] (repeat None n) data) as (l & f' & L & E); [rewrite repeat_length; cbn [chans]; lia|]. cbn [app length] in E. rewrite E.
  cbn [bind i_depth i_w i_h i_pix]. change (8 / 8) with 1. change (Z.to_nat 1) with 1%nat.
  assert (U : uint (w - 65536) = w - 65536 + 2 ^ 32) by (unfold uint; symmetry; apply Z.mod_unique with (q := -1); change (2 ^ 32) with 4294967296; lia).
  assert (UH : uint h = h) by (apply Z.mod_small; change (2 ^ 32) with 4294967296; lia). rewrite U, UH.
  assert (I : int (w - 65536 + 2 ^ 32) = w - 65536) by (unfold int; change (2 ^ 31) with 2147483648; change (2 ^ 32) with 4294967296; destruct (Z.ltb_spec (w - 65536 + 4294967296) 2147483648); lia).
  assert (IH : int h = h) by (unfold int; change (2 ^ 31) with 2147483648; destruct (Z.ltb_spec h 2147483648); lia). rewrite I, IH.
  replace (Z.to_nat (w - 65536)) with 0%nat by lia.
  assert (RR : forall k b, rows d 1 0 k b = Some (repeat [] k)) by (induction k; intro b; [reflexivity|]; cbn [rows numbers]; rewrite IHk; reflexivity). rewrite RR. reflexivity.
Qed.

(** The colors of a 16 bits image depend on the order in which the compiler of Silice evaluates the operands of an addition. *)
Theorem C58_order_refuted : exists h bs px, sound h [0; 0; 0; 0] [65; 66] [] /\ kind false F16 h /\ codes F16 bs px /\
  get_image false (tga h [0; 0; 0; 0] [65; 66] [] bs) 8 = Ok [[packed 8 px]] /\ get_image true (tga h [0; 0; 0; 0] [65; 66] [] bs) 8 <> Ok [[packed 8 px]].
Proof.
  exists (hd 2 0 0 0 0 1 1 16 32), [31; 0], [0; 0; 248]. split; [unfold sound; cbn; lia|]. split; [split; reflexivity|].
  split; [apply (codes_16 31 0 0 0 0 31); unfold byte; lia|]. split; [reflexivity|]. vm_compute. discriminate.
Qed.

(** The descriptor tells whether the first row of the file is at the top (bit 5) or at the bottom of the image. It is ignored. *)
Definition from_top (h : header) (img : list (list (list Z))) : list (list (list Z)) := if Z.testbit (h_desc h) 5 then img else rev img.
Theorem C58_orientation_refuted : exists h cells, sound h [0; 0; 0; 0] [65; 66] [] /\ kind false F8 h /\ Forall (Forall (fun c => codes F8 (fst c) (snd c))) cells /\
  Z.of_nat (length cells) = h_h h /\ Forall (fun row => Z.of_nat (length row) = h_w h) cells /\
  get_image false (tga h [0; 0; 0; 0] [65; 66] [] (concat (map fst (concat cells)))) 8 <> Ok (map (map (packed 8)) (from_top h (map (map snd) cells))).
Proof.
  exists (hd 1 0 0 0 0 1 2 8 0), [[([1], [1])]; [([2], [2])]]. split; [unfold sound; cbn; lia|]. split; [split; reflexivity|].
  split; [cells|]. split; [reflexivity|]. split; [repeat constructor|]. vm_compute. discriminate.
Qed.

(** The color map may start at another entry than 0, the colors of the entries before being absent. This is ignored: the color of a pixel
    is not at its index in the table. *)
Definition color_of (h : header) (colors : list (list Z)) (i : Z) : option (list Z) := if i <? h_first h then None else nth_error colors (Z.to_nat (i - h_first h)).
Theorem C58_first_entry_refuted : exists h colors i c l, sound h [0; 0; 0; 0] [65; 66] (concat colors) /\ kind false F8 h /\
  Z.of_nat (length colors) = h_cmlen h /\ Forall (fun c => length c = 3%nat /\ Forall byte c) colors /\ color_of h colors i = Some c /\
  get_palette false (tga h [0; 0; 0; 0] [65; 66] (concat colors) [i]) 8 = Ok l /\ nth_error l (Z.to_nat i) <> Some (packed 8 c).
Proof.
  exists (hd 1 1 1 2 24 1 1 8 32), [[1; 2; 3]; [4; 5; 6]], 1, [1; 2; 3]. eexists. split; [unfold sound; cbn; lia|]. split; [split; reflexivity|]. split; [reflexivity|].
  split; [colors|]. split; [reflexivity|]. split; [vm_compute; reflexivity|]. vm_compute. discriminate.
Qed.

(** The colors of the entries of a color map are in the file as those of pixels, blue first. The pixel of an image has its red component
    above, the color of a palette has its blue component above: the same color has two numbers. *)
Theorem C58_colors_refuted : exists bs px, codes F24 bs px /\
  get_image false (tga (hd 2 0 0 0 0 1 1 24 32) [0; 0; 0; 0] [65; 66] [] bs) 8 = Ok [[packed 8 px]] /\
  exists l, get_palette false (tga (hd 1 1 0 1 24 1 1 8 32) [0; 0; 0; 0] [65; 66] bs [0]) 8 = Ok l /\ nth_error l 0 <> Some (packed 8 px).
Proof.
  exists [3; 2; 1], [1; 2; 3]. split; [apply codes_24; unfold byte; lia|]. split; [reflexivity|]. eexists. split; [vm_compute; reflexivity|]. vm_compute. discriminate.
Qed.

(** Saving a color with bits above the 24 first ones changes its green component. *)
Theorem C58_saved_color_refuted : exists pal f l, length pal = 256%nat /\ save_with_palette [[0]] pal = Ok f /\ get_palette false f 8 = Ok l /\
  map (fun c => c mod 2 ^ 24) pal <> l.
Proof.
  exists (2 ^ 24 :: repeat 0 255). eexists. eexists. split; [reflexivity|]. split; [vm_compute; reflexivity|]. split; [vm_compute; reflexivity|]. vm_compute. discriminate.
Qed.

(** Rows of different lengths are refused, except empty rows before the others: unset memory is saved. *)
Theorem C58_empty_rows_refuted : save_with_palette [[]; [5]] (repeat 0 256) = Undef /\ save_with_palette [[5]; []] (repeat 0 256) = Err.
Proof. split; reflexivity. Qed.

(** The component depth is said to be in ]0,8]; 0 is accepted, and gives a table of zeros. *)
Theorem C58_depth_zero_refuted : forall m bs px, codes m bs px -> packed 0 px = 0 /\
  get_image false (tga (hd 1 0 0 0 0 1 1 8 32) [0; 0; 0; 0] [65; 66] [] [255]) 0 = Ok [[0]].
Proof.
  intros m bs px C. split; [|reflexivity]. pose proof (C58_number_width m bs px 0 C ltac:(lia)) as H. rewrite Z.mul_0_l in H. change (2 ^ 0) with 1 in H. lia.
Qed.

Print Assumptions C58_overrun_refuted.
Print Assumptions C58_cut_short_refuted.
Print Assumptions C58_unhandled_refuted.
Print Assumptions C58_wide_refuted.
Print Assumptions C58_order_refuted.
Print Assumptions C58_orientation_refuted.
Print Assumptions C58_first_entry_refuted.
Print Assumptions C58_colors_refuted.
Print Assumptions C58_saved_color_refuted.
Print Assumptions C58_empty_rows_refuted.
Print Assumptions C58_depth_zero_refuted.
