(** Images read by the preprocessor: src/tga.cpp, and the Lua functions giving images and palettes as tables,
    src/LuaPreProcessor.cpp 419-759. Bytes are in [Z]. *)
From Coq Require Import String Ascii List Bool Arith NArith ZArith.
From Verif Require Import LiteralModel.
Import ListNotations.
Local Open Scope Z_scope.

(** * Reading bytes *)

(** What remains of a file. *)
Definition file := list Z.
(** [fgetc]: -1 at the end of the file. *)
Definition getc (f : file) : Z * file := match f with [] => (-1, []) | b :: r => (b, r) end.
(** Conversions to uchar and to uint (32 bits), and of a uint to int. *)
Definition uchar (z : Z) : Z := z mod 256.
Definition uint (z : Z) : Z := z mod 2 ^ 32.
Definition int (z : Z) : Z := if z <? 2 ^ 31 then z else z - 2 ^ 32.
(** A short, in the byte order of the file (and of the machine, trusted). *)
Definition short (lo hi : Z) : Z := let n := lo + 256 * hi in if n <? 32768 then n else n - 65536.

(** tga_header_t, src/tga.cpp 40-60 (x_origin and y_origin are not used). *)
Record header := { h_id : Z; h_cmtype : Z; h_type : Z; h_first : Z; h_cmlen : Z; h_cmsize : Z; h_w : Z; h_h : Z; h_depth : Z; h_desc : Z }.

(** The fread of the header, src/tga.cpp 428; [None]: the file is too short, the header is indeterminate. *)
Definition read_header (f : file) : option (header * file) :=
  match f with
  | a0 :: a1 :: a2 :: b0 :: b1 :: c0 :: c1 :: a3 :: _ :: _ :: _ :: _ :: d0 :: d1 :: e0 :: e1 :: a4 :: a5 :: r =>
      Some ({| h_id := a0; h_cmtype := a1; h_type := a2; h_first := short b0 b1; h_cmlen := short c0 c1; h_cmsize := a3;
               h_w := short d0 d1; h_h := short e0 e1; h_depth := a4; h_desc := a5 |}, r)
  | _ => None
  end.

(** [GetTextureInfo], src/tga.cpp 66-103. [None]: the field depth is not set. *)
Definition depth_of (h : header) : option Z :=
  if (h_type h =? 3) || (h_type h =? 11) then Some (if h_depth h =? 8 then 8 else 16)
  else if (h_type h =? 1) || (h_type h =? 2) || (h_type h =? 9) || (h_type h =? 10)
       then Some (if h_depth h =? 16 then 24 else h_depth h)
  else None.

(** * Pixels *)

(** An array allocated by new, indeterminate at first. [poke]: a write, [None] when it is out of the array. *)
Definition buffer := list (option Z).
Fixpoint poke (b : buffer) (i : nat) (v : Z) : option buffer :=
  match b, i with
  | [], _ => None
  | _ :: r, O => Some (Some v :: r)
  | x :: r, S i' => option_map (cons x) (poke r i' v)
  end.
(** Writes at offsets from [ptr], in order. *)
Fixpoint pokes (b : buffer) (ptr : nat) (l : list (nat * Z)) : option buffer :=
  match l with
  | [] => Some b
  | (o, v) :: r => match poke b (ptr + o) v with Some b' => pokes b' ptr r | None => None end
  end.

Inductive fmt := F8 | F16 | F24 | F32 | G8 | G16.
Definition chans (m : fmt) : nat := match m with F8 | G8 => 1 | G16 => 2 | F16 | F24 => 3 | F32 => 4 end.

(** [color = fgetc (fp) + (fgetc (fp) << 8)], src/tga.cpp 128, 243, 257. The order in which the two calls are made is left open by
    the language: [rl] when the second one is made first. *)
Definition color16 (rl : bool) (f : file) : Z * file :=
  let (c1, f1) := getc f in let (c2, f2) := getc f1 in
  ((if rl then c2 + c1 * 256 else c1 + c2 * 256) mod 65536, f2).
(** src/tga.cpp 131-133, 247-249, 259-261. *)
Definition rgb16 (c : Z) : list (nat * Z) :=
  [ (0%nat, uchar (Z.shiftl (Z.shiftr (Z.land c 0x7C00) 10) 3)); (1%nat, uchar (Z.shiftl (Z.shiftr (Z.land c 0x03E0) 5) 3));
    (2%nat, uchar (Z.shiftl (Z.shiftr (Z.land c 0x001F) 0) 3)) ].

(** One pixel read with fgetc: what is written and where, src/tga.cpp 114-115, 128-133, 145-147, 159-162, 174, 186-187, and the
    packets that are not runs, 220-221, 257-261, 298-300, 337-340, 373, 408-409. *)
Definition load (rl : bool) (m : fmt) (f : file) : list (nat * Z) * file :=
  match m with
  | F8 | G8 => let (c, r) := getc f in ([(0%nat, uchar c)], r)
  | G16 => let (c, r) := getc f in let (a, r') := getc r in ([(0%nat, uchar c); (1%nat, uchar a)], r')
  | F16 => let (c, r) := color16 rl f in (rgb16 c, r)
  | F24 => let (b, r1) := getc f in let (g, r2) := getc r1 in let (r, r3) := getc r2 in
           ([(2%nat, uchar b); (1%nat, uchar g); (0%nat, uchar r)], r3)
  | F32 => let (b, r1) := getc f in let (g, r2) := getc r1 in let (r, r3) := getc r2 in let (a, r4) := getc r3 in
           ([(2%nat, uchar b); (1%nat, uchar g); (0%nat, uchar r); (3%nat, uchar a)], r4)
  end.
(** The pixel of a run, src/tga.cpp 209, 243-249, 284-291, 323-331, 366, 392-398. [None]: fread gets fewer bytes than asked, what is
    copied is then indeterminate or left by a previous packet. *)
Definition load_run (rl : bool) (m : fmt) (f : file) : option (list (nat * Z) * file) :=
  match m with
  | F24 => match f with x :: y :: z :: r => Some ([(0%nat, z); (1%nat, y); (2%nat, x)], r) | _ => None end
  | F32 => match f with x :: y :: z :: a :: r => Some ([(0%nat, z); (1%nat, y); (2%nat, x); (3%nat, a)], r) | _ => None end
  | _ => Some (load rl m f)
  end.

Inductive result := Done (b : buffer) | Out | Stale | Fuel.

(** [n] pixels read in sequence: the bodies of ReadTGA8bits, ReadTGA16bits, ReadTGA24bits, ReadTGA32bits, ReadTGAgray8bits and
    ReadTGAgray16bits, src/tga.cpp 105-189, and the packets that are not runs. [None]: out of the array. *)
Fixpoint read_px (rl : bool) (m : fmt) (n ptr : nat) (f : file) (b : buffer) : option (buffer * file) :=
  match n with
  | O => Some (b, f)
  | S n' => let (l, f') := load rl m f in
            match pokes b ptr l with Some b' => read_px rl m n' (ptr + chans m) f' b' | None => None end
  end.
Fixpoint put_run (m : fmt) (n ptr : nat) (l : list (nat * Z)) (b : buffer) : option buffer :=
  match n with
  | O => Some b
  | S n' => match pokes b ptr l with Some b' => put_run m n' (ptr + chans m) l b' | None => None end
  end.

(** The bodies of the functions for compressed images, src/tga.cpp 191-414. [lim]: end of the pixels. *)
Fixpoint read_rle (fuel : nat) (rl : bool) (m : fmt) (lim ptr : nat) (f : file) (b : buffer) : result :=
  if (ptr <? lim)%nat then
    match fuel with
    | O => Fuel
    | S fuel' =>
        let (c, f1) := getc f in
        let hd := uchar c in
        let size := Z.to_nat (1 + Z.land hd 0x7f) in
        if negb (Z.land hd 0x80 =? 0) then
          match load_run rl m f1 with
          | Some (l, f2) => match put_run m size ptr l b with Some b' => read_rle fuel' rl m lim (ptr + size * chans m) f2 b' | None => Out end
          | None => Stale
          end
        else match read_px rl m size ptr f1 b with Some (b', f2) => read_rle fuel' rl m lim (ptr + size * chans m) f2 b' | None => Out end
    end
  else Done b.

(** t_image_nfo, src/tga.h. *)
Record image := { i_w : Z; i_h : Z; i_depth : Z; i_pix : buffer; i_cmap : option buffer; i_cmsize : Z; i_cmchans : Z }.

(** Outcomes: a value; NULL or an error reported to Lua; undefined behaviour. *)
Inductive outcome (A : Type) := Ok (a : A) | Err | Undef.
Arguments Ok {A}. Arguments Err {A}. Arguments Undef {A}.

(** The selection of a reader, src/tga.cpp 456-532. [Some (compressed, format)]; [None]: nothing is read (type 0, other depths). *)
Definition select (h : header) : option (bool * fmt) :=
  let by_depth := if h_depth h =? 16 then Some F16 else if h_depth h =? 24 then Some F24 else if h_depth h =? 32 then Some F32 else None in
  let gray := if h_depth h =? 8 then G8 else G16 in
  match h_type h with
  | 1 => Some (false, F8)
  | 2 => option_map (fun m => (false, m)) by_depth
  | 3 => Some (false, gray)
  | 9 => Some (true, F8)
  | 10 => option_map (fun m => (true, m)) by_depth
  | 11 => Some (true, gray)
  | _ => None
  end.

(** The array of [n] bytes got by fread of [n] bytes. *)
Definition fread (n : nat) (f : file) : buffer * file := (firstn n (map Some f ++ repeat None n), skipn n f).

(** [ReadTGAFile], src/tga.cpp 416-536. An unset depth is undefined behaviour for type 0; for unknown types NULL is returned. A negative
    length of the color map is undefined behaviour here (an exception is thrown by new). Products of sizes are those of uint. *)
Definition read_tga (rl : bool) (f : file) : outcome image :=
  match read_header f with
  | None => Undef
  | Some (h, f0) =>
      let w := uint (h_w h) in let hh := uint (h_h h) in
      match depth_of h with
      | None => if h_type h =? 0 then Undef else Err
      | Some d =>
          let f1 := skipn (Z.to_nat (h_id h)) f0 in
          let buf := repeat None (Z.to_nat (uint (w * hh * (d / 8)))) in
          let cml := h_cmlen h * (h_cmsize h / 8) in
          if negb (h_cmtype h =? 0) && (cml <? 0) then Undef else
          let '(cm, f2) := if h_cmtype h =? 0 then (None, f1) else let (c, f') := fread (Z.to_nat cml) f1 in (Some c, f') in
          let img (b : buffer) := Ok {| i_w := w; i_h := hh; i_depth := d; i_pix := b; i_cmap := cm;
                       i_cmsize := if h_cmtype h =? 0 then 0 else uint (h_cmlen h); i_cmchans := if h_cmtype h =? 0 then 0 else h_cmsize h / 8 |} in
          let n := Z.to_nat (uint (w * hh)) in
          match select h with
          | None => img buf
          | Some (false, m) => match read_px rl m n 0 f2 buf with Some (b, _) => img b | None => Undef end
          | Some (true, m) =>
              match read_rle (S n) rl m (Z.to_nat (uint (uint (w * hh) * Z.of_nat (chans m)))) 0 f2 buf with
              | Done b => img b
              | _ => Undef
              end
          end
      end
  end.

(** * Tables *)

(** [(*(uint8_t*)(ptr++) >> (8 - component_depth)) & ((1 << component_depth) - 1)], then the shift of a uint32_t,
    src/LuaPreProcessor.cpp 443, 495, 550, 596. *)
Definition component (d b : Z) : Z := Z.land (Z.shiftr b (8 - d)) (Z.shiftl 1 d - 1).
Definition push (d v b : Z) : Z := Z.lor (uint (Z.shiftl v d)) (component d b).

(** [n] bytes read from an array; [None]: out of the array, or indeterminate. *)
Fixpoint take (n : nat) (b : buffer) : option (list Z * buffer) :=
  match n with
  | O => Some ([], b)
  | S n' => match b with
            | Some x :: r => match take n' r with Some (l, r') => Some (x :: l, r') | None => None end
            | _ => None
            end
  end.
(** [n] numbers of [nc] components; rows of [w] numbers. The loops are ForIndex, an int below the bound converted to int. *)
Fixpoint numbers (d : Z) (nc n : nat) (b : buffer) : option (list Z * buffer) :=
  match n with
  | O => Some ([], b)
  | S n' => match take nc b with
            | Some (l, r) => match numbers d nc n' r with Some (vs, r') => Some (fold_left (push d) l 0 :: vs, r') | None => None end
            | None => None
            end
  end.
Fixpoint rows (d : Z) (nc w h : nat) (b : buffer) : option (list (list Z)) :=
  match h with
  | O => Some []
  | S h' => match numbers d nc w b with
            | Some (l, r) => match rows d nc w h' r with Some ls => Some (l :: ls) | None => None end
            | None => None
            end
  end.

Definition bind {A B} (x : outcome A) (k : A -> outcome B) : outcome B := match x with Ok a => k a | Err => Err | Undef => Undef end.
Definition of_opt {A} (x : option A) : outcome A := match x with Some a => Ok a | None => Undef end.
Definition bad_depth (d : Z) : bool := (d <? 0) || (d >? 8).

(** [lua_get_image_as_table], src/LuaPreProcessor.cpp 570-606: the rows of the table, in order. *)
Definition get_image (rl : bool) (f : file) (d : Z) : outcome (list (list Z)) :=
  if bad_depth d then Err else
  bind (read_tga rl f) (fun i => of_opt (rows d (Z.to_nat (i_depth i / 8)) (Z.to_nat (int (i_w i))) (Z.to_nat (int (i_h i))) (i_pix i))).
(** [lua_write_image_in_table], src/LuaPreProcessor.cpp 419-451: the text written. *)
Definition written (l : list Z) : string := String.concat "" (map (fun v => (to_string (Z.to_N v) ++ ",")%string) l).
Definition write_image (rl : bool) (f : file) (d : Z) : outcome string :=
  if bad_depth d then Err else
  bind (read_tga rl f) (fun i =>
    bind (of_opt (rows d (Z.to_nat (i_depth i / 8)) (Z.to_nat (int (i_w i))) (Z.to_nat (int (i_h i))) (i_pix i))) (fun r => Ok (written (concat r)))).

(** [lua_get_palette_as_table], src/LuaPreProcessor.cpp 514-560, and the text of [lua_write_palette_in_table], 460-503. *)
Definition get_palette (rl : bool) (f : file) (d : Z) : outcome (list Z) :=
  if bad_depth d then Err else
  bind (read_tga rl f) (fun i =>
    match i_cmap i with
    | None => Err
    | Some c =>
        if negb (i_depth i =? 8) then Err else
        if negb (i_cmchans i =? 3) then Err else
        let n := Nat.min 256 (Z.to_nat (i_cmsize i)) in
        bind (of_opt (numbers d 3 n c)) (fun p => Ok (fst p ++ repeat 0 (256 - n)))
    end).
Definition write_palette (rl : bool) (f : file) (d : Z) : outcome string := bind (get_palette rl f d) (fun l => Ok (written l)).

(** * Saving *)

(** The first loop of [lua_save_table_as_image_with_palette], src/LuaPreProcessor.cpp 664-675: the width, [None] on an error. *)
Fixpoint table_width (w : nat) (t : list (list Z)) : option nat :=
  match t with
  | [] => Some w
  | r :: t' => if negb (w =? 0)%nat && negb (w =? length r)%nat then None else table_width (length r) t'
  end.
Definition word16 (z : Z) : list Z := [z mod 256; z / 256 mod 256].
(** src/LuaPreProcessor.cpp 699; the conversion of the Lua number to uint is taken as a remainder. *)
Definition swap_color (c : Z) : Z := Z.lor (Z.lor (Z.shiftr c 16) (Z.shiftl (Z.land (Z.shiftr c 8) 255) 8)) (Z.shiftl (Z.land c 255) 16).
(** The three bytes written for a color: the first ones of a uint. *)
Definition color_bytes (c : Z) : list Z := let s := swap_color (uint c) in [s mod 256; s / 256 mod 256; s / 65536 mod 256].
(** The array of pixels: those of empty rows are indeterminate. [at(i,j)] is taken as raw()[i + j*w] (LibSL). *)
Definition pixel_row (w : nat) (r : list Z) : buffer := firstn w (map (fun p => Some (uchar p)) r ++ repeat None w).
Fixpoint definite (b : buffer) : option (list Z) :=
  match b with [] => Some [] | Some x :: r => option_map (cons x) (definite r) | None :: _ => None end.

(** [lua_save_table_as_image_with_palette], src/LuaPreProcessor.cpp 657-759: the bytes of the file. Tables are given by their values in
    order (Lua sequences), numbers being integers. *)
Definition save_with_palette (t : list (list Z)) (pal : list Z) : outcome file :=
  match table_width 0 t with
  | None => Err
  | Some w =>
      if negb (length pal =? 256)%nat then Err else
      match definite (concat (map (pixel_row w) t)) with
      | None => Undef
      | Some px =>
          Ok ([0; 1; 1] ++ word16 0 ++ word16 256 ++ [24] ++ word16 0 ++ word16 0 ++ word16 (Z.of_nat w) ++ word16 (Z.of_nat (length t)) ++ [8; 32]
              ++ concat (map color_bytes pal) ++ px)
      end
  end.
