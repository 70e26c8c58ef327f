(** Binary codec used on the JS/WASM boundary, TypeScript side.
    JS/ abbreviates crates/vertigo/src/driver_module/src_js/.
    A JavaScript string without lone surrogates is represented by its UTF-8 bytes; a plain object by the list of its
    own enumerable entries (the special enumeration order of integer-like keys is not represented: no statement
    depends on the order of entries). [number] values are 64-bit patterns, [bigint]s are integers. *)
From Coq Require Import List NArith ZArith Bool.
From Verif Require Import CodecModel.
Import ListNotations.
Open Scope N_scope.

(** JS/jsjson.ts:14-24 *)
Inductive jsjson : Type :=
| SBool (b : bool)
| SNull
| SNum (bits : N)
| SStr (s : bytes)
| SArr (l : list jsjson)
| SObj (m : list (bytes * jsjson)).

(** JS/jsvalue.ts:25-42 *)
Inductive jsv : Type :=
| SU32 (n : N) | SI32 (z : Z) | SU64 (n : N) | SI64 (z : Z) | SF64 (bits : N)
| SVBool (b : bool) | SVNull | SVUndef
| SVStr (s : bytes)
| SVArr (l : list jsv)
| SVBytes (b : bytes)
| SVObj (m : list (bytes * jsv))
| SVJson (j : jsjson).

(** ["__proto__"]: assigning this key on a plain object sets the prototype (or does nothing), it does not create an
    own property. *)
Definition proto_key : bytes := [95; 95; 112; 114; 111; 116; 111; 95; 95].

(** [out[key] = value] (JS/jsjson.ts:108, JS/jsvalue.ts:132) *)
Definition js_assign {A} (k : bytes) (v : A) (m : list (bytes * A)) : list (bytes * A) :=
  if bytes_eqb k proto_key then m else assoc_insert k v m.

(** [new TextDecoder("utf-8").decode] (JS/buffer_cursor.ts:3, 128-130): a leading byte order mark is removed;
    ill-formed input is repaired with replacement characters ([lossy], an arbitrary function here). *)
Definition strip_bom (b : bytes) : bytes :=
  match b with
  | 239 :: 187 :: 191 :: r => r
  | _ => b
  end.
(** JS/buffer_cursor.ts:3, 128-130: [TextDecoder.decode] (Encoding standard; [lossy] is what it does with malformed bytes). *)
Definition text_decode (lossy : bytes -> bytes) (b : bytes) : bytes :=
  if utf8_valid (strip_bom b) then strip_bom b else lossy (strip_bom b).

(** ** Decoding. [RErr] is a thrown exception. [RPanic] marks a read that leaves the block: for fixed width fields
    the DataView throws (JS/buffer_cursor.ts:22-97), for buffers [subarray] silently returns foreign memory
    (JS/buffer_cursor.ts:99-110); both are outside of every positive statement. *)
Section Decode.
Variable lossy : bytes -> bytes.

(** BufferCursor.getString (JS/buffer_cursor.ts:99-110, 128-130) *)
Definition js_get_string (b : bytes) : res (bytes * bytes) :=
  do (n, r) <- get_uint 4 b; do (v, r2) <- get_vec n r; ROk (text_decode lossy v, r2).

(** JS/jsjson.ts:100-111, jsvalue.ts:124-133: the entries of an object are read and assigned one after the other. *)
Fixpoint js_read_map {A} (item : bytes -> res (A * bytes))
         (fuel : nat) (n : N) (acc : list (bytes * A)) (b : bytes) : res (list (bytes * A) * bytes) :=
  if n =? 0 then ROk (acc, b) else
  match fuel with
  | O => RFuel
  | S f => do (k, r1) <- js_get_string b; do (x, r2) <- item r1; js_read_map item f (n - 1) (js_assign k x acc) r2
  end.

(** jsJsonDecodeItem (JS/jsjson.ts:65-112): every tag above 6 (and 0) is taken for an object *)
Fixpoint jsjson_decode (fuel : nat) (b : bytes) : res (jsjson * bytes) :=
  match fuel with
  | O => RFuel
  | S f =>
    do (tag, r) <- get_byte b;
    match tag with
    | 1 => ROk (SBool true, r)
    | 2 => ROk (SBool false, r)
    | 3 => ROk (SNull, r)
    | 4 => do (s, r2) <- js_get_string r; ROk (SStr s, r2)
    | 5 => do (v, r2) <- get_uint 8 r; ROk (SNum v, r2)
    | 6 => do (n, r2) <- get_uint 4 r; do (l, r3) <- read_list (jsjson_decode f) f n r2; ROk (SArr l, r3)
    | _ => do (n, r2) <- get_uint 2 r; do (m, r3) <- js_read_map (jsjson_decode f) f n [] r2;
           ROk (SObj m, r3)
    end
  end.

(** jsValueDecodeItem (JS/jsvalue.ts:50-152) *)
Fixpoint jsv_decode (fuel : nat) (b : bytes) : res (jsv * bytes) :=
  match fuel with
  | O => RFuel
  | S f =>
    do (tag, r) <- get_byte b;
    match tag with
    | 1 => do (v, r2) <- get_uint 4 r; ROk (SU32 v, r2)
    | 2 => do (v, r2) <- get_uint 4 r; ROk (SI32 (to_signed two32 v), r2)
    | 3 => do (v, r2) <- get_uint 8 r; ROk (SU64 v, r2)
    | 4 => do (v, r2) <- get_uint 8 r; ROk (SI64 (to_signed two64 v), r2)
    | 5 => do (v, r2) <- get_uint 8 r; ROk (SF64 v, r2)
    | 6 => ROk (SVBool true, r)
    | 7 => ROk (SVBool false, r)
    | 8 => ROk (SVNull, r)
    | 9 => ROk (SVUndef, r)
    | 10 => do (n, r2) <- get_uint 4 r; do (v, r3) <- get_vec n r2; ROk (SVBytes v, r3)
    | 11 => do (s, r2) <- js_get_string r; ROk (SVStr s, r2)
    | 12 => do (n, r2) <- get_uint 4 r; do (l, r3) <- read_list (jsv_decode f) f n r2; ROk (SVArr l, r3)
    | 13 => do (n, r2) <- get_uint 2 r; do (m, r3) <- js_read_map (jsv_decode f) f n [] r2; ROk (SVObj m, r3)
    | 14 => do (j, r2) <- jsjson_decode f r; ROk (SVJson j, r2)
    | _ => RErr
    end
  end.

(** jsValueDecode (JS/jsvalue.ts:154-162): exceptions are swallowed, the empty array is returned instead *)
Definition js_value_decode (b : bytes) : res jsv :=
  match jsv_decode (S (length b)) b with
  | ROk (v, _) => ROk v
  | RErr => ROk (SVArr [])
  | RPanic => RPanic
  | RFuel => RFuel
  end.
End Decode.

(** ** Encoding. The cursor writes into a view of [w_size] bytes; [None] is a thrown RangeError. *)

(** DataView setters (JS/buffer_cursor.ts:28-97) *)
Definition js_put (data : bytes) (w : wblock) : option wblock :=
  if len (w_out w) + len data <=? w_size w
  then Some {| w_size := w_size w; w_out := w_out w ++ data |} else None.

(** setBuffer (JS/buffer_cursor.ts:112-126): the payload is copied through [subarray] without a bounds check *)
Definition js_put_buffer (data : bytes) (w : wblock) : option wblock :=
  match js_put (be 4 (as_u32 (len data))) w with
  | Some w1 => Some {| w_size := w_size w1; w_out := w_out w1 ++ data |}
  | None => None
  end.

(** jsJsonGetSize (JS/jsjson.ts:26-63) *)
Fixpoint jsjson_size (j : jsjson) : N :=
  match j with
  | SBool _ | SNull => 1
  | SStr s => 1 + 4 + len s
  | SArr l => fold_left (fun sum p => sum + p) (map jsjson_size l) (1 + 4)
  | SNum _ => 9
  | SObj m => fold_left (fun sum kv => sum + (4 + len (fst kv)) + snd kv)
                        (map (fun kv => (fst kv, jsjson_size (snd kv))) m) (1 + 2)
  end.

(** saveJsJsonToBufferItem (JS/jsjson.ts:114-167) *)
Fixpoint jsjson_save (j : jsjson) (w : wblock) : option wblock :=
  match j with
  | SBool true => js_put [1] w
  | SBool false => js_put [2] w
  | SNull => js_put [3] w
  | SStr s => obind (js_put [4] w) (js_put_buffer s)
  | SNum v => obind (js_put [5] w) (js_put (be 8 v))
  | SArr l =>
      obind (obind (js_put [6] w) (js_put (be 4 (as_u32 (len l))))) (fun w1 =>
      fold_left (fun acc (f : wblock -> option wblock) => obind acc f) (map jsjson_save l) (Some w1))
  | SObj m =>
      obind (obind (js_put [7] w) (js_put (be 2 (as_u16 (len m))))) (fun w1 =>
      fold_left (fun acc (kf : bytes * (wblock -> option wblock)) =>
                   obind (obind acc (js_put_buffer (fst kf))) (snd kf))
                (map (fun kv => (fst kv, jsjson_save (snd kv))) m) (Some w1))
  end.

(** getSize (JS/jsvalue.ts:164-216) *)
Fixpoint jsv_size (v : jsv) : N :=
  match v with
  | SVBool _ | SVNull | SVUndef => 1
  | SVStr s => 1 + 4 + len s
  | SVArr l => fold_left (fun sum p => sum + p) (map jsv_size l) (1 + 4)
  | SVBytes b => 1 + 4 + len b
  | SI32 _ | SU32 _ => 5
  | SI64 _ | SU64 _ | SF64 _ => 9
  | SVObj m => fold_left (fun sum kv => sum + (4 + len (fst kv)) + snd kv)
                        (map (fun kv => (fst kv, jsv_size (snd kv))) m) (1 + 2)
  | SVJson j => 1 + jsjson_size j
  end.

(** saveToBufferItem (JS/jsvalue.ts:218-316): keys of objects are written with setString, i.e. without a tag *)
Fixpoint jsv_save (v : jsv) (w : wblock) : option wblock :=
  match v with
  | SVBool true => js_put [6] w
  | SVBool false => js_put [7] w
  | SVNull => js_put [8] w
  | SVUndef => js_put [9] w
  | SVBytes b => obind (js_put [10] w) (js_put_buffer b)
  | SVStr s => obind (js_put [11] w) (js_put_buffer s)
  | SVArr l =>
      obind (obind (js_put [12] w) (js_put (be 4 (as_u32 (len l))))) (fun w1 =>
      fold_left (fun acc (f : wblock -> option wblock) => obind acc f) (map jsv_save l) (Some w1))
  | SU32 n => obind (js_put [1] w) (js_put (be 4 (as_u32 n)))
  | SI32 z => obind (js_put [2] w) (js_put (be 4 (of_signed two32 z)))
  | SU64 n => obind (js_put [3] w) (js_put (be 8 (n mod two64)))
  | SI64 z => obind (js_put [4] w) (js_put (be 8 (of_signed two64 z)))
  | SF64 b => obind (js_put [5] w) (js_put (be 8 b))
  | SVObj m =>
      obind (obind (js_put [13] w) (js_put (be 2 (as_u16 (len m))))) (fun w1 =>
      fold_left (fun acc (kf : bytes * (wblock -> option wblock)) =>
                   obind (obind acc (js_put_buffer (fst kf))) (snd kf))
                (map (fun kv => (fst kv, jsv_save (snd kv))) m) (Some w1))
  | SVJson j => obind (js_put [14] w) (jsjson_save j)
  end.

(** saveToBuffer (JS/jsvalue.ts:318-343). [Some None] is the pointer 0 returned for [undefined]; [None] is an
    exception (RangeError, or the final size check). Allocation itself always succeeds here. *)
Definition js_save_to_buffer (v : jsv) : option (option bytes) :=
  match v with
  | SVUndef => Some None
  | _ =>
    match jsv_save v {| w_size := jsv_size v; w_out := [] |} with
    | Some w => if w_size w =? len (w_out w) then Some (Some (w_out w)) else None
    | None => None
    end
  end.
