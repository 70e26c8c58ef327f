(** Binary codec used on the JS/WASM boundary, Rust side.
    V/ abbreviates crates/vertigo/src/.  Strings are their UTF-8 bytes, a byte is an [N] below 256,
    an [f64] is its 64-bit pattern. *)
From Coq Require Import List NArith ZArith Bool.
Import ListNotations.
Open Scope N_scope.

Notation bytes := (list N) (only parsing).

(** Outcome of a Rust function: value, [Err], a panic, or the model ran out of fuel (proved impossible).
    Error texts are dropped (only the fact that an [Err] is returned is modelled). *)
Inductive res (A : Type) : Type :=
| ROk (a : A)
| RErr
| RPanic
| RFuel.
Arguments ROk {A} a.
Arguments RErr {A}.
Arguments RPanic {A}.
Arguments RFuel {A}.

(** The operator [?] of V/driver_module/js_value/*.rs. *)
Definition rbind {A B} (m : res A) (f : A -> res B) : res B :=
  match m with ROk a => f a | RErr => RErr | RPanic => RPanic | RFuel => RFuel end.
Notation "'do' x <- m ; k" := (rbind m (fun x => k)) (at level 200, x pattern, m at level 100, k at level 200).

(** ** Fixed width integers *)

(** [to_be_bytes] (V/driver_module/js_value/memory_block_write.rs:28-56 in file numbering: write_u64 .. write_f64). *)
Fixpoint be (n : nat) (v : N) : bytes :=
  match n with
  | O => []
  | S n' => be n' (v / 256) ++ [v mod 256]
  end.

(** [from_be_bytes] (V/driver_module/js_value/memory_block_read.rs:37-117). *)
Definition unbe (b : bytes) : N := fold_left (fun acc x => acc * 256 + x) b 0.

(** The number of values of a u16 (Rust reference). *)
Definition two16 : N := 65536.
(** The number of values of a u32. *)
Definition two32 : N := 4294967296.
(** The number of values of a u64. *)
Definition two64 : N := 18446744073709551616.

(** [as u32], [as u16]: truncation. *)
Definition as_u32 (n : N) : N := n mod two32.
(** [as u16]: truncation (js_value_struct.rs, js_json_struct.rs). *)
Definition as_u16 (n : N) : N := n mod two16.
(** u32 addition of a release build (wraps). *)
Definition add32 (a b : N) : N := (a + b) mod two32.

(** two's complement of i32/i64 *)
Definition of_signed (w : N) (z : Z) : N := Z.to_N (z mod Z.of_N w).
(** The signed reading of an unsigned number of [w] values (from_be_bytes of i32/i64, memory_block_read.rs:59-69, 103-117). *)
Definition to_signed (w : N) (n : N) : Z :=
  if n <? w / 2 then Z.of_N n else (Z.of_N n - Z.of_N w)%Z.

(** [Vec::len], [str::len]. *)
Definition len {A} (l : list A) : N := N.of_nat (length l).

(** ** UTF-8 validity (String::from_utf8, Unicode table 3-7), used by
    V/driver_module/js_value/memory_block_read.rs:119-122 *)
Definition in_range (lo hi b : N) : bool := (lo <=? b) && (b <=? hi).
(** A continuation byte (Unicode table 3-7). *)
Definition cont (b : N) : bool := in_range 128 191 b.

(** Well-formed UTF-8 (Unicode table 3-7): [String::from_utf8] succeeds, memory_block_read.rs:119-122. *)
Fixpoint utf8_valid (b : bytes) : bool :=
  match b with
  | [] => true
  | b1 :: r1 =>
    if b1 <=? 127 then utf8_valid r1 else
    match r1 with
    | [] => false
    | b2 :: r2 =>
      if in_range 194 223 b1 then cont b2 && utf8_valid r2 else
      match r2 with
      | [] => false
      | b3 :: r3 =>
        if b1 =? 224 then in_range 160 191 b2 && cont b3 && utf8_valid r3 else
        if in_range 225 236 b1 || in_range 238 239 b1 then cont b2 && cont b3 && utf8_valid r3 else
        if b1 =? 237 then in_range 128 159 b2 && cont b3 && utf8_valid r3 else
        match r3 with
        | [] => false
        | b4 :: r4 =>
          if b1 =? 240 then in_range 144 191 b2 && cont b3 && cont b4 && utf8_valid r4 else
          if in_range 241 243 b1 then cont b2 && cont b3 && cont b4 && utf8_valid r4 else
          if b1 =? 244 then in_range 128 143 b2 && cont b3 && cont b4 && utf8_valid r4 else
          false
        end
      end
    end
  end.

(** ** Values *)

(** V/driver_module/js_value/js_json_struct.rs:60-68. A HashMap is the association list of its entries in its
    iteration order (keys pairwise distinct). *)
Inductive json : Type :=
| JTrue | JFalse | JNull
| JString (s : bytes)
| JNumber (bits : N)
| JList (l : list json)
| JObject (m : list (bytes * json)).

(** V/driver_module/js_value/js_value_struct.rs:66-84 *)
Inductive jsval : Type :=
| VU32 (n : N) | VI32 (z : Z) | VU64 (n : N) | VI64 (z : Z) | VF64 (bits : N)
| VTrue | VFalse | VNull | VUndefined
| VVec (b : bytes)
| VString (s : bytes)
| VList (l : list jsval)
| VObject (m : list (bytes * jsval))
| VJson (j : json).

(** ** Writer: V/driver_module/js_value/memory_block_write.rs:3-21 and memory_block.rs:35-73.
    A block has a size; [w_out] is what has been written so far, so the offset is its length.
    [None] is the panic "Buffer overflow". *)
Record wblock := { w_size : N; w_out : bytes }.

(** MemoryBlock::write (memory_block.rs:58-73) and MemoryBlockWrite::write (memory_block_write.rs:18-21);
    the test [offset + data_len <= size] is in wrapping u32 arithmetic. *)
Definition wr (data : bytes) (w : wblock) : option wblock :=
  let data_len := as_u32 (len data) in
  if add32 (as_u32 (len (w_out w))) data_len <=? w_size w
  then Some {| w_size := w_size w; w_out := w_out w ++ data |}
  else None.

(** Sequencing of writes: a panic (an assertion of memory_block.rs) ends all. *)
Definition obind {A B} (m : option A) (f : A -> option B) : option B :=
  match m with Some a => f a | None => None end.

(** memory_block_write.rs:23-26 *)
Definition wr_u8 (v : N) := wr [v].
(** memory_block_write.rs:48-51 *)
Definition wr_u16 (v : N) := wr (be 2 v).
(** memory_block_write.rs:38-41 *)
Definition wr_u32 (v : N) := wr (be 4 v).
(** memory_block_write.rs:28-31 *)
Definition wr_u64 (v : N) := wr (be 8 v).

(** write_string_to (js_json_struct.rs:249-253, js_value_struct.rs:271-275) *)
Definition wr_string (s : bytes) (w : wblock) : option wblock :=
  obind (wr_u32 (as_u32 (len s)) w) (wr s).

(** ** JsJson *)

(** JsJson::get_size (js_json_struct.rs:126-154); u32 additions *)
Fixpoint json_size (j : json) : N :=
  match j with
  | JTrue | JFalse | JNull => 1
  | JString s => add32 (1 + 4) (as_u32 (len s))
  | JNumber _ => 1 + 8
  | JList l => fold_left (fun sum p => add32 sum p) (map json_size l) (1 + 4)
  | JObject m =>
      fold_left (fun sum kv => add32 (add32 sum (add32 4 (as_u32 (len (fst kv))))) (snd kv))
                (map (fun kv => (fst kv, json_size (snd kv))) m) (1 + 2)
  end.

(** JsJson::write_to (js_json_struct.rs:160-197); tags from js_json_struct.rs:12-21 *)
Fixpoint json_write (j : json) (w : wblock) : option wblock :=
  match j with
  | JTrue => wr_u8 1 w
  | JFalse => wr_u8 2 w
  | JNull => wr_u8 3 w
  | JString s => obind (wr_u8 4 w) (wr_string s)
  | JNumber v => obind (wr_u8 5 w) (wr_u64 v)
  | JList l =>
      obind (obind (wr_u8 6 w) (wr_u32 (as_u32 (len l)))) (fun w1 =>
      fold_left (fun acc (f : wblock -> option wblock) => obind acc f) (map json_write l) (Some w1))
  | JObject m =>
      obind (obind (wr_u8 7 w) (wr_u16 (as_u16 (len m)))) (fun w1 =>
      fold_left (fun acc (kf : bytes * (wblock -> option wblock)) =>
                   obind (obind acc (wr_string (fst kf))) (snd kf))
                (map (fun kv => (fst kv, json_write (snd kv))) m) (Some w1))
  end.

(** ** JsValue *)

(** JsValue::get_size (js_value_struct.rs:115-151) *)
Fixpoint val_size (v : jsval) : N :=
  match v with
  | VU32 _ | VI32 _ => 1 + 4
  | VU64 _ | VI64 _ | VF64 _ => 1 + 8
  | VTrue | VFalse | VNull | VUndefined => 1
  | VVec b => add32 (1 + 4) (as_u32 (len b))
  | VString s => add32 (1 + 4) (as_u32 (len s))
  | VList l => fold_left (fun sum p => add32 sum p) (map val_size l) (1 + 4)
  | VObject m =>
      fold_left (fun sum kv => add32 (add32 sum (add32 4 (as_u32 (len (fst kv))))) (snd kv))
                (map (fun kv => (fst kv, val_size (snd kv))) m) (1 + 2)
  | VJson j => add32 1 (json_size j)
  end.

(** JsValue::write_to (js_value_struct.rs:153-221); tags from js_value_struct.rs:17-34 *)
Fixpoint val_write (v : jsval) (w : wblock) : option wblock :=
  match v with
  | VU32 n => obind (wr_u8 1 w) (wr_u32 n)
  | VI32 z => obind (wr_u8 2 w) (wr_u32 (of_signed two32 z))
  | VU64 n => obind (wr_u8 3 w) (wr_u64 n)
  | VI64 z => obind (wr_u8 4 w) (wr_u64 (of_signed two64 z))
  | VF64 b => obind (wr_u8 5 w) (wr_u64 b)
  | VTrue => wr_u8 6 w
  | VFalse => wr_u8 7 w
  | VNull => wr_u8 8 w
  | VUndefined => wr_u8 9 w
  | VVec b => obind (obind (wr_u8 10 w) (wr_u32 (as_u32 (len b)))) (wr b)
  | VString s => obind (wr_u8 11 w) (wr_string s)
  | VList l =>
      obind (obind (wr_u8 12 w) (wr_u32 (as_u32 (len l)))) (fun w1 =>
      fold_left (fun acc (f : wblock -> option wblock) => obind acc f) (map val_write l) (Some w1))
  | VObject m =>
      obind (obind (wr_u8 13 w) (wr_u16 (as_u16 (len m)))) (fun w1 =>
      fold_left (fun acc (kf : bytes * (wblock -> option wblock)) =>
                   obind (obind acc (wr_string (fst kf))) (snd kf))
                (map (fun kv => (fst kv, val_write (snd kv))) m) (Some w1))
  | VJson j => obind (wr_u8 14 w) (json_write j)
  end.

(** JsValue::to_snapshot (js_value_struct.rs:223-230). [None] is a panic. A block of size 0 cannot be allocated
    (memory_block.rs:6-26 panics). The block returned has [w_size] bytes of which [w_out] were written. *)
Definition to_snapshot (v : jsval) : option wblock :=
  if val_size v =? 0 then None else val_write v {| w_size := val_size v; w_out := [] |}.

(** ** Reader: V/driver_module/js_value/memory_block_read.rs:3-17. The state is the unread rest of the block.
    Reading past the end panics (slice indexing). *)

(** get_vec (memory_block_read.rs:124-133). Release arithmetic of [offset + len] can only wrap when the block is
    too short anyway, in which case the slice panics as well. *)
Definition get_vec (n : N) (b : bytes) : res (bytes * bytes) :=
  if n <=? len b then ROk (firstn (N.to_nat n) b, skipn (N.to_nat n) b) else RPanic.

(** get_byte (memory_block_read.rs:31-35) *)
Definition get_byte (b : bytes) : res (N * bytes) :=
  match b with [] => RPanic | x :: r => ROk (x, r) end.

(** get_u16, get_u32, get_u64 (memory_block_read.rs:37-45, 47-57, 71-85) *)
Definition get_uint (n : N) (b : bytes) : res (N * bytes) :=
  do (v, r) <- get_vec n b; ROk (unbe v, r).

(** get_string (memory_block_read.rs:119-122) *)
Definition get_string (n : N) (b : bytes) : res (bytes * bytes) :=
  do (v, r) <- get_vec n b; if utf8_valid v then ROk (v, r) else RErr.

(** Equality of [String]s and [Vec<u8>]s (std). *)
Fixpoint bytes_eqb (a b : bytes) : bool :=
  match a, b with
  | [], [] => true
  | x :: a', y :: b' => (x =? y) && bytes_eqb a' b'
  | _, _ => false
  end.

(** HashMap::insert *)
Fixpoint assoc_insert {A} (k : bytes) (v : A) (m : list (bytes * A)) : list (bytes * A) :=
  match m with
  | [] => [(k, v)]
  | (k', v') :: r => if bytes_eqb k k' then (k, v) :: r else (k', v') :: assoc_insert k v r
  end.

(** [for _ in 0..n { items.push(item(buffer)?) }] with fuel *)
Fixpoint read_list {A} (item : bytes -> res (A * bytes)) (fuel : nat) (n : N) (b : bytes) : res (list A * bytes) :=
  if n =? 0 then ROk ([], b) else
  match fuel with
  | O => RFuel
  | S f => do (x, r) <- item b; do (xs, r2) <- read_list item f (n - 1) r; ROk (x :: xs, r2)
  end.

(** [for _ in 0..n { key; value; props.insert(key, value) }] with fuel *)
Fixpoint read_map {A} (key : bytes -> res (bytes * bytes)) (item : bytes -> res (A * bytes))
         (fuel : nat) (n : N) (acc : list (bytes * A)) (b : bytes) : res (list (bytes * A) * bytes) :=
  if n =? 0 then ROk (acc, b) else
  match fuel with
  | O => RFuel
  | S f => do (k, r1) <- key b; do (x, r2) <- item r1; read_map key item f (n - 1) (assoc_insert k x acc) r2
  end.

(** a length followed by a string: js_json_struct.rs:267-268, 292-293; js_value_struct.rs:315-316 *)
Definition get_lstring (b : bytes) : res (bytes * bytes) :=
  do (n, r) <- get_uint 4 b; get_string n r.

(** decode_js_json_inner (js_json_struct.rs:255-304). Recursion depth (Rust stack) is not limited here. *)
Fixpoint json_decode (fuel : nat) (b : bytes) : res (json * bytes) :=
  match fuel with
  | O => RFuel
  | S f =>
    do (tag, r) <- get_byte b;
    match tag with
    | 1 => ROk (JTrue, r)
    | 2 => ROk (JFalse, r)
    | 3 => ROk (JNull, r)
    | 4 => do (s, r2) <- get_lstring r; ROk (JString s, r2)
    | 5 => do (v, r2) <- get_uint 8 r; ROk (JNumber v, r2)
    | 6 => do (n, r2) <- get_uint 4 r; do (l, r3) <- read_list (json_decode f) f n r2; ROk (JList l, r3)
    | 7 => do (n, r2) <- get_uint 2 r; do (m, r3) <- read_map get_lstring (json_decode f) f n [] r2;
           ROk (JObject m, r3)
    | _ => RErr
    end
  end.

(** the key of an object entry of a JsValue: decoded as a whole tagged value which must be a string
    (js_value_struct.rs:336-339) *)
Definition val_key (dec : bytes -> res (jsval * bytes)) (b : bytes) : res (bytes * bytes) :=
  do (k, r) <- dec b; match k with VString s => ROk (s, r) | _ => RErr end.

(** decode_js_value_inner (js_value_struct.rs:277-355) *)
Fixpoint val_decode (fuel : nat) (b : bytes) : res (jsval * bytes) :=
  match fuel with
  | O => RFuel
  | S f =>
    do (tag, r) <- get_byte b;
    match tag with
    | 1 => do (v, r2) <- get_uint 4 r; ROk (VU32 v, r2)
    | 2 => do (v, r2) <- get_uint 4 r; ROk (VI32 (to_signed two32 v), r2)
    | 3 => do (v, r2) <- get_uint 8 r; ROk (VU64 v, r2)
    | 4 => do (v, r2) <- get_uint 8 r; ROk (VI64 (to_signed two64 v), r2)
    | 5 => do (v, r2) <- get_uint 8 r; ROk (VF64 v, r2)
    | 6 => ROk (VTrue, r)
    | 7 => ROk (VFalse, r)
    | 8 => ROk (VNull, r)
    | 9 => ROk (VUndefined, r)
    | 10 => do (n, r2) <- get_uint 4 r; do (v, r3) <- get_vec n r2; ROk (VVec v, r3)
    | 11 => do (s, r2) <- get_lstring r; ROk (VString s, r2)
    | 12 => do (n, r2) <- get_uint 4 r; do (l, r3) <- read_list (val_decode f) f n r2; ROk (VList l, r3)
    | 13 => do (n, r2) <- get_uint 2 r;
            do (m, r3) <- read_map (val_key (val_decode f)) (val_decode f) f n [] r2; ROk (VObject m, r3)
    | 14 => do (j, r2) <- json_decode f r; ROk (VJson j, r2)
    | _ => RErr
    end
  end.

(** JsValue::from_block (js_value_struct.rs:91-94). Every recursive call and every loop round consumes at least one
    byte, so fuel of the length of the block suffices (proved). Trailing bytes are ignored, as in the code. *)
Definition from_block (b : bytes) : res jsval :=
  do (v, _) <- val_decode (S (length b)) b; ROk v.

(** the same entry point for a bare JsJson (decode_js_json_inner is what JsValue::Json uses) *)
Definition json_from_block (b : bytes) : res (json * bytes) := json_decode (S (length b)) b.
