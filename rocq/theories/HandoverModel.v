(** The memory between a program and its host: how values cross it.

    Source: DC = /repo/crates/vertigo-cli/src/serve/wasm/data_context.rs (the server), JS/ =
    /repo/crates/vertigo/src/driver_module/src_js/ (the page), MB = /repo/crates/vertigo/src/driver_module/js_value/memory_block.rs,
    AR = /repo/crates/vertigo/src/driver_module/api/arguments.rs, VL = /repo/crates/vertigo/src/lib.rs (the program).
    What is written into a block is that of CodecModel.v and CodecJsModel.v. *)
From Coq Require Import List NArith Bool.
From Verif Require Import CodecModel CodecJsModel.
Import ListNotations.
Local Open Scope N_scope.

(** The linear memory of a program (DC 55, JS/wasm_init.ts:42-52): how many bytes it has, what they are, which buffer the page sees it
    through (a new one whenever the memory has grown), and the blocks the allocator has given out. *)
Record mem := Mem { m_len : N; m_byte : N -> N; m_buf : N; m_live : list (N * N) }.

(** The bytes from [p] on (DC 60, JS/buffer_cursor.ts:98-110). *)
Definition slice (m : mem) (p n : N) : bytes := map (fun i => m_byte m (p + N.of_nat i)) (seq 0 (N.to_nat n)).
(** Writing bytes from [p] on (DC 132, MB 58-73, JS/buffer_cursor.ts:112-126). *)
Definition store (m : mem) (p : N) (b : bytes) : mem :=
  Mem (m_len m) (fun a => if (p <=? a) && (a <? p + len b) then nth (N.to_nat (a - p)) b 0 else m_byte m a) (m_buf m) (m_live m).

(** Two regions without a common byte. *)
Definition apart (a b : N * N) : Prop := fst a + snd a <= fst b \/ fst b + snd b <= fst a.
(** What the allocator of Rust promises (MB 6-26: [alloc]; the contract of std's GlobalAlloc): a block that is not at 0, inside of the memory
    and apart from all blocks given out, which keep their content.  The memory may grow, never beyond 4 GiB; then the page sees it through
    a new buffer. *)
Definition allocated (m : mem) (n p : N) (m' : mem) : Prop :=
  0 < p /\ p + n <= m_len m' /\ m_len m <= m_len m' <= 4294967296 /\
  Forall (apart (p, n)) (m_live m) /\
  (forall b a, In b (m_live m) -> fst b <= a < fst b + snd b -> m_byte m' a = m_byte m a) /\
  m_buf m' = (if m_len m <? m_len m' then m_buf m + 1 else m_buf m) /\
  m_live m' = (p, n) :: m_live m.

(** What happens in the memory meanwhile: the program (or the host) allocates, writes into a block that was given out (MB 58-73), or drops one
    (MB 85-93: [dealloc]; what is in it afterwards is not said). *)
Inductive event := EAlloc (p n : N) | EWrite (p n a : N) (b : bytes) | EFree (p n : N).
(** One event (MB 6-26, 58-73, 85-93). *)
Inductive step : mem -> event -> mem -> Prop :=
| step_alloc m p n m' : allocated m n p m' -> step m (EAlloc p n) m'
| step_write m p n a b : In (p, n) (m_live m) -> p <= a -> a + len b <= p + n -> step m (EWrite p n a b) (store m a b)
| step_free m p n l1 l2 f : m_live m = l1 ++ (p, n) :: l2 ->
    (forall a, ~ (p <= a < p + n) -> f a = m_byte m a) -> step m (EFree p n) (Mem (m_len m) f (m_buf m) (l1 ++ l2)).
(** Any number of them (MB 6-26, 58-73, 85-93). *)
Inductive steps : mem -> list event -> mem -> Prop :=
| steps_nil m : steps m [] m
| steps_cons m e m1 l m2 : step m e m1 -> steps m1 l m2 -> steps m (e :: l) m2.

(** ** The program *)

(** [to_snapshot] (VL 477-478, api_dom_access.rs:115-116): a block of its own with the value in it; its pointer and size. *)
Definition snapshot (m : mem) (v : jsval) (p n : N) (m1 : mem) : Prop :=
  exists blk m', to_snapshot v = Some blk /\ n = w_size blk /\ allocated m n p m' /\ m1 = store m' p (w_out blk).
(** [get_by_ptr] (AR 26-45) on a block of [n] bytes; [None] is a panic. *)
Definition get_by_ptr (m : mem) (p n : N) : option jsval :=
  if p =? 0 then Some VUndefined else match from_block (slice m p n) with ROk v => Some v | RErr => Some VUndefined | _ => None end.

(** ** The server *)

(** [get_value] (DC 51-70); [None] is a panic. *)
Definition get_value (m : mem) (p n : N) : option jsval :=
  if p + n <=? m_len m then match from_block (slice m p n) with ROk v => Some v | RErr => Some VUndefined | _ => None end else None.
(** [save_value] (DC 117-135): the pointer, the size of its block, and the memory.  [undefined] is the pointer 0. *)
Definition save_value (m : mem) (v : jsval) (p n : N) (m1 : mem) : Prop :=
  if match v with VUndefined => true | _ => false end then p = 0 /\ n = 0 /\ m1 = m
  else exists blk m', to_snapshot v = Some blk /\ n = len (w_out blk) /\ allocated m n p m' /\ p + n <= m_len m' /\ m1 = store m' p (w_out blk).

(** ** The page *)

(** The numbers of wasm are signed in JavaScript (JS/wasm_module.ts:52, 58: [ptr] and [size] of the imports; JS/wasm_init.ts:4: what [alloc]
    returns): from 2^31 on they are negative, and [new DataView] (JS/buffer_cursor.ts:15-19) throws. *)
Definition viewable (p n : N) : bool := (p <? 2147483648) && (n <? 2147483648).
(** [decodeArguments] (JS/wasm_init.ts:57, JS/jsvalue.ts:154-162): exceptions are swallowed, an empty array is returned instead. *)
Definition page_decode (lossy : bytes -> bytes) (m : mem) (p n : N) : res jsv :=
  if viewable p n && (p + n <=? m_len m) then js_value_decode lossy (slice m p n) else ROk (SVArr []).
(** [valueSaveToBuffer] (JS/wasm_init.ts:59, JS/jsvalue.ts:318-343); [None] is an exception. *)
Definition page_save (m : mem) (x : jsv) (p n : N) (m1 : option mem) : Prop :=
  match js_save_to_buffer x with
  | None => m1 = None
  | Some None => p = 0 /\ n = 0 /\ m1 = Some m
  | Some (Some out) => exists m', n = len out /\ allocated m n p m' /\ m1 = if viewable p n then Some (store m' p out) else None
  end.

(** A [Uint8Array] in the page: a copy of its own, or, as [getBuffer] makes it (JS/buffer_cursor.ts:98-110), a view of the memory through
    the buffer of that moment. *)
Inductive held := View (buf p n : N).
(** The bytes a page was given in a block at [p] (JS/jsvalue.ts:104-106 via JS/buffer_cursor.ts:98-110): a tag and a length come first. *)
Definition given (m : mem) (p n : N) : held := View (m_buf m) (p + 5) n.
(** What is in it (ECMAScript: a view of a buffer that was detached has no bytes; growing a memory detaches its buffer). *)
Definition seen (m : mem) (h : held) : bytes := match h with View b p n => if b =? m_buf m then slice m p n else [] end.
(** [valueSaveToBuffer] of such an array (JS/jsvalue.ts:188-190, 239-243, 318-343): its size is taken before the block is allocated, its bytes
    afterwards; [None] is the exception of [set] (JS/buffer_cursor.ts:112-126) for a source whose buffer was detached. *)
Definition page_save_bytes (m : mem) (h : held) (p n : N) (m1 : option mem) : Prop :=
  let 'View b _ _ := h in
  n = 5 + len (seen m h) /\
  exists m', allocated m n p m' /\
    m1 = if viewable p n && (b =? m_buf m') then Some (store m' p (10 :: be 4 (len (seen m' h)) ++ seen m' h)) else None.
