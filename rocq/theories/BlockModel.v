(** Blocks of memory handed to the host and taken from it (unsafe code).

    Source: MB = /repo/crates/vertigo/src/driver_module/js_value/memory_block.rs, MW = memory_block_write.rs in the same directory.  [MemoryBlock] is public
    (/repo/crates/vertigo/src/lib.rs:141) and its functions are safe to call.  A block is its layout, its size and its bytes, some of them never written.  The allocator
    does not fail (it gives null when memory is short, MB 14: a panic). *)
From Coq Require Import List NArith Bool.
Import ListNotations.
Local Open Scope N_scope.

(** std::alloc::Layout: size and alignment (MB 9). *)
Record layout := Layout { l_size : N; l_align : N }.
(** MB 28-33, with the bytes it points to; [None] is a byte that was never written. *)
Record block := Block { b_layout : layout; b_size : N; b_bytes : list (option N) }.
(** A call returns, panics, or touches memory that is not its own. *)
Inductive result (A : Type) := Done (a : A) | Panics | Outside.
Arguments Done {A}. Arguments Panics {A}. Arguments Outside {A}.
(** The program goes on after a call that returns (sequence of statements, MB 43-47). *)
Definition andthen {A B} (r : result A) (f : A -> result B) : result B := match r with Done a => f a | Panics => Panics | Outside => Outside end.

(** [as u32] (MB 43, 59; MW 20). *)
Definition as_u32 (n : N) : N := n mod 4294967296.
(** [+] of u32 (MB 61, MW 20): with overflow checks it panics, without it wraps. *)
Definition add_u32 (checked : bool) (a b : N) : result N := if checked && (4294967296 <=? a + b) then Panics else Done (as_u32 (a + b)).

(** [align_of::<usize>()] (MB 7): 4 in wasm, 8 on the server. *)
Definition usize_align (server : bool) : N := if server then 8 else 4.
(** MB 6-26, 36-40: [new]: nothing is written; an empty block is refused. *)
Definition new_block (server : bool) (size : N) : result block :=
  if size =? 0 then Panics else Done (Block (Layout size (usize_align server)) size (repeat None (N.to_nat size))).
(** Bytes put over others from a position on, when they fit (std::ptr::copy, MB 65). *)
Definition put (old : list (option N)) (offset : nat) (data : list N) : list (option N) :=
  firstn offset old ++ map Some data ++ skipn (offset + length data) old.
(** MB 58-73: [write]. *)
Definition write_block (checked : bool) (b : block) (offset : N) (data : list N) : result block :=
  let data_len := as_u32 (N.of_nat (length data)) in
  andthen (add_u32 checked offset data_len) (fun last =>
    if last <=? b_size b
    then if offset + data_len <=? N.of_nat (length (b_bytes b))
         then Done (Block (b_layout b) (b_size b) (put (b_bytes b) (N.to_nat offset) (firstn (N.to_nat data_len) data)))
         else Outside
    else Panics).

(** MW 4-12: a writer: the block and the offset. *)
Definition writer := (block * N)%type.
(** MW 18-21. *)
Definition write_writer (checked : bool) (w : writer) (data : list N) : result writer :=
  andthen (write_block checked (fst w) (snd w) data) (fun b =>
  andthen (add_u32 checked (snd w) (as_u32 (N.of_nat (length data)))) (fun o => Done (b, o))).
(** MW 23-56: one after the other. *)
Fixpoint write_all (checked : bool) (w : writer) (parts : list (list N)) : result writer :=
  match parts with [] => Done w | d :: r => andthen (write_writer checked w d) (fun w => write_all checked w r) end.
(** MB 42-48: [from_slice]. *)
Definition from_slice (server checked : bool) (data : list N) : result block :=
  andthen (new_block server (as_u32 (N.of_nat (length data)))) (fun b =>
  andthen (write_writer checked (b, 0) data) (fun w => Done (fst w))).

(** MB 75-82: [convert_to_vec]: the [Vec<u8>], as the memory it owns: what it was allocated with, and what it will be freed with (std::vec::Vec: the capacity, and
    the alignment of u8). *)
Record vector := Vector { v_allocated : layout; v_freed_as : layout; v_bytes : list (option N) }.
(** MB 75-82. *)
Definition convert_to_vec (b : block) : vector := Vector (b_layout b) (Layout (b_size b) 1) (b_bytes b).
(** MB 85-93: what a block is freed with. *)
Definition freed_as (b : block) : layout := b_layout b.
