(** C108: blocks of memory are used within their bounds, hold what was written and are freed as they were allocated. *)
From Coq Require Import List NArith Bool Lia.
From Verif Require Import BlockModel.
Import ListNotations.
Local Open Scope N_scope.

(** ** Specification *)

(** A block of [n] bytes whose first bytes are [data] and whose others were never written. *)
Definition holds (b : block) (n : N) (data : list N) : Prop :=
  b_size b = n /\ l_size (b_layout b) = n /\ N.of_nat (length (b_bytes b)) = n /\
  (forall i x, nth_error data i = Some x -> nth_error (b_bytes b) i = Some (Some x)) /\
  (forall i, (length data <= i)%nat -> (i < length (b_bytes b))%nat -> nth_error (b_bytes b) i = Some None).
(** The rule of std::alloc::dealloc: the layout it was allocated with. *)
Definition freed_well (v : vector) : Prop := v_freed_as v = v_allocated v.
(** Every byte was written. *)
Definition initialised (v : vector) : Prop := Forall (fun b => b <> None) (v_bytes v).

(** Writes at any offsets, one after the other. *)
Fixpoint writes (checked : bool) (b : block) (l : list (N * list N)) : result block :=
  match l with [] => Done b | (o, d) :: r => andthen (write_block checked b o d) (fun b => writes checked b r) end.
(** The byte that was written last at a place: of the last write that covers it. *)
Definition written_last (l : list (N * list N)) (i : nat) : option N :=
  fold_left (fun x w => if fst w <=? N.of_nat i then match nth_error (snd w) (i - N.to_nat (fst w)) with Some y => Some y | None => x end else x) l None.

(** ** Proofs *)

Lemma nth_error_skipn_at {A} (l : list A) k i : nth_error (skipn k l) i = nth_error l (k + i).
Proof. revert l. induction k as [|k IH]; intros l; [reflexivity|]. destruct l; cbn [skipn]; [destruct i; reflexivity|]. apply IH. Qed.
Lemma nth_error_firstn_at {A} (l : list A) k i : (i < k)%nat -> nth_error (firstn k l) i = nth_error l i.
Proof. revert k i. induction l as [|x l IH]; intros [|k] [|i] H; cbn [firstn nth_error]; try lia; auto. apply IH. lia. Qed.

Lemma as_u32_id n : n < 4294967296 -> as_u32 n = n.
Proof. intros H. unfold as_u32. apply N.mod_small. exact H. Qed.
Lemma add_ok checked a b : a + b < 4294967296 -> add_u32 checked a b = Done (a + b).
Proof. intros H. unfold add_u32. assert (4294967296 <=? a + b = false) as -> by (apply N.leb_gt; lia). rewrite andb_false_r, as_u32_id by lia. reflexivity. Qed.

Lemma put_written data more rest : put (map Some data ++ repeat None (length more + rest)) (length data) more = map Some (data ++ more) ++ repeat None rest.
Proof.
  unfold put. rewrite firstn_app, map_length, PeanoNat.Nat.sub_diag, firstn_O, app_nil_r, firstn_all2 by (rewrite map_length; lia).
  rewrite skipn_app, map_length, skipn_all2 by (rewrite map_length; lia). replace (length data + length more - length data)%nat with (length more) by lia.
  rewrite repeat_app, skipn_app, repeat_length, PeanoNat.Nat.sub_diag, skipn_all2 by (rewrite repeat_length; lia). cbn [app skipn]. rewrite map_app, app_assoc. reflexivity.
Qed.

(** The writer after some bytes. *)
Definition at_work (server : bool) (n : N) (data : list N) (w : writer) : Prop :=
  (length data <= N.to_nat n)%nat /\ snd w = N.of_nat (length data) /\
  fst w = Block (Layout n (usize_align server)) n (map Some data ++ repeat None (N.to_nat n - length data)).

Lemma writer_ok server checked n data w d : n < 4294967296 -> N.of_nat (length data + length d) < 4294967296 -> at_work server n data w ->
  (N.of_nat (length data + length d) <= n /\ exists w1, write_writer checked w d = Done w1 /\ at_work server n (data ++ d) w1) \/
  (n < N.of_nat (length data + length d) /\ write_writer checked w d = Panics).
Proof.
  intros Hn H (A1 & A2 & A3). destruct w as [b o]. cbn [fst snd] in *. subst b o. unfold write_writer, write_block. cbn [fst snd b_size b_bytes b_layout].
  rewrite as_u32_id by lia. rewrite add_ok by lia. cbn [andthen].
  destruct (N.leb_spec (N.of_nat (length data) + N.of_nat (length d)) n) as [L|L].
  - left. split; [lia|]. rewrite app_length, map_length, repeat_length.
    assert (N.of_nat (length data) + N.of_nat (length d) <=? N.of_nat (length data + (N.to_nat n - length data)) = true) as -> by (apply N.leb_le; lia).
    cbn [andthen]. rewrite Nnat.Nat2N.id, Nnat.Nat2N.id, firstn_all.
    replace (N.to_nat n - length data)%nat with (length d + (N.to_nat n - length (data ++ d)))%nat by (rewrite app_length; lia).
    rewrite put_written. eexists. split; [reflexivity|]. unfold at_work. cbn [fst snd]. rewrite app_length. split; [lia|]. split; [lia|]. reflexivity.
  - right. split; [lia|]. reflexivity.
Qed.
Lemma writers_ok server checked n parts : forall data w, n < 4294967296 -> N.of_nat (length (data ++ concat parts)) < 4294967296 -> at_work server n data w ->
  if N.of_nat (length (data ++ concat parts)) <=? n
  then exists w1, write_all checked w parts = Done w1 /\ at_work server n (data ++ concat parts) w1
  else write_all checked w parts = Panics.
Proof.
  induction parts as [|d r IH]; intros data w Hn H A; cbn [concat] in *.
  - rewrite app_nil_r in *. assert (N.of_nat (length data) <=? n = true) as -> by (apply N.leb_le; destruct A; lia). exists w. split; auto.
  - rewrite app_length, app_length in H. destruct (writer_ok server checked n data w d Hn) as [(L & w1 & E & A1)|(L & E)]; auto; [lia| |].
    + cbn [write_all]. rewrite E. cbn [andthen]. rewrite app_assoc. apply IH; auto. rewrite !app_length. lia.
    + cbn [write_all]. rewrite E. cbn [andthen]. rewrite !app_length. assert (N.of_nat (length data + (length d + length (concat r))) <=? n = false) as ->; [apply N.leb_gt; lia|reflexivity].
Qed.

Lemma at_work_holds server n data w : at_work server n data w -> holds (fst w) n data.
Proof.
  intros (A1 & A2 & A3). rewrite A3. unfold holds. cbn [b_size b_layout l_size b_bytes]. split; [reflexivity|]. split; [reflexivity|].
  rewrite app_length, map_length, repeat_length. split; [lia|]. split.
  - intros i x H. assert (i < length data)%nat by (apply nth_error_Some; congruence). rewrite nth_error_app1 by (rewrite map_length; lia). apply map_nth_error. exact H.
  - intros i H1 H2. rewrite nth_error_app2 by (rewrite map_length; lia). rewrite map_length. apply nth_error_repeat. lia.
Qed.

(** *** C108 *)

(** Writing a block from its beginning, part by part: the block holds the parts one after the other; if they do not fit, there is a panic, and nothing outside is written.
    Full statement: for all calls of the public functions; missing are offsets of the caller's choice near 2^32 and data of 4 GiB and more (both refuted below). *)
Theorem C108_writer_partial server checked n parts : 0 < n < 4294967296 -> N.of_nat (length (concat parts)) < 4294967296 ->
  exists b, new_block server n = Done b /\
    if N.of_nat (length (concat parts)) <=? n then exists w, write_all checked (b, 0) parts = Done w /\ holds (fst w) n (concat parts)
    else write_all checked (b, 0) parts = Panics.
Proof.
  intros Hn H. unfold new_block. assert (n =? 0 = false) as -> by (apply N.eqb_neq; lia). eexists. split; [reflexivity|].
  match goal with |- if _ then exists w, write_all _ ?w0 _ = _ /\ _ else _ => assert (at_work server n [] w0) as A end.
  { split; [cbn; lia|]. split; [reflexivity|]. cbn [fst map app length]. rewrite PeanoNat.Nat.sub_0_r. reflexivity. }
  pose proof (writers_ok server checked n parts [] _ (proj2 Hn) H A) as W. cbn [app] in W.
  destruct (N.of_nat (length (concat parts)) <=? n); [|exact W]. destruct W as (w & E & A1). exists w. split; [exact E|]. apply (at_work_holds server). exact A1.
Qed.
(** A block made from bytes holds them, all of it is written, and it is freed as it was allocated. *)
Theorem C108_from_slice_partial server checked data : data <> [] -> N.of_nat (length data) < 4294967296 ->
  exists b, from_slice server checked data = Done b /\ holds b (N.of_nat (length data)) data /\ initialised (convert_to_vec b) /\ freed_as b = b_layout b.
Proof.
  intros Ne H. destruct (C108_writer_partial server checked (N.of_nat (length data)) [data]) as (b & E & W).
  { destruct data; [congruence|cbn [length] in *; lia]. }
  { cbn [concat]. rewrite app_nil_r. exact H. }
  cbn [concat] in W. rewrite app_nil_r, N.leb_refl in W. destruct W as (w & W1 & W2). cbn [write_all] in W1.
  destruct (write_writer checked (b, 0) data) as [w1| |] eqn:E1; cbn [andthen] in W1; try discriminate. injection W1 as ->.
  exists (fst w). unfold from_slice. rewrite as_u32_id by lia. rewrite E. cbn [andthen]. rewrite E1. cbn [andthen]. split; [reflexivity|]. split; [exact W2|]. split; [|reflexivity].
  destruct W2 as (_ & _ & L & V & _). unfold initialised, convert_to_vec. cbn [v_bytes]. apply Forall_forall. intros x I. apply In_nth_error in I as (i & I).
  assert (i < length (b_bytes (fst w)))%nat as Li by (apply nth_error_Some; congruence). destruct (nth_error data i) as [y|] eqn:Ey.
  - rewrite (V i y Ey) in I. injection I as <-. discriminate.
  - apply nth_error_None in Ey. lia.
Qed.
Lemma put_length old o d : (o + length d <= length old)%nat -> length (put old o d) = length old.
Proof. intros H. unfold put. rewrite !app_length, firstn_length, map_length, skipn_length. lia. Qed.
Lemma put_nth old o d i : (o + length d <= length old)%nat -> (i < length old)%nat ->
  nth_error (put old o d) i = if andb (Nat.leb o i) (Nat.ltb i (o + length d)) then option_map Some (nth_error d (i - o)) else nth_error old i.
Proof.
  intros H L. unfold put. destruct (PeanoNat.Nat.leb_spec o i) as [A|A]; cbn [andb].
  - rewrite nth_error_app2 by (rewrite firstn_length; lia). rewrite firstn_length, PeanoNat.Nat.min_l by lia. destruct (PeanoNat.Nat.ltb_spec i (o + length d)) as [B|B].
    + rewrite nth_error_app1 by (rewrite map_length; lia). apply nth_error_map.
    + rewrite nth_error_app2 by (rewrite map_length; lia). rewrite map_length, nth_error_skipn_at. f_equal. lia.
  - rewrite nth_error_app1 by (rewrite firstn_length; lia). apply nth_error_firstn_at. exact A.
Qed.
(** Any writes, one after the other, at any offsets, unless the sum of an offset and a length does not fit into 32 bits: there is a panic at the first that does not fit,
    nothing outside is written, and every byte of the block is the one written there last.
    Full statement: for all offsets; the others are refuted below. *)
Theorem C108_writes_partial server checked n b l : n < 4294967296 -> new_block server n = Done b -> Forall (fun w => fst w + N.of_nat (length (snd w)) < 4294967296) l ->
  (Forall (fun w => fst w + N.of_nat (length (snd w)) <= n) l ->
     exists b1, writes checked b l = Done b1 /\ b_layout b1 = b_layout b /\ b_size b1 = n /\ N.of_nat (length (b_bytes b1)) = n /\
       forall i, N.of_nat i < n -> nth_error (b_bytes b1) i = Some (written_last l i)) /\
  (Exists (fun w => n < fst w + N.of_nat (length (snd w))) l -> writes checked b l = Panics).
Proof.
  intros Hn E. unfold new_block in E. destruct (n =? 0); [discriminate|]. injection E as <-. set (b0 := Block _ _ _). intros H.
  assert (b_layout b0 = b_layout b0 /\ b_size b0 = n /\ N.of_nat (length (b_bytes b0)) = n /\ forall i, N.of_nat i < n -> nth_error (b_bytes b0) i = Some (written_last [] i)) as I.
  { split; [reflexivity|]. split; [reflexivity|]. cbn [b0 b_bytes]. rewrite repeat_length. split; [lia|]. intros i Hi. cbn. apply nth_error_repeat. lia. }
  assert (forall past b1, b_layout b1 = b_layout b0 /\ b_size b1 = n /\ N.of_nat (length (b_bytes b1)) = n /\ (forall i, N.of_nat i < n -> nth_error (b_bytes b1) i = Some (written_last past i)) ->
    (Forall (fun w => fst w + N.of_nat (length (snd w)) <= n) l ->
     exists b2, writes checked b1 l = Done b2 /\ b_layout b2 = b_layout b0 /\ b_size b2 = n /\ N.of_nat (length (b_bytes b2)) = n /\
       forall i, N.of_nat i < n -> nth_error (b_bytes b2) i = Some (written_last (past ++ l) i)) /\
    (Exists (fun w => n < fst w + N.of_nat (length (snd w))) l -> writes checked b1 l = Panics)) as G; [|exact (G [] b0 I)].
  clear I. induction H as [|[o d] l Hd H IH]; intros past b1 (I1 & I2 & I3 & I4).
  { split; [|intros X; inversion X]. intros _. exists b1. rewrite app_nil_r. auto. }
  cbn [fst snd] in Hd. cbn [writes]. unfold write_block. rewrite as_u32_id by lia. rewrite add_ok by lia. cbn [andthen]. rewrite I2.
  destruct (N.leb_spec (o + N.of_nat (length d)) n) as [L|L].
  - rewrite I3. assert (o + N.of_nat (length d) <=? n = true) as -> by (apply N.leb_le; lia). cbn [andthen]. rewrite Nnat.Nat2N.id, firstn_all.
    destruct (IH (past ++ [(o, d)]) (Block (b_layout b1) n (put (b_bytes b1) (N.to_nat o) d))) as [G1 G2].
    { cbn [b_layout b_size b_bytes]. rewrite put_length by lia. repeat split; auto. intros i Hi. rewrite put_nth by lia. unfold written_last. rewrite fold_left_app. cbn [fold_left fst snd].
      fold (written_last past i). destruct (PeanoNat.Nat.leb_spec (N.to_nat o) i) as [A|A]; cbn [andb].
      - destruct (PeanoNat.Nat.ltb_spec i (N.to_nat o + length d)) as [B|B].
        + assert (o <=? N.of_nat i = true) as -> by (apply N.leb_le; lia). destruct (nth_error d (i - N.to_nat o)) eqn:Ed; [reflexivity|]. apply nth_error_None in Ed. lia.
        + assert (nth_error d (i - N.to_nat o) = None) as -> by (apply nth_error_None; lia). rewrite I4 by exact Hi. destruct (o <=? N.of_nat i); reflexivity.
      - assert (o <=? N.of_nat i = false) as -> by (apply N.leb_gt; lia). rewrite I4 by exact Hi. reflexivity. }
    split.
    + intros F. inversion F; subst. destruct G1 as (b2 & W & G); auto. exists b2. rewrite <- app_assoc in G. cbn [app] in G. split; auto.
    + intros X. apply Exists_cons in X as [X|X]; [cbn [fst snd] in X; lia|]. apply G2. exact X.
  - cbn [andthen]. split; [|reflexivity]. intros F. inversion F; subst. cbn [fst snd] in *. lia.
Qed.

(** Without overflow checks (the release profile) the safe function [write] writes outside of the block. *)
Theorem C108_write_refuted : exists b, new_block false 8 = Done b /\ write_block false b 4294967295 [1] = Outside /\ write_block true b 4294967295 [1] = Panics.
Proof. eexists. split; [reflexivity|]. split; reflexivity. Qed.
(** Every value that comes from the host: its block becomes a [Vec<u8>], which frees the memory with another alignment than it was allocated with. *)
Theorem C108_layout_refuted : forall server n b, new_block server n = Done b -> ~ freed_well (convert_to_vec b).
Proof.
  intros server n b. unfold new_block. destruct (n =? 0); [discriminate|]. intros E. injection E as <-. unfold freed_well, convert_to_vec. cbn.
  intros H. injection H as H. destruct server; discriminate.
Qed.
(** The safe functions give out bytes that were never written. *)
Theorem C108_unwritten_refuted : forall server n b, new_block server n = Done b -> ~ initialised (convert_to_vec b).
Proof.
  intros server n b. unfold new_block. destruct (N.eqb_spec n 0) as [->|Z]; [discriminate|]. intros E. injection E as <-. unfold initialised, convert_to_vec. cbn [v_bytes b_bytes].
  destruct (N.to_nat n) as [|m] eqn:Em; [lia|]. cbn [repeat]. intros H. inversion H as [|x l H1 H2]; subst. congruence.
Qed.
(** Of four gigabytes and more (on the server) only the first bytes are kept, without notice. *)
Theorem C108_long_refuted server checked data k : N.of_nat (length data) = 4294967296 + k -> 0 < k < 4294967296 ->
  exists b, from_slice server checked data = Done b /\ holds b k (firstn (N.to_nat k) data).
Proof.
  intros L K. assert (length (firstn (N.to_nat k) data) = N.to_nat k) as F by (rewrite firstn_length; lia).
  assert (as_u32 (N.of_nat (length data)) = k) as A.
  { rewrite L. unfold as_u32. rewrite <- N.add_mod_idemp_l, N.mod_same, N.add_0_l by lia. apply N.mod_small. lia. }
  destruct (C108_from_slice_partial server checked (firstn (N.to_nat k) data)) as (b & E & H & _).
  { intros Z. rewrite Z in F. cbn in F. lia. }
  { lia. }
  exists b. rewrite F, Nnat.N2Nat.id in H. split; [|exact H]. revert E. unfold from_slice, write_writer, write_block.
  rewrite F, Nnat.N2Nat.id, A, (as_u32_id k), firstn_firstn, PeanoNat.Nat.min_id by lia. intros E. exact E.
Qed.
(** No block can be made from no bytes. *)
Theorem C108_empty_refuted : forall server checked, from_slice server checked [] = Panics.
Proof. intros server checked. reflexivity. Qed.

(** ** Examples *)
(** Two parts that fit into a block of four bytes with one byte left; two that do not fit. *)
Example C108_case : exists b, new_block false 4 = Done b /\
  write_all false (b, 0) [[1; 2]; [3]] = Done (Block (Layout 4 4) 4 [Some 1; Some 2; Some 3; None], 3) /\
  write_all false (b, 0) [[1; 2]; [3; 4; 5]] = Panics /\ write_block false b 1 [7] = Done (Block (Layout 4 4) 4 [None; Some 7; None; None]).
Proof. eexists. split; [reflexivity|]. repeat split. Qed.
(** There are data of that length. *)
Example C108_long_case : exists data : list N, N.of_nat (length data) = 4294967296 + 1.
Proof. exists (repeat 0 (N.to_nat (4294967296 + 1))). rewrite repeat_length, Nnat.N2Nat.id. reflexivity. Qed.
(** Two writes that overlap, and a byte that is never written. *)
Example C108_writes_case : exists b, new_block true 4 = Done b /\ writes true b [(1, [5; 6]); (2, [7])] = Done (Block (Layout 4 8) 4 [None; Some 5; Some 7; None]) /\
  map (written_last [(1, [5; 6]); (2, [7])]) [0; 1; 2; 3]%nat = [None; Some 5; Some 7; None].
Proof. eexists. split; [reflexivity|]. split; reflexivity. Qed.
Example C108_slice_case : from_slice true false [5; 6] = Done (Block (Layout 2 8) 2 [Some 5; Some 6]).
Proof. reflexivity. Qed.
