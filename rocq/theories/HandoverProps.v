(** Values crossing the memory: specification and theorems (C100). *)
From Coq Require Import List NArith PeanoNat Bool Lia.
From Verif Require Import CodecModel CodecJsModel CodecSpec CodecProofs CodecProps HandoverModel.
Import ListNotations.
Local Open Scope N_scope.

(** ** Specification *)

(** Values within the limits of the codec (C13, C15). *)
Definition good (v : jsval) : Prop := val_ok v /\ val_small v /\ val_no_object v /\ val_total v < two32.
Definition good_js (v : jsval) : Prop := val_ok v /\ val_small v /\ val_plain v /\ val_total v < two32.
(** Nothing frees the block at [p] or writes into it. *)
Definition leaves (p : N) (e : event) : Prop :=
  match e with EAlloc _ _ => True | EWrite q _ _ _ => q <> p | EFree q _ => q <> p end.
(** Blocks given out do not overlap and are inside of the memory. *)
Fixpoint separate (l : list (N * N)) : Prop := match l with [] => True | b :: t => Forall (apart b) t /\ separate t end.
Definition sound (m : mem) : Prop := separate (m_live m) /\ m_len m <= 4294967296 /\ Forall (fun b => 0 < fst b /\ fst b + snd b <= m_len m) (m_live m).
(** Another block has the same content before and after. *)
Definition untouched (m m' : mem) : Prop := forall b, In b (m_live m) -> slice m' (fst b) (snd b) = slice m (fst b) (snd b).

(** ** Proofs *)

Lemma slice_ext m m' p n : (forall a, p <= a < p + n -> m_byte m' a = m_byte m a) -> slice m' p n = slice m p n.
Proof.
  intros H. unfold slice. apply map_ext_in. intros i I. apply in_seq in I. apply H. lia.
Qed.

Lemma slice_store m p b : slice (store m p b) p (len b) = b.
Proof.
  unfold slice, store, len. cbn [m_byte]. rewrite Nat2N.id.
  assert (G : forall l q, length (q ++ l) = length b -> q ++ l = b ->
    map (fun i => if (p <=? p + N.of_nat i) && (p + N.of_nat i <? p + N.of_nat (length b)) then nth (N.to_nat (p + N.of_nat i - p)) b 0 else m_byte m (p + N.of_nat i))
      (seq (length q) (length l)) = l).
  { induction l as [|x l IH]; intros q L E; cbn [length seq map]; auto. f_equal.
    - rewrite app_length in L. cbn [length] in L.
      destruct (N.leb_spec p (p + N.of_nat (length q))); [|lia].
      destruct (N.ltb_spec (p + N.of_nat (length q)) (p + N.of_nat (length b))); [|lia].
      cbn [andb]. replace (N.to_nat (p + N.of_nat (length q) - p)) with (length q) by lia. rewrite <- E, app_nth2, Nat.sub_diag by lia. reflexivity.
    - replace (S (length q)) with (length (q ++ [x])) by (rewrite app_length; cbn; lia). apply IH; rewrite <- app_assoc; assumption. }
  apply (G b []); reflexivity.
Qed.

Lemma slice_store_apart m q b p n : apart (p, n) (q, len b) -> slice (store m q b) p n = slice m p n.
Proof.
  intros A. apply slice_ext. intros a H. unfold store. cbn [m_byte]. unfold apart in A. cbn [fst snd] in A.
  destruct (N.leb_spec q a); destruct (N.ltb_spec a (q + len b)); cbn [andb]; auto; lia.
Qed.

Lemma separate_apart l p n q k : separate l -> In (p, n) l -> In (q, k) l -> p <> q -> apart (p, n) (q, k).
Proof.
  induction l as [|b l IH]; [contradiction|]. intros [F S] [I1|I1] [I2|I2] N.
  - subst. injection I2 as -> ->. congruence.
  - subst. rewrite Forall_forall in F. apply F in I2. exact I2.
  - subst. rewrite Forall_forall in F. apply F in I1. unfold apart in *. tauto.
  - apply IH; auto.
Qed.

Lemma allocated_sound m n p m' : sound m -> allocated m n p m' -> sound m' /\ untouched m m'.
Proof.
  intros (S & L & B) (P & I & G & A & K & _ & E). split; [|intros b H; apply slice_ext; intros a X; apply (K b); auto].
  unfold sound. rewrite E. cbn [separate]. repeat split; auto; try lia. constructor; [cbn; lia|].
  eapply Forall_impl; [|exact B]. intros b [X Y]. cbn in *. lia.
Qed.

Lemma separate_remove l1 b l2 : separate (l1 ++ b :: l2) -> separate (l1 ++ l2).
Proof.
  induction l1 as [|x l1 IH]; cbn [app separate]; [tauto|]. intros [F S]. split; [|auto].
  apply Forall_app in F. destruct F as [F1 F2]. inversion F2; subst. apply Forall_app. auto.
Qed.

Lemma step_sound m e m' : sound m -> step m e m' -> sound m'.
Proof.
  intros S H. inversion H; subst.
  - apply (allocated_sound _ _ _ _ S) in H0. apply H0.
  - exact S.
  - destruct S as (S & L & B). unfold sound. cbn [m_live m_len]. rewrite H0 in S, B. split; [apply (separate_remove l1 (p, n)); assumption|]. split; auto.
    apply Forall_app in B. destruct B as [B1 B2]. inversion B2; subst. apply Forall_app. auto.
Qed.

Lemma step_keeps m e m' p n : sound m -> step m e m' -> In (p, n) (m_live m) -> leaves p e ->
  In (p, n) (m_live m') /\ slice m' p n = slice m p n.
Proof.
  intros S H I L. inversion H; subst.
  - pose proof (allocated_sound _ _ _ _ S H0) as [_ U]. split; [|apply (U (p, n)); assumption].
    destruct H0 as (_ & _ & _ & _ & _ & _ & E). rewrite E. right. assumption.
  - split; [exact I|]. destruct S as (S & _). cbn in L. assert (A : apart (p, n) (p0, n0)) by (apply (separate_apart (m_live m)); auto).
    apply slice_store_apart. unfold apart in *. cbn [fst snd] in *. lia.
  - destruct S as (S & _). cbn in L. assert (A : apart (p, n) (p0, n0)).
    { apply (separate_apart (m_live m)); auto. rewrite H0. apply in_elt. }
    split.
    + rewrite H0 in I. cbn [m_live]. apply in_app_or in I. apply in_or_app. destruct I as [I|[I|I]]; auto. injection I as -> ->. congruence.
    + apply slice_ext. intros a X. cbn [m_byte]. apply H1. unfold apart in A. cbn [fst snd] in A. lia.
Qed.

Lemma steps_keep m l m' p n : steps m l m' -> sound m -> In (p, n) (m_live m) -> Forall (leaves p) l ->
  sound m' /\ In (p, n) (m_live m') /\ slice m' p n = slice m p n.
Proof.
  induction 1; intros S I F; [auto|]. inversion F; subst. pose proof (step_sound _ _ _ S H) as S1.
  destruct (step_keeps _ _ _ _ _ S H I H3) as [I1 E1]. destruct (IHsteps S1 I1 H4) as (S2 & I2 & E2). split; [auto|split; [auto|congruence]].
Qed.

Lemma placed m n p m' b : sound m -> allocated m n p m' -> n = len b ->
  sound (store m' p b) /\ In (p, n) (m_live (store m' p b)) /\ slice (store m' p b) p n = b /\ untouched m (store m' p b).
Proof.
  intros S A ->. pose proof (allocated_sound _ _ _ _ S A) as [S' U]. pose proof A as (_ & _ & _ & F & _ & _ & E).
  split; [exact S'|]. split; [cbn; rewrite E; left; reflexivity|]. split; [apply slice_store|].
  intros x I. rewrite slice_store_apart; [apply U; assumption|]. rewrite Forall_forall in F. apply F in I. unfold apart in *. cbn [fst snd] in *. tauto.
Qed.

(** C100: a value the program has put into a block reaches the server as it was, whatever else happens in the memory meanwhile; no other block
    is touched by putting it there.  Partial: values without objects (see C13). *)
Theorem C100_to_server_partial : forall m v p n m1 l m2, sound m -> good v -> snapshot m v p n m1 -> steps m1 l m2 -> Forall (leaves p) l ->
  get_value m2 p n = Some v /\ untouched m m1.
Proof.
  intros m v p n m1 l m2 S (G1 & G2 & G3 & G4) (blk & m' & T & -> & A & ->) H L.
  destruct (C13_value_roundtrip_partial v) as (b & T' & W & R); auto. rewrite T in T'. injection T' as <-.
  destruct (placed m (w_size blk) p m' (w_out blk)) as (S1 & I & E & U); auto.
  destruct (steps_keep _ _ _ _ _ H S1 I L) as (S2 & I2 & E2). split; [|exact U]. unfold get_value.
  destruct S2 as (_ & _ & B). rewrite Forall_forall in B. apply B in I2. cbn [fst snd] in I2. rewrite (proj2 (N.leb_le _ _)) by lia.
  rewrite E2, E, R. reflexivity.
Qed.

(** C100: a value the server hands over reaches the program as it was.  Partial: as above. *)
Theorem C100_from_server_partial : forall m v p n m1 l m2, sound m -> good v -> save_value m v p n m1 -> steps m1 l m2 -> Forall (leaves p) l ->
  get_by_ptr m2 p n = Some v /\ untouched m m1.
Proof.
  intros m v p n m1 l m2 S (G1 & G2 & G3 & G4) V H L. unfold save_value in V.
  destruct (match v with VUndefined => true | _ => false end) eqn:U0.
  - destruct v; try discriminate. destruct V as (-> & -> & ->). split; [reflexivity|]. intros b I. reflexivity.
  - destruct V as (blk & m' & T & -> & A & _ & ->).
    destruct (C13_value_roundtrip_partial v) as (b & T' & W & R); auto. rewrite T in T'. injection T' as <-.
    destruct (placed m (len (w_out blk)) p m' (w_out blk)) as (S1 & I & E & U); auto.
    destruct (steps_keep _ _ _ _ _ H S1 I L) as (_ & _ & E2). split; [|exact U]. unfold get_by_ptr.
    destruct A as (P & _). rewrite (proj2 (N.eqb_neq _ _)) by lia. rewrite E2, E, R. reflexivity.
Qed.

(** C100: the same with a page, in the first 2 GiB of the memory.  Partial: see [C100_high_refuted]. *)
Theorem C100_to_page_partial : forall lossy m v p n m1 l m2, sound m -> good_js v -> snapshot m v p n m1 -> steps m1 l m2 -> Forall (leaves p) l ->
  p + n <= 2147483648 -> page_decode lossy m2 p n = ROk (js_of_val v) /\ untouched m m1.
Proof.
  intros lossy m v p n m1 l m2 S (G1 & G2 & G3 & G4) (blk & m' & T & -> & A & ->) H L Hi.
  destruct (C15_rust_to_js_partial lossy v) as (b & T' & R); auto. rewrite T in T'. injection T' as <-.
  destruct (C14_size_exact v G4) as (b & T' & W1 & W2). rewrite T in T'. injection T' as <-.
  destruct (placed m (w_size blk) p m' (w_out blk)) as (S1 & I & E & U); [auto|auto|congruence|].
  destruct (steps_keep _ _ _ _ _ H S1 I L) as (S2 & I2 & E2). split; [|exact U]. unfold page_decode, viewable.
  destruct S2 as (_ & _ & B). rewrite Forall_forall in B. apply B in I2. cbn [fst snd] in I2.
  assert (V : 0 < val_total v) by (clear; destruct v; cbn [val_total]; lia).
  rewrite (proj2 (N.leb_le _ (m_len m2))) by lia. rewrite (proj2 (N.ltb_lt p _)), (proj2 (N.ltb_lt (w_size blk) _)) by lia. cbn [andb].
  rewrite E2, E. exact R.
Qed.
Theorem C100_from_page_partial : forall m v p n m1 l m2, sound m -> good v -> page_save m (js_of_val v) p n (Some m1) -> steps m1 l m2 ->
  Forall (leaves p) l -> get_by_ptr m2 p n = Some v /\ untouched m m1.
Proof.
  intros m v p n m1 l m2 S (G1 & G2 & G3 & G4) V H L. unfold page_save in V.
  assert (D : v = VUndefined \/ v <> VUndefined) by (destruct v; auto; right; discriminate). destruct D as [->|D].
  - change (js_save_to_buffer (js_of_val VUndefined)) with (Some (@None bytes)) in V. cbn iota in V. destruct V as (-> & -> & [= ->]).
    split; [reflexivity|]. intros b I. reflexivity.
  - destruct (C16_js_to_rust_partial v) as (out & T & R); auto. rewrite T in V. destruct V as (m' & -> & A & V).
    destruct (viewable p (len out)); [|discriminate V]. injection V as ->.
    destruct (placed m (len out) p m' out) as (S1 & I & E & U); auto.
    destruct (steps_keep _ _ _ _ _ H S1 I L) as (_ & _ & E2). split; [|exact U]. unfold get_by_ptr.
    destruct A as (P & _). rewrite (proj2 (N.eqb_neq _ _)) by lia. rewrite E2, E, R. reflexivity.
Qed.

Lemma len_slice m p n : len (slice m p n) = n.
Proof. unfold len, slice. rewrite map_length, seq_length. lia. Qed.

Lemma slice_sub m m' p n o k : slice m' p n = slice m p n -> o + k <= n -> slice m' (p + o) k = slice m (p + o) k.
Proof.
  intros E L. apply slice_ext. intros a H.
  assert (G : forall x, nth (N.to_nat (a - p)) (slice x p n) (m_byte x (p + N.of_nat 0)) = m_byte x a).
  { intros x. unfold slice. rewrite (map_nth (fun i => m_byte x (p + N.of_nat i)) _ 0%nat), seq_nth by lia. f_equal. lia. }
  rewrite <- (G m), <- (G m'), E. apply nth_indep. unfold slice. rewrite map_length, seq_length. lia.
Qed.

Lemma map_seq_shift {A} (f : nat -> A) k n s : map f (seq (k + s) n) = map (fun i => f (k + i)%nat) (seq s n).
Proof. revert s. induction n; intros s; cbn [seq map]; auto. f_equal. rewrite <- IHn. do 2 f_equal. lia. Qed.

Lemma slice_split m p a b : slice m p (a + b) = slice m p a ++ slice m (p + a) b.
Proof.
  unfold slice. rewrite N2Nat.inj_add, seq_app, map_app. f_equal. rewrite Nat.add_0_l. rewrite <- (Nat.add_0_r (N.to_nat a)).
  rewrite map_seq_shift. apply map_ext. intros i. f_equal. rewrite Nat2N.inj_add, N2Nat.id. lia.
Qed.

Lemma slice_app m p x y : slice m p (len (x ++ y)) = x ++ y -> slice m (p + len x) (len y) = y.
Proof.
  intros E. replace (len (x ++ y)) with (len x + len y) in E by (unfold len; rewrite app_length; lia).
  rewrite slice_split in E. assert (L : length (slice m p (len x)) = length x) by (unfold slice; rewrite map_length, seq_length; unfold len; lia).
  revert L E. generalize (slice m p (len x)) as z. generalize (slice m (p + len x) (len y)) as w. intros w z L E. revert z L E. induction x as [|c x IH]; intros [|d z] L E; try discriminate; [exact E|].
  injection E as _ E. injection L as L. apply (IH z L E).
Qed.

Lemma put_bytes m b p n m1 : sound m -> len b + 5 < two32 -> snapshot m (VVec b) p n m1 ->
  sound m1 /\ In (p, n) (m_live m1) /\ n = 5 + len b /\ slice m1 (p + 5) (len b) = b.
Proof.
  intros S L (blk & m' & T & -> & A & ->).
  assert (V : val_total (VVec b) = 5 + len b) by reflexivity.
  rewrite to_snapshot_enc in T by lia. injection T as <-. change (w_size {| w_size := val_total (VVec b); w_out := enc_val (VVec b) |}) with (5 + len b) in *. change (w_out {| w_size := val_total (VVec b); w_out := enc_val (VVec b) |}) with (enc_val (VVec b)).
  assert (E : enc_val (VVec b) = (10 :: be 4 (as_u32 (len b))) ++ b) by reflexivity.
  assert (K : len (10 :: be 4 (as_u32 (len b))) = 5) by reflexivity.
  assert (W : 5 + len b = len (enc_val (VVec b))) by (rewrite E; unfold len in *; rewrite app_length; lia).
  destruct (placed m (5 + len b) p m' (enc_val (VVec b))) as (S1 & I & E1 & _); auto. split; [exact S1|]. split; [exact I|]. split; [reflexivity|].
  rewrite W, E in E1. apply slice_app in E1. rewrite K in E1. exact E1.
Qed.

(** C100: bytes a page is given are the ones that were sent, while their block is neither dropped nor written and the memory has not grown. *)
Theorem C100_bytes_partial : forall m b p n m1 l m2, sound m -> len b + 5 < two32 -> snapshot m (VVec b) p n m1 -> steps m1 l m2 ->
  Forall (leaves p) l -> m_buf m2 = m_buf m1 -> seen m2 (given m1 p (len b)) = b.
Proof.
  intros m b p n m1 l m2 S L H T F B. destruct (put_bytes _ _ _ _ _ S L H) as (S1 & I & -> & E).
  destruct (steps_keep _ _ _ _ _ T S1 I F) as (_ & _ & E2). unfold seen, given. rewrite B, N.eqb_refl.
  rewrite (slice_sub m1 m2 p (5 + len b) 5 (len b)); [exact E|exact E2|lia].
Qed.

(** C100: a page that gives back the bytes it was given gives back these bytes, if it gives back anything. *)
Theorem C100_echo_partial : forall m b p n m1 q k m2 l m3, sound m -> val_ok (VVec b) -> len b + 5 < two32 -> snapshot m (VVec b) p n m1 ->
  page_save_bytes m1 (given m1 p (len b)) q k (Some m2) -> steps m2 l m3 -> Forall (leaves q) l -> get_by_ptr m3 q k = Some (VVec b).
Proof.
  intros m b p n m1 q k m2 l m3 S O L H V T F. unfold given in V. cbn [page_save_bytes] in V. destruct V as (-> & m' & A & V). fold (given m1 p (len b)) in *. destruct (put_bytes _ _ _ _ _ S L H) as (S1 & I & -> & E).
  destruct (viewable q _ && _) eqn:X; [|discriminate V]. apply andb_true_iff in X. destruct X as [_ X].
  match type of V with Some _ = Some ?y => assert (Y : m2 = y) by congruence end. subst m2. clear V.
  assert (E1 : seen m1 (given m1 p (len b)) = b) by (unfold seen, given; rewrite N.eqb_refl; exact E). rewrite E1 in A.
  assert (E2 : seen m' (given m1 p (len b)) = b).
  { unfold seen, given. rewrite X. destruct (allocated_sound _ _ _ _ S1 A) as [_ U]. apply U in I. cbn [fst snd] in I.
    rewrite (slice_sub m1 m' p (5 + len b) 5 (len b)); [exact E|exact I|lia]. }
  rewrite E2 in T. set (out := 10 :: be 4 (len b) ++ b) in *.
  assert (Eo : out = enc_val (VVec b)).
  { unfold out. change (enc_val (VVec b)) with (10 :: be 4 (as_u32 (len b)) ++ b). unfold as_u32. rewrite N.mod_small by lia. reflexivity. }
  destruct (placed m1 (5 + len b) q m' out S1 A) as (S2 & I2 & E3 & _).
  { unfold out, len. cbn [length]. rewrite app_length. change (length (be 4 (N.of_nat (length b)))) with 4%nat. lia. }
  destruct (steps_keep _ _ _ _ _ T S2 I2 F) as (_ & _ & E4). rewrite E1. unfold get_by_ptr.
  destruct A as (P & _). rewrite (proj2 (N.eqb_neq _ _)) by lia. rewrite E4, E3, Eo.
  destruct (C13_value_roundtrip_partial (VVec b)) as (blk & T' & _ & R); cbn [val_small val_no_object val_total]; auto; try lia.
  rewrite to_snapshot_enc in T' by (cbn [val_total]; lia). apply (f_equal (fun o => match o with Some x => w_out x | None => [] end)) in T'. cbv beta iota in T'.
  change (enc_val (VVec b) = w_out blk) in T'. rewrite T', R. reflexivity.
Qed.

Lemma sound_empty n f k : n <= 4294967296 -> sound (Mem n f k []).
Proof. intros H. split; [exact I|split; [exact H|constructor]]. Qed.
Lemma allocated_first n f k p s : 0 < p -> p + s <= n -> n <= 4294967296 -> allocated (Mem n f k []) s p (Mem n f k [(p, s)]).
Proof.
  intros P L H. unfold allocated. cbn [m_len m_live m_byte m_buf]. rewrite N.ltb_irrefl.
  split; [exact P|split; [exact L|split; [lia|split; [constructor|split; [contradiction|split; reflexivity]]]]].
Qed.

(** C100 does not hold for a page in the upper half of a memory: it takes the value for an empty array. *)
Theorem C100_high_refuted : exists m v p n m1, sound m /\ good_js v /\ snapshot m v p n m1 /\
  (forall lossy, page_decode lossy m1 p n = ROk (SVArr [])) /\ js_of_val v <> SVArr [].
Proof.
  exists (Mem 4294967296 (fun _ => 0) 0 []), (VU32 7), 2147483648, 5.
  eexists. split; [apply sound_empty; lia|]. split; [unfold good_js, two32; cbn; unfold two32; repeat split; lia|]. split.
  - eexists. exists (Mem 4294967296 (fun _ => 0) 0 [(2147483648, 5)]). split; [reflexivity|]. split; [reflexivity|]. split; [|reflexivity].
    apply allocated_first; lia.
  - split; [intros lossy; reflexivity|discriminate].
Qed.
(** C100 does not hold for bytes a page keeps: they are a view of a block the program drops once the call is over. *)
Theorem C100_bytes_kept_refuted : exists m b p n m1 m2, sound m /\ len b + 5 < two32 /\ snapshot m (VVec b) p n m1 /\
  steps m1 [EFree p n; EAlloc p n; EWrite p n p [1; 0; 0; 0; 2; 3; 4]] m2 /\ m_buf m2 = m_buf m1 /\
  seen m1 (given m1 p (len b)) = b /\ seen m2 (given m1 p (len b)) <> b.
Proof.
  exists (Mem 65536 (fun _ => 0) 0 []), [1; 2], 1024, 7. do 2 eexists. split; [apply sound_empty; lia|]. split; [reflexivity|]. split.
  - exists {| w_size := 7; w_out := [10; 0; 0; 0; 2; 1; 2] |}, (Mem 65536 (fun _ => 0) 0 [(1024, 7)]). split; [reflexivity|]. split; [reflexivity|]. split; [|reflexivity].
    apply allocated_first; lia.
  - split; [|split; [|split]].
    + eapply steps_cons; [apply (step_free _ 1024 7 [] [] (fun _ => 0)); [reflexivity|intros a H]|].
      * unfold store. cbn [m_byte w_out]. destruct (N.leb_spec 1024 a); auto. destruct (N.ltb_spec a (1024 + len [10; 0; 0; 0; 2; 1; 2])) as [X|X]; auto.
        change (len [10; 0; 0; 0; 2; 1; 2]) with 7 in X. lia.
      * eapply steps_cons; [apply (step_alloc _ _ _ (Mem 65536 (fun _ => 0) 0 [(1024, 7)]))|].
        -- apply (allocated_first 65536 (fun _ => 0) 0 1024 7); lia.
        -- eapply steps_cons; [apply step_write; [left; reflexivity|lia|reflexivity || (cbn; lia)]|constructor].
    + reflexivity.
    + vm_compute. reflexivity.
    + vm_compute. discriminate.
Qed.
(** Nor once the memory has grown: then they are gone. *)
Theorem C100_bytes_grown_refuted : exists m b p n m1 q k m2, sound m /\ len b + 5 < two32 /\ snapshot m (VVec b) p n m1 /\
  steps m1 [EAlloc q k] m2 /\ seen m1 (given m1 p (len b)) = b /\ b <> [] /\ seen m2 (given m1 p (len b)) = [].
Proof.
  exists (Mem 65536 (fun _ => 0) 0 []), [1; 2], 1024, 7. eexists. exists 65536, 7. eexists. split; [apply sound_empty; lia|]. split; [reflexivity|].
  split; [|split; [|split; [|split]]].
  - exists {| w_size := 7; w_out := [10; 0; 0; 0; 2; 1; 2] |}, (Mem 65536 (fun _ => 0) 0 [(1024, 7)]).
    split; [reflexivity|]. split; [reflexivity|]. split; [apply allocated_first; lia|reflexivity].
  - eapply steps_cons; [apply (step_alloc _ _ _ (Mem 131072 (m_byte (store (Mem 65536 (fun _ => 0) 0 [(1024, 7)]) 1024 [10; 0; 0; 0; 2; 1; 2])) 1 [(65536, 7); (1024, 7)]))|constructor].
    unfold allocated. cbn [m_len m_live m_byte m_buf store w_out]. repeat split; try lia. constructor; [|constructor]. right. cbn. lia.
  - vm_compute. reflexivity.
  - discriminate.
  - vm_compute. reflexivity.
Qed.
(** C100 does not hold for bytes a page gives back: when the memory has to grow for them, an exception is thrown. *)
Theorem C100_echo_refuted : exists m b p n m1 q k, sound m /\ val_ok (VVec b) /\ len b + 5 < two32 /\ snapshot m (VVec b) p n m1 /\
  q + k < 2147483648 /\ page_save_bytes m1 (given m1 p (len b)) q k None.
Proof.
  exists (Mem 65536 (fun _ => 0) 0 []), [1; 2], 1024, 7. eexists. exists 65536, 7. split; [apply sound_empty; lia|].
  split; [cbn; repeat split; lia|]. split; [reflexivity|]. split; [|split; [lia|]].
  - exists {| w_size := 7; w_out := [10; 0; 0; 0; 2; 1; 2] |}, (Mem 65536 (fun _ => 0) 0 [(1024, 7)]). split; [reflexivity|]. split; [reflexivity|]. split; [|reflexivity].
    apply allocated_first; lia.
  - split; [reflexivity|]. eexists (Mem 131072 _ 1 [(65536, 7); (1024, 7)]). split; [|reflexivity].
    unfold allocated. cbn [m_len m_live m_byte m_buf store]. repeat split; try lia.
    constructor; [|constructor]. right. cbn. lia.
Qed.

(** ** Examples *)

(** A memory with one block in use. *)
Definition ex_mem : mem := Mem 65536 (fun _ => 7) 0 [(2048, 16)].
Lemma ex_sound : sound ex_mem.
Proof. split; [|split]; [cbn; repeat split; constructor|cbn; lia|]. constructor; [cbn; lia|constructor]. Qed.
Lemma ex_allocated n : n <= 1024 -> allocated ex_mem n 1024 (Mem 65536 (fun _ => 7) 0 [(1024, n); (2048, 16)]).
Proof. intros H. unfold allocated, ex_mem. cbn [m_len m_live m_byte m_buf]. repeat split; try lia. constructor; [left; cbn [fst snd]; lia|constructor]. Qed.
(** Meanwhile the block in use is written, another one allocated, and the first one dropped. *)
Definition ex_events : list event := [EWrite 2048 16 2050 [1; 2; 3]; EAlloc 4096 8; EFree 2048 16].
Lemma ex_steps f n : n <= 1024 -> exists m2, steps (Mem 65536 f 0 [(1024, n); (2048, 16)]) ex_events m2 /\ m_buf m2 = 0.
Proof.
  intros H. eexists. split.
  - eapply steps_cons; [apply step_write; [right; left; reflexivity|lia|cbn; lia]|].
    eapply steps_cons; [eapply (step_alloc _ _ _ (Mem 65536 _ 0 [(4096, 8); (1024, n); (2048, 16)]))|].
    + unfold allocated. cbn [m_len m_live m_byte m_buf store]. split; [lia|]. split; [lia|]. split; [lia|].
      split; [constructor; [right; cbn [fst snd]; lia|constructor; [right; cbn [fst snd]; lia|constructor]]|]. split; [intros b a _ _; reflexivity|]. split; reflexivity.
    + eapply steps_cons; [eapply (step_free _ 2048 16 [(4096, 8); (1024, n)] []); [reflexivity|intros a _; reflexivity]|constructor].
  - reflexivity.
Qed.
Lemma ex_leaves : Forall (leaves 1024) ex_events.
Proof. repeat constructor; cbn; lia. Qed.
Definition ex_val : jsval := VList [VU32 7; VString [104; 105]; VVec [1; 2]; VTrue].
Lemma ex_good : good ex_val /\ good_js ex_val.
Proof. unfold good, good_js, ex_val, two32. cbn. unfold two32, rust_string. repeat split; try lia. intros r. discriminate. Qed.
Example C100_to_server_partial_example : exists p n m1 m2,
  sound ex_mem /\ good ex_val /\ snapshot ex_mem ex_val p n m1 /\ steps m1 ex_events m2 /\ Forall (leaves p) ex_events /\ get_value m2 p n = Some ex_val.
Proof.
  assert (X : snapshot ex_mem ex_val 1024 25 (store (Mem 65536 (fun _ => 7) 0 [(1024, 25); (2048, 16)]) 1024 (enc_val ex_val))).
  { eexists. eexists. split; [reflexivity|]. split; [reflexivity|]. split; [apply ex_allocated; cbn; lia|reflexivity]. }
  destruct (ex_steps (m_byte (store (Mem 65536 (fun _ => 7) 0 [(1024, 25); (2048, 16)]) 1024 (enc_val ex_val))) 25) as (m2 & T & _); [lia|].
  exists 1024, 25. do 2 eexists. split; [apply ex_sound|]. split; [apply ex_good|]. split; [exact X|]. split; [exact T|]. split; [apply ex_leaves|].
  apply (C100_to_server_partial ex_mem ex_val 1024 25 _ ex_events m2 ex_sound (proj1 ex_good) X T ex_leaves).
Qed.

Lemma ex_snapshot v : val_total v <= 1024 ->
  snapshot ex_mem v 1024 (val_total v) (store (Mem 65536 (fun _ => 7) 0 [(1024, val_total v); (2048, 16)]) 1024 (enc_val v)).
Proof.
  intros H. eexists. eexists. split; [apply to_snapshot_enc; unfold two32; lia|]. split; [reflexivity|]. split; [apply ex_allocated; exact H|reflexivity].
Qed.
Example C100_to_page_partial_example : exists p n m1 m2,
  sound ex_mem /\ good_js ex_val /\ snapshot ex_mem ex_val p n m1 /\ steps m1 ex_events m2 /\ Forall (leaves p) ex_events /\ p + n <= 2147483648 /\
  page_decode (fun b => b) m2 p n = ROk (SVArr [SU32 7; SVStr [104; 105]; SVBytes [1; 2]; SVBool true]).
Proof.
  pose proof (ex_snapshot ex_val) as X. change (val_total ex_val) with 25 in X. specialize (X ltac:(lia)).
  destruct (ex_steps (m_byte (store (Mem 65536 (fun _ => 7) 0 [(1024, 25); (2048, 16)]) 1024 (enc_val ex_val))) 25) as (m2 & T & _); [lia|].
  exists 1024, 25. do 2 eexists. split; [apply ex_sound|]. split; [apply ex_good|]. split; [exact X|]. split; [exact T|]. split; [apply ex_leaves|].
  split; [lia|]. exact (proj1 (C100_to_page_partial (fun b => b) ex_mem ex_val 1024 25 _ ex_events m2 ex_sound (proj2 ex_good) X T ex_leaves ltac:(lia))).
Qed.
Example C100_from_server_partial_example : exists p n m1 m2,
  sound ex_mem /\ good ex_val /\ save_value ex_mem ex_val p n m1 /\ steps m1 ex_events m2 /\ Forall (leaves p) ex_events /\ get_by_ptr m2 p n = Some ex_val.
Proof.
  assert (X : save_value ex_mem ex_val 1024 25 (store (Mem 65536 (fun _ => 7) 0 [(1024, 25); (2048, 16)]) 1024 (enc_val ex_val))).
  { eexists. eexists. split; [reflexivity|]. split; [reflexivity|]. split; [apply ex_allocated; lia|]. split; [cbn; lia|reflexivity]. }
  destruct (ex_steps (m_byte (store (Mem 65536 (fun _ => 7) 0 [(1024, 25); (2048, 16)]) 1024 (enc_val ex_val))) 25) as (m2 & T & _); [lia|].
  exists 1024, 25. do 2 eexists. split; [apply ex_sound|]. split; [apply ex_good|]. split; [exact X|]. split; [exact T|]. split; [apply ex_leaves|].
  apply (C100_from_server_partial ex_mem ex_val 1024 25 _ ex_events m2 ex_sound (proj1 ex_good) X T ex_leaves).
Qed.
Example C100_from_page_partial_example : exists p n m1 m2,
  sound ex_mem /\ good ex_val /\ page_save ex_mem (js_of_val ex_val) p n (Some m1) /\ steps m1 ex_events m2 /\ Forall (leaves p) ex_events /\
  get_by_ptr m2 p n = Some ex_val.
Proof.
  assert (X : page_save ex_mem (js_of_val ex_val) 1024 25 (Some (store (Mem 65536 (fun _ => 7) 0 [(1024, 25); (2048, 16)]) 1024 (enc_val ex_val)))).
  { unfold page_save. replace (js_save_to_buffer (js_of_val ex_val)) with (Some (Some (enc_val ex_val))) by (vm_compute; reflexivity).
    eexists. split; [reflexivity|]. split; [apply ex_allocated; lia|reflexivity]. }
  destruct (ex_steps (m_byte (store (Mem 65536 (fun _ => 7) 0 [(1024, 25); (2048, 16)]) 1024 (enc_val ex_val))) 25) as (m2 & T & _); [lia|].
  exists 1024, 25. do 2 eexists. split; [apply ex_sound|]. split; [apply ex_good|]. split; [exact X|]. split; [exact T|]. split; [apply ex_leaves|].
  apply (C100_from_page_partial ex_mem ex_val 1024 25 _ ex_events m2 ex_sound (proj1 ex_good) X T ex_leaves).
Qed.
Example C100_bytes_partial_example : exists p n m1 m2,
  sound ex_mem /\ snapshot ex_mem (VVec [1; 2; 3]) p n m1 /\ steps m1 ex_events m2 /\ Forall (leaves p) ex_events /\ m_buf m2 = m_buf m1 /\
  seen m2 (given m1 p 3) = [1; 2; 3].
Proof.
  pose proof (ex_snapshot (VVec [1; 2; 3])) as X. change (val_total (VVec [1; 2; 3])) with 8 in X. specialize (X ltac:(lia)).
  destruct (ex_steps (m_byte (store (Mem 65536 (fun _ => 7) 0 [(1024, 8); (2048, 16)]) 1024 (enc_val (VVec [1; 2; 3])))) 8) as (m2 & T & B); [lia|].
  exists 1024, 8. do 2 eexists. split; [apply ex_sound|]. split; [exact X|]. split; [exact T|]. split; [apply ex_leaves|]. split; [exact B|].
  exact (C100_bytes_partial ex_mem [1; 2; 3] 1024 8 _ ex_events m2 ex_sound eq_refl X T ex_leaves B).
Qed.
Example C100_echo_partial_example : exists p n m1 q k m2,
  sound ex_mem /\ snapshot ex_mem (VVec [1; 2; 3]) p n m1 /\ page_save_bytes m1 (given m1 p 3) q k (Some m2) /\
  get_by_ptr m2 q k = Some (VVec [1; 2; 3]).
Proof.
  pose proof (ex_snapshot (VVec [1; 2; 3])) as X. change (val_total (VVec [1; 2; 3])) with 8 in X. specialize (X ltac:(lia)).
  exists 1024, 8. eexists. exists 4096, 8. eexists. split; [apply ex_sound|]. split; [exact X|].
  match goal with |- ?A /\ ?B => assert (Y : A) end.
  { split; [reflexivity|]. exists (Mem 65536 (m_byte (store (Mem 65536 (fun _ => 7) 0 [(1024, 8); (2048, 16)]) 1024 (enc_val (VVec [1; 2; 3])))) 0 [(4096, 8); (1024, 8); (2048, 16)]).
    split; [|reflexivity]. unfold allocated. cbn [m_len m_live m_byte m_buf store]. split; [lia|]. split; [lia|]. split; [lia|].
    split; [constructor; [right; cbn [fst snd]; lia|constructor; [right; cbn [fst snd]; lia|constructor]]|]. split; [intros b a _ _; reflexivity|]. split; reflexivity. }
  split; [exact Y|].
  refine (C100_echo_partial ex_mem [1; 2; 3] 1024 8 _ 4096 8 _ [] _ ex_sound _ eq_refl X Y (steps_nil _) (Forall_nil _)). cbn. repeat split; lia.
Qed.
