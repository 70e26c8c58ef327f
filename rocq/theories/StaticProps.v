(** Properties C84 (names of static files), C85 (the files of a build are served) and C86 (caching of static files). *)
From Coq Require Import String List NArith ZArith Bool Lia PeanoNat.
From Verif Require Import CodecModel DomWire CookieModel SmallModel SmallProps StaticModel.
Import ListNotations.
Local Open Scope string_scope.
Local Open Scope list_scope.
Local Open Scope N_scope.

(** ** Specification *)

(** A content: bytes. *)
Definition octets (c : bytes) : Prop := Forall (fun b => b < 256) c.
(** Bit [i] of a content, counted from the highest bit of the first byte. *)
Definition bit (c : bytes) (i : nat) : bool := N.testbit (nth (i / 8) c 0) (N.of_nat (7 - i mod 8)).

(** ** One step of the register, bit by bit *)

Definition small (s : N) : Prop := forall n, 64 <= n -> N.testbit s n = false.

Lemma dbl_bits s n : N.testbit ((2 * s) mod two64) n = (n <? 64) && negb (n =? 0) && N.testbit s (n - 1).
Proof.
  change two64 with (2 ^ 64). destruct (N.ltb_spec n 64).
  - rewrite N.mod_pow2_bits_low by auto. destruct (N.eqb_spec n 0) as [->|]; cbn [andb negb].
    + apply N.testbit_even_0.
    + replace n with (N.succ (n - 1)) at 1 by lia. rewrite N.testbit_even_succ; [auto|lia].
  - rewrite N.mod_pow2_bits_high by auto. reflexivity.
Qed.

Lemma poly_high n : 64 <= n -> N.testbit poly n = false.
Proof. intros H. apply N.bits_above_log2. change (N.log2 poly) with 62. lia. Qed.

Lemma step_bits s n : N.testbit (bit_step s) n =
  xorb ((n <? 64) && negb (n =? 0) && N.testbit s (n - 1)) (N.testbit s 63 && N.testbit poly n).
Proof. unfold bit_step. rewrite N.lxor_spec, dbl_bits. destruct (N.testbit s 63); cbn [andb]; [auto|]. rewrite N.bits_0. auto. Qed.

Lemma step_linear a b : bit_step (N.lxor a b) = N.lxor (bit_step a) (bit_step b).
Proof.
  apply N.bits_inj. intros n. rewrite N.lxor_spec, !step_bits, !N.lxor_spec.
  destruct (n <? 64), (n =? 0), (N.testbit a (n - 1)), (N.testbit b (n - 1)), (N.testbit a 63), (N.testbit b 63), (N.testbit poly n); reflexivity.
Qed.

Lemma step_small s : small (bit_step s).
Proof.
  intros n H. rewrite step_bits, poly_high by auto. rewrite (proj2 (N.ltb_ge _ _)) by auto. rewrite andb_false_r. reflexivity.
Qed.

Lemma step_inj a b : small a -> small b -> bit_step a = bit_step b -> a = b.
Proof.
  intros A B E. assert (P : forall n, N.testbit (bit_step a) n = N.testbit (bit_step b) n) by (rewrite E; auto).
  assert (T : N.testbit a 63 = N.testbit b 63).
  { specialize (P 0). rewrite !step_bits in P. change (N.testbit poly 0) with true in P. rewrite !andb_true_r in P.
    change (0 <? 64) with true in P. change (0 =? 0) with true in P. cbn [andb negb] in P. rewrite !xorb_false_l in P. exact P. }
  apply N.bits_inj. intros n. destruct (N.lt_ge_cases n 64) as [L|G]; [|rewrite A, B; auto].
  destruct (N.eq_dec n 63) as [->|]; auto. specialize (P (n + 1)). rewrite !step_bits, T in P.
  rewrite (proj2 (N.ltb_lt (n + 1) 64)) in P by lia. rewrite (proj2 (N.eqb_neq (n + 1) 0)) in P by lia.
  rewrite N.add_sub in P. cbn [andb negb] in P. destruct (N.testbit a n), (N.testbit b n), (N.testbit b 63 && N.testbit poly (n + 1)); simpl in P; congruence.
Qed.

Lemma iter_linear n a b : Nat.iter n bit_step (N.lxor a b) = N.lxor (Nat.iter n bit_step a) (Nat.iter n bit_step b).
Proof. induction n; simpl; auto. rewrite IHn. apply step_linear. Qed.

Lemma iter_small n a : small a -> small (Nat.iter n bit_step a).
Proof. destruct n; simpl; auto using step_small. Qed.

Lemma iter_inj n a b : small a -> small b -> Nat.iter n bit_step a = Nat.iter n bit_step b -> a = b.
Proof. intros A B. induction n; simpl; auto. intros E. apply IHn. eapply step_inj; eauto using iter_small. Qed.

Lemma iter_shift n a : Nat.iter n bit_step (bit_step a) = Nat.iter (S n) bit_step a.
Proof. induction n; simpl; auto. rewrite IHn. reflexivity. Qed.

Lemma lxor_small a b : small a -> small b -> small (N.lxor a b).
Proof. intros A B n H. rewrite N.lxor_spec, A, B; auto. Qed.

Lemma lt_small a : a < two64 -> small a.
Proof.
  intros L n G. destruct (N.eq_dec a 0) as [->|]; [apply N.bits_0|]. apply N.bits_above_log2.
  apply N.log2_lt_pow2; [lia|]. apply N.lt_le_trans with (2 ^ 64); [exact L|]. apply N.pow_le_mono_r; lia.
Qed.

(** ** Feeding bits *)

Definition feed (s : N) (d : bool) : N := bit_step (N.lxor s (if d then 2 ^ 63 else 0)).

Fixpoint place (i : nat) (D : list bool) : N :=
  match D with [] => 0 | d :: t => N.lxor (if d then 2 ^ N.of_nat i else 0) (place (pred i) t) end.

Lemma lxor_swap a b c : N.lxor (N.lxor a b) c = N.lxor a (N.lxor b c).
Proof. apply N.lxor_assoc. Qed.

Lemma step_pow i : (i < 63)%nat -> bit_step (2 ^ N.of_nat i) = 2 ^ N.of_nat (S i).
Proof.
  intros L. do 63 (destruct i as [|i]; [reflexivity|]). lia.
Qed.

Lemma step_place D : forall i, (i < 63)%nat -> (length D <= S i)%nat -> bit_step (place i D) = place (S i) D.
Proof.
  induction D as [|d t IH]; intros i L H; [reflexivity|]. cbn [place length] in *. rewrite step_linear.
  replace (bit_step (if d then 2 ^ N.of_nat i else 0)) with (if d then 2 ^ N.of_nat (S i) else 0)
    by (destruct d; [symmetry; apply step_pow; auto|reflexivity]).
  f_equal. cbn [pred]. destruct i as [|i].
  - destruct t; simpl in *; [reflexivity|lia].
  - cbn [pred]. apply IH; lia.
Qed.

Lemma feed_place D : forall s, (length D <= 64)%nat -> fold_left feed D s = Nat.iter (length D) bit_step (N.lxor s (place 63 D)).
Proof.
  induction D as [|d t IH]; intros s L; cbn [fold_left length place] in *.
  - simpl. rewrite N.lxor_0_r. auto.
  - rewrite IH by lia. cbn [pred]. rewrite <- (step_place t 62) by lia. unfold feed. rewrite <- step_linear, iter_shift.
    rewrite N.lxor_assoc. reflexivity.
Qed.

Lemma place_high D : forall i n, (i < n)%nat -> N.testbit (place i D) (N.of_nat n) = false.
Proof.
  induction D as [|d t IH]; intros i n L; cbn [place]; [apply N.bits_0|]. rewrite N.lxor_spec, IH by lia.
  rewrite xorb_false_r. destruct d; [|apply N.bits_0]. apply N.pow2_bits_false. lia.
Qed.

Lemma place_small D i : (i < 64)%nat -> small (place i D).
Proof. intros L n G. rewrite <- (N2Nat.id n). apply place_high. lia. Qed.

Lemma place_inj D : forall D' i, length D = length D' -> (length D <= S i)%nat -> place i D = place i D' -> D = D'.
Proof.
  induction D as [|d t IH]; intros [|d' t'] i E L P; try discriminate; auto. cbn [place length] in *.
  assert (H : forall X, (length X <= i)%nat -> N.testbit (place (pred i) X) (N.of_nat i) = false).
  { intros X LX. destruct i as [|i]; [destruct X; simpl in LX; [reflexivity|lia]|]. apply place_high. simpl. lia. }
  assert (D1 : d = d').
  { apply (f_equal (fun x => N.testbit x (N.of_nat i))) in P. rewrite !N.lxor_spec, !H in P by lia. rewrite !xorb_false_r in P.
    destruct d, d'; auto; rewrite ?N.pow2_bits_true, ?N.bits_0 in P; discriminate. }
  subst d'. f_equal. destruct i as [|i]; [destruct t, t'; simpl in *; auto; lia|]. apply (IH _ i); try lia. cbn [pred] in P.
  apply (f_equal (N.lxor (if d then 2 ^ N.of_nat (S i) else 0))) in P. rewrite <- !N.lxor_assoc, !N.lxor_nilpotent, !N.lxor_0_l in P. auto.
Qed.

Lemma feed_small s d : small (feed s d).
Proof. apply step_small. Qed.

Lemma feed_inj s s' d : small s -> small s' -> feed s d = feed s' d -> s = s'.
Proof.
  intros A B E. assert (P : small (if d then 2 ^ 63 else 0)) by (destruct d; apply lt_small; reflexivity).
  apply step_inj in E; auto using lxor_small.
  apply (f_equal (fun x => N.lxor x (if d then 2 ^ 63 else 0))) in E. rewrite !N.lxor_assoc, !N.lxor_nilpotent, !N.lxor_0_r in E. auto.
Qed.

Lemma feeds_small D : forall s, small s -> small (fold_left feed D s).
Proof. induction D; simpl; auto using feed_small. Qed.

Lemma feeds_inj D : forall s s', small s -> small s' -> fold_left feed D s = fold_left feed D s' -> s = s'.
Proof.
  induction D as [|d t IH]; simpl; auto. intros s s' A B E. apply IH in E; auto using feed_small. eapply feed_inj; eauto.
Qed.

(** ** A byte is eight bits *)

Definition bits (b : N) : list bool := map (N.testbit b) [7; 6; 5; 4; 3; 2; 1; 0].

Lemma iter_mul n : forall v, v < 2 ^ (64 - N.of_nat n) -> (n <= 64)%nat -> Nat.iter n bit_step v = v * 2 ^ N.of_nat n.
Proof.
  induction n as [|n IH]; intros v L H.
  - simpl. lia.
  - rewrite <- iter_shift.
    assert (V : v < 2 ^ 63). { apply N.lt_le_trans with (1 := L). apply N.pow_le_mono_r; lia. }
    assert (E : bit_step v = 2 * v).
    { unfold bit_step. rewrite N.mod_small by (change two64 with (2 * 2 ^ 63); lia).
      replace (N.testbit v 63) with false; [apply N.lxor_0_r|]. symmetry. destruct (N.eq_dec v 0) as [->|]; [apply N.bits_0|].
      apply N.bits_above_log2. apply N.log2_lt_pow2; lia. }
    rewrite E, IH; try lia.
    + rewrite Nat2N.inj_succ, N.pow_succ_r'. lia.
    + replace (64 - N.of_nat n) with (N.succ (64 - N.of_nat (S n))) by lia. rewrite N.pow_succ_r'. lia.
Qed.

Lemma small_lt s : small s -> s < two64.
Proof.
  intros S1. destruct (N.lt_ge_cases s two64) as [|G]; auto. exfalso.
  assert (Z : s <> 0) by (unfold two64 in G; lia).
  assert (L : 64 <= N.log2 s) by (apply N.log2_le_pow2; [lia|exact G]).
  apply S1 in L. rewrite N.bit_log2 in L by auto. discriminate.
Qed.

Lemma byte_bits_high b n : b < 256 -> 8 <= n -> N.testbit b n = false.
Proof.
  intros L G. destruct (N.eq_dec b 0) as [->|]; [apply N.bits_0|]. apply N.bits_above_log2.
  apply N.log2_lt_pow2; [lia|]. apply N.lt_le_trans with (2 ^ 8); [exact L|]. apply N.pow_le_mono_r; lia.
Qed.

Lemma bits_place b : b < 256 -> place 63 (bits b) = N.shiftl b 56.
Proof.
  intros L. assert (A : forallb (fun i => place 63 (bits (N.of_nat i)) =? N.shiftl (N.of_nat i) 56) (seq 0 256) = true) by (vm_compute; reflexivity).
  rewrite forallb_forall in A. specialize (A (N.to_nat b)). rewrite N2Nat.id in A. apply N.eqb_eq, A, in_seq. lia.
Qed.

Lemma byte_feed s b : small s -> b < 256 -> crc_byte s b = fold_left feed (bits b) s.
Proof.
  intros S1 B. rewrite feed_place by (simpl; lia). rewrite bits_place by auto. change (length (bits b)) with 8%nat.
  pose proof (small_lt s S1) as SL. unfold crc_byte, table.
  assert (X : N.land (N.lxor (N.shiftr s 56) b) 255 = N.lxor (N.shiftr s 56) b).
  { change 255 with (N.ones 8). rewrite N.land_ones. apply N.mod_small.
    destruct (N.lt_ge_cases (N.lxor (N.shiftr s 56) b) (2 ^ 8)) as [|G]; auto. exfalso.
    set (x := N.lxor (N.shiftr s 56) b) in *. assert (Z : x <> 0) by (intros E; rewrite E in G; vm_compute in G; congruence).
    assert (Q : 8 <= N.log2 x) by (apply N.log2_le_pow2; [lia|exact G]). pose proof (N.bit_log2 x Z) as T. unfold x in T at 1.
    rewrite N.lxor_spec, N.shiftr_spec' in T. rewrite S1 in T by (unfold x in *; lia). rewrite byte_bits_high in T by auto. discriminate. }
  rewrite X.
  assert (LO : (256 * s) mod two64 = Nat.iter 8 bit_step (s mod 2 ^ 56)).
  { rewrite iter_mul by (try lia; apply N.mod_lt; discriminate). change two64 with (256 * 2 ^ 56).
    rewrite N.mul_mod_distr_l by discriminate. change (2 ^ N.of_nat 8) with 256. lia. }
  rewrite LO, <- iter_linear. f_equal. apply N.bits_inj. intros n. rewrite !N.lxor_spec.
  destruct (N.lt_ge_cases n 56).
  - rewrite N.mod_pow2_bits_low by auto. rewrite !N.shiftl_spec_low by auto. destruct (N.testbit s n); reflexivity.
  - rewrite N.mod_pow2_bits_high by auto. rewrite !N.shiftl_spec_high' by auto. rewrite N.lxor_spec, N.shiftr_spec'.
    replace (n - 56 + 56) with n by lia. rewrite xorb_false_r. reflexivity.
Qed.

Lemma fold_cons {A B} (f : A -> B -> A) x l s : fold_left f (x :: l) s = fold_left f l (f s x).
Proof. reflexivity. Qed.
Lemma flat_cons {A B} (f : A -> list B) x l : flat_map f (x :: l) = f x ++ flat_map f l.
Proof. reflexivity. Qed.
Lemma bytes_feed c : forall s, octets c -> small s -> fold_left crc_byte c s = fold_left feed (flat_map bits c) s.
Proof.
  induction c as [|b c IH]; intros s O S1; [reflexivity|]. inversion O; subst.
  rewrite fold_cons, flat_cons, fold_left_app, byte_feed by assumption. apply IH; [assumption|]. apply feeds_small. assumption.
Qed.

Lemma small_0 : small 0.
Proof. intros n _. apply N.bits_0. Qed.

Lemma crc_feed c : octets c -> crc c = fold_left feed (flat_map bits c) 0.
Proof. intros O. apply bytes_feed; auto using small_0. Qed.

Lemma crc_small c : octets c -> small (crc c).
Proof. intros O. rewrite crc_feed by auto. apply feeds_small, small_0. Qed.

(** ** The text of the hash *)

Ltac Zify.zify_post_hook ::= Z.div_mod_to_equations.

Lemma sextet_inj a b : a < 64 -> b < 64 -> sextet a = sextet b -> a = b.
Proof.
  unfold sextet. intros A B.
  destruct (N.ltb_spec a 26), (N.ltb_spec b 26); try lia; destruct (N.ltb_spec a 52), (N.ltb_spec b 52); try lia;
  destruct (N.ltb_spec a 62), (N.ltb_spec b 62); try lia; destruct (N.eqb_spec a 62), (N.eqb_spec b 62); lia.
Qed.

(** Letters, digits, "-" and "_". *)
Definition plain_char (c : N) : Prop := 48 <= c <= 57 \/ 65 <= c <= 90 \/ 97 <= c <= 122 \/ c = 45 \/ c = 95.

Lemma sextet_plain v : v < 64 -> plain_char (sextet v).
Proof.
  unfold sextet, plain_char. intros L. destruct (N.ltb_spec v 26); [lia|]. destruct (N.ltb_spec v 52); [lia|].
  destruct (N.ltb_spec v 62); [lia|]. destruct (N.eqb_spec v 62); lia.
Qed.

Lemma list_ind3 {A} (P : list A -> Prop) : P [] -> (forall a, P [a]) -> (forall a b, P [a; b]) ->
  (forall a b c t, P t -> P (a :: b :: c :: t)) -> forall l, P l.
Proof.
  intros P0 P1 P2 P3. assert (H : forall n l, (length l <= n)%nat -> P l).
  { induction n; intros [|a [|b [|c t]]] L; simpl in L; auto; try lia. apply P3, IHn. lia. }
  intros l. apply (H (length l)). auto.
Qed.

Lemma base64_inj d : forall e, octets d -> octets e -> length d = length e -> base64 d = base64 e -> d = e.
Proof.
  induction d as [|a|a b|a b c t IH] using list_ind3; intros e O O' L E.
  - destruct e; [auto|discriminate].
  - destruct e as [|a' [|]]; try discriminate. inversion O; inversion O'; subst. injection E as E1 E2.
    apply sextet_inj in E1; [|lia|lia]. apply sextet_inj in E2; [|lia|lia]. f_equal; lia.
  - destruct e as [|a' [|b' [|]]]; try discriminate. inversion O as [|? ? O1 O2]; inversion O' as [|? ? O3 O4]; inversion O2; inversion O4; subst.
    injection E as E1 E2 E3. apply sextet_inj in E1; [|lia|lia]. apply sextet_inj in E2; [|lia|lia]. apply sextet_inj in E3; [|lia|lia].
    assert (a = a') by lia. assert (b = b') by lia. congruence.
  - destruct e as [|a' [|b' [|c' t']]]; try discriminate.
    inversion O as [|? ? O1 O2]; inversion O' as [|? ? O3 O4]; inversion O2 as [|? ? ? O5]; inversion O4 as [|? ? ? O6]; inversion O5; inversion O6; subst.
    cbn [base64 app] in E. injection E as E1 E2 E3 E4 E5. apply sextet_inj in E1; [|lia|lia]. apply sextet_inj in E2; [|lia|lia].
    apply sextet_inj in E3; [|lia|lia]. apply sextet_inj in E4; [|lia|lia].
    assert (a = a') by lia. assert (b = b') by lia. assert (c = c') by lia. subst. do 3 f_equal. apply IH; auto. cbn [length] in L. lia.
Qed.

Lemma base64_plain d : octets d -> Forall plain_char (base64 d).
Proof.
  induction d as [|a|a b|a b c t IH] using list_ind3; intros O; cbn [base64 app].
  - constructor.
  - inversion O; subst. repeat (constructor; [apply sextet_plain; lia|]). constructor.
  - inversion O as [|? ? ? O2]; inversion O2; subst. repeat (constructor; [apply sextet_plain; lia|]). constructor.
  - inversion O as [|? ? ? O2]; inversion O2 as [|? ? ? O3]; inversion O3; subst.
    repeat (constructor; [apply sextet_plain; lia|]). auto.
Qed.

Lemma be_octets x : octets (be_bytes x).
Proof.
  unfold octets, be_bytes. apply Forall_forall. intros b I. apply in_map_iff in I. destruct I as (i & <- & _).
  change 255 with (N.ones 8). rewrite N.land_ones. change (2 ^ 8) with 256. apply N.mod_lt. discriminate.
Qed.

Lemma be_inj x y : small x -> small y -> be_bytes x = be_bytes y -> x = y.
Proof.
  intros X Y E. apply N.bits_inj. intros n. destruct (N.lt_ge_cases n 64) as [L|G]; [|rewrite X, Y; auto].
  assert (B : forall i, In i [7; 6; 5; 4; 3; 2; 1; 0] -> N.land (N.shiftr x (8 * i)) 255 = N.land (N.shiftr y (8 * i)) 255).
  { intros i I. unfold be_bytes in E. revert I. set (l := [7; 6; 5; 4; 3; 2; 1; 0]) in *. clearbody l. induction l as [|j l IH]; [intros []|].
    cbn [map] in E. injection E as E1 E2. intros [<-|I]; auto. }
  specialize (B (n / 8)). assert (I : In (n / 8) [7; 6; 5; 4; 3; 2; 1; 0]). { assert (n / 8 < 8) by lia. cbn [In]. lia. }
  apply B in I. apply (f_equal (fun v => N.testbit v (n mod 8))) in I. change 255 with (N.ones 8) in I.
  rewrite !N.land_spec, !N.shiftr_spec', !N.ones_spec_low, !andb_true_r in I by lia.
  replace (n mod 8 + 8 * (n / 8)) with n in I by lia. exact I.
Qed.

Lemma hash_inj c c' : octets c -> octets c' -> get_hash c = get_hash c' -> crc c = crc c'.
Proof.
  intros O O' E. apply be_inj; auto using crc_small. apply base64_inj; auto using be_octets.
Qed.

Lemma hash_plain c : Forall plain_char (get_hash c).
Proof. apply base64_plain, be_octets. Qed.

Lemma hash_no_dot c : ~ In 46 (get_hash c).
Proof. intros I. pose proof (hash_plain c) as H. rewrite Forall_forall in H. apply H in I. unfold plain_char in I. lia. Qed.

(** ** C84: the names *)

Lemma last_dot_none n : last_dot n = None <-> ~ In 46 n.
Proof.
  induction n as [|c t IH]; cbn [last_dot In]; [tauto|]. destruct (last_dot t) as [[a b]|].
  - split; [discriminate|]. intros H. exfalso. apply H. right. destruct (in_dec N.eq_dec 46 t) as [I|I]; auto. apply IH in I. discriminate.
  - destruct (N.eqb_spec c 46); split; try discriminate; try tauto.
Qed.

Lemma last_dot_split n a b : last_dot n = Some (a, b) <-> n = a ++ 46 :: b /\ ~ In 46 b.
Proof.
  revert a. induction n as [|c t IH]; intros a; cbn [last_dot].
  - split; [discriminate|]. intros [E _]. destruct a; discriminate.
  - destruct (last_dot t) as [[a' b']|] eqn:D.
    + split.
      * intros [= <- ->]. destruct (proj1 (IH a') eq_refl) as [-> ?]. auto.
      * intros [E NI]. destruct a as [|c0 a]; cbn [app] in E; injection E as -> E.
        -- exfalso. apply last_dot_none in NI. subst. congruence.
        -- assert (X : Some (a', b') = Some (a, b)) by (apply IH; auto). congruence.
    + apply last_dot_none in D. destruct (N.eqb_spec c 46) as [->|N1].
      * split; [intros [= <- ->]; auto|]. intros [E NI]. destruct a as [|c0 a]; cbn [app] in E; inversion E; subst; [congruence|].
        destruct D. apply in_or_app. right. left. auto.
      * split; [discriminate|]. intros [E NI]. destruct a as [|c0 a]; cbn [app] in E; inversion E; subst; [congruence|].
        destruct D. apply in_or_app. right. left. auto.
Qed.

Lemma stem_ext_split n s e : stem_ext n = Some (s, e) -> n = s ++ 46 :: e /\ ~ In 46 e /\ s <> [].
Proof.
  unfold stem_ext. destruct (last_dot n) as [[[|a a'] b]|] eqn:D; try discriminate. intros [= <- <-]. apply last_dot_split in D.
  destruct D. repeat split; auto. discriminate.
Qed.

Lemma some_inj {A} (a b : A) : Some a = Some b -> a = b.
Proof. congruence. Qed.
Lemma pair_inj {A B} (a a' : A) (b b' : B) : Some (a, b) = Some (a', b') -> a = a' /\ b = b'.
Proof. intros H. injection H. auto. Qed.

Local Opaque get_hash.
Lemma hashed_inj n c n' c' h : hashed_name n c = Some h -> hashed_name n' c' = Some h -> n = n' /\ get_hash c = get_hash c'.
Proof.
  unfold hashed_name. destruct (stem_ext n) as [[s e]|] eqn:E; [|discriminate]. destruct (stem_ext n') as [[s' e']|] eqn:E'; [|discriminate].
  apply stem_ext_split in E, E'. destruct E as (-> & NI & _), E' as (-> & NI' & _). intros H1 H2. apply some_inj in H1, H2. subst h. rename H2 into H. cbn [app] in H.
  assert (L : last_dot (s ++ 46 :: get_hash c ++ 46 :: e) = Some (s ++ 46 :: get_hash c, e)).
  { apply last_dot_split. rewrite <- app_assoc. auto. }
  assert (L' : last_dot (s ++ 46 :: get_hash c ++ 46 :: e) = Some (s' ++ 46 :: get_hash c', e')).
  { apply last_dot_split. rewrite <- app_assoc. split; [symmetry; exact H|auto]. }
  rewrite L in L'. apply pair_inj in L'. destruct L' as [X <-].
  assert (M : last_dot (s ++ 46 :: get_hash c) = Some (s, get_hash c)) by (apply last_dot_split; auto using hash_no_dot).
  assert (M' : last_dot (s ++ 46 :: get_hash c) = Some (s', get_hash c')) by (apply last_dot_split; auto using hash_no_dot).
  rewrite M in M'. apply pair_inj in M'. destruct M' as [<- ?]. auto.
Qed.

(** Files of different names never share one: what a file is saved as tells its name, and the hash of its content. *)
Theorem C84_names : forall n c n' c' h, octets c -> octets c' -> hashed_name n c = Some h -> hashed_name n' c' = Some h ->
  n = n' /\ crc c = crc c'.
Proof. intros n c n' c' h O O' E E'. destruct (hashed_inj _ _ _ _ _ E E'). auto using hash_inj. Qed.

Lemma bits_nth c : forall i, (i < 8 * length c)%nat -> nth i (flat_map bits c) false = bit c i.
Proof.
  induction c as [|b c IH]; intros i L; cbn [length] in L; [lia|]. rewrite flat_cons. destruct (Nat.lt_ge_cases i 8) as [G|G].
  - rewrite app_nth1 by (simpl; lia). unfold bit. do 8 (destruct i as [|i]; [reflexivity|]). lia.
  - rewrite app_nth2 by (simpl; lia). change (length (bits b)) with 8%nat. rewrite IH by lia. unfold bit.
    replace i with (i - 8 + 1 * 8)%nat at 3 4 by lia. rewrite Nat.div_add, Nat.mod_add by lia. rewrite Nat.add_1_r. reflexivity.
Qed.

Lemma bits_length c : length (flat_map bits c) = (8 * length c)%nat.
Proof. induction c as [|b c IH]; auto. rewrite flat_cons, app_length, IH. simpl. lia. Qed.

Lemma bits_inj c c' : octets c -> octets c' -> length c = length c' -> (forall i, bit c i = bit c' i) -> c = c'.
Proof.
  intros O O' L E. apply nth_ext with (d := 0) (d' := 0); auto. intros k LK. apply N.bits_inj. intros n.
  assert (Q : forall c, octets c -> nth k c 0 < 256).
  { intros x X. destruct (nth_in_or_default k x 0) as [I|I]; [|rewrite I; lia]. unfold octets in X. rewrite Forall_forall in X. auto. }
  destruct (N.lt_ge_cases n 8) as [G|G]; [|rewrite !byte_bits_high; auto].
  specialize (E (k * 8 + (7 - N.to_nat n))%nat). unfold bit in E.
  replace ((k * 8 + (7 - N.to_nat n)) / 8)%nat with k in E by lia.
  replace (N.of_nat (7 - (k * 8 + (7 - N.to_nat n)) mod 8)) with n in E by lia. exact E.
Qed.

Lemma nth_firstn {A} (d : A) n : forall l i, (i < n)%nat -> nth i (firstn n l) d = nth i l d.
Proof. induction n; intros [|x l] i L; try lia; auto. destruct i; simpl; auto. apply IHn. lia. Qed.
Lemma nth_skipn {A} (d : A) n : forall l i, nth i (skipn n l) d = nth (n + i) l d.
Proof. induction n; intros [|x l] i; simpl; auto. destruct i; auto. Qed.

(** A file whose content changes only within some 64 neighbouring bits gets a new name. *)
Theorem C84_changes_partial : forall n c c' k h h', octets c -> octets c' -> length c = length c' -> c <> c' ->
  (forall i, bit c i <> bit c' i -> (k <= i < k + 64)%nat) ->
  hashed_name n c = Some h -> hashed_name n c' = Some h' -> h <> h'.
Proof.
  intros n c c' k h h' O O' L NE W E E' X. subst h'. destruct (C84_names _ _ _ _ _ O O' E E') as [_ H]. clear E E'.
  rewrite !crc_feed in H by auto. set (l := flat_map bits c) in *. set (l' := flat_map bits c') in *.
  assert (LL : length l = length l') by (unfold l, l'; rewrite !bits_length, L; auto).
  assert (B : forall i, (i < k \/ k + 64 <= i)%nat -> nth i l false = nth i l' false).
  { intros i I. destruct (Nat.lt_ge_cases i (length l)) as [G|G].
    - unfold l, l' in *. rewrite !bits_nth by (rewrite ?bits_length in *; lia).
      destruct (bool_dec (bit c i) (bit c' i)) as [|D]; auto. apply W in D. lia.
    - rewrite !nth_overflow by lia. auto. }
  assert (U : firstn k l = firstn k l').
  { apply nth_ext with (d := false) (d' := false); [rewrite !firstn_length; lia|]. intros i I. rewrite firstn_length in I.
    rewrite !nth_firstn by lia. apply B. lia. }
  assert (V : skipn 64 (skipn k l) = skipn 64 (skipn k l')).
  { apply nth_ext with (d := false) (d' := false); [rewrite !skipn_length; lia|]. intros i I.
    rewrite !nth_skipn. apply B. lia. }
  assert (S1 : forall x : list bool, x = firstn k x ++ firstn 64 (skipn k x) ++ skipn 64 (skipn k x)) by (intros x; rewrite !firstn_skipn; auto).
  assert (D : firstn 64 (skipn k l) <> firstn 64 (skipn k l')).
  { intros D. apply NE. apply bits_inj; auto. intros i. destruct (Nat.lt_ge_cases i (8 * length c)) as [G|G].
    - rewrite <- !bits_nth by lia. fold l l'. rewrite (S1 l), (S1 l'), U, D, V. auto.
    - unfold bit. rewrite !nth_overflow by lia. auto. }
  rewrite (S1 l), (S1 l'), !fold_left_app, U, V in H.
  apply feeds_inj in H; [|apply feeds_small, feeds_small, small_0..].
  rewrite (feed_place (firstn 64 (skipn k l))), (feed_place (firstn 64 (skipn k l'))) in H by (rewrite firstn_length; lia).
  assert (EL : length (firstn 64 (skipn k l)) = length (firstn 64 (skipn k l'))) by (rewrite !firstn_length, !skipn_length; lia).
  rewrite EL in H. assert (SP : forall X, small (N.lxor (fold_left feed (firstn k l') 0) (place 63 X))).
  { intros X. apply lxor_small; [apply feeds_small, small_0|apply place_small; lia]. }
  apply iter_inj in H; auto.
  apply (f_equal (N.lxor (fold_left feed (firstn k l') 0))) in H. rewrite <- !N.lxor_assoc, !N.lxor_nilpotent, !N.lxor_0_l in H.
  apply place_inj in H; auto. rewrite firstn_length. lia.
Qed.

Lemma land_linear a b m : N.land (N.lxor a b) m = N.lxor (N.land a m) (N.land b m).
Proof. apply N.bits_inj. intros n. rewrite !N.lxor_spec, !N.land_spec, N.lxor_spec. destruct (N.testbit a n), (N.testbit b n), (N.testbit m n); auto. Qed.

Lemma lxor_four a b c d : N.lxor (N.lxor a b) (N.lxor c d) = N.lxor (N.lxor a c) (N.lxor b d).
Proof.
  apply N.bits_inj. intros n. rewrite !N.lxor_spec.
  destruct (N.testbit a n), (N.testbit b n), (N.testbit c n), (N.testbit d n); reflexivity.
Qed.

Lemma byte_linear s s' b b' : crc_byte (N.lxor s s') (N.lxor b b') = N.lxor (crc_byte s b) (crc_byte s' b').
Proof.
  unfold crc_byte, table.
  assert (M : forall x, (256 * x) mod two64 = N.land (N.shiftl x 8) (N.ones 64)).
  { intros x. rewrite N.land_ones, N.shiftl_mul_pow2. change (2 ^ 8) with 256. rewrite N.mul_comm. reflexivity. }
  assert (L : N.land (N.lxor (N.shiftr (N.lxor s s') 56) (N.lxor b b')) 255 =
    N.lxor (N.land (N.lxor (N.shiftr s 56) b) 255) (N.land (N.lxor (N.shiftr s' 56) b') 255)).
  { rewrite <- land_linear. f_equal. rewrite N.shiftr_lxor. apply lxor_four. }
  rewrite L, N.shiftl_lxor, iter_linear, !M, N.shiftl_lxor, (land_linear (N.shiftl s 8)). apply lxor_four.
Qed.

Definition xor_bytes (c e : bytes) : bytes := map (fun p => N.lxor (fst p) (snd p)) (combine c e).

Lemma crc_linear c : forall e s s', length c = length e ->
  fold_left crc_byte (xor_bytes c e) (N.lxor s s') = N.lxor (fold_left crc_byte c s) (fold_left crc_byte e s').
Proof.
  induction c as [|b c IH]; intros [|b' e] s s' L; try discriminate; [reflexivity|]. unfold xor_bytes in *. cbn [combine map fst snd].
  rewrite !fold_cons, byte_linear. apply IH. injection L as L. exact L.
Qed.

(** The polynomial itself, as nine bytes. *)
Definition pattern : bytes := [0x01; 0x42; 0xf0; 0xe1; 0xeb; 0xa9; 0xea; 0x36; 0x93].

Lemma pattern_zero : crc pattern = 0.
Proof. vm_compute. reflexivity. Qed.

Lemma lxor_octet a b : a < 256 -> b < 256 -> N.lxor a b < 256.
Proof.
  intros A B. destruct (N.lt_ge_cases (N.lxor a b) 256) as [|G]; auto. exfalso.
  assert (Z : N.lxor a b <> 0) by lia.
  assert (Q : 8 <= N.log2 (N.lxor a b)) by (apply N.log2_le_pow2; [lia|exact G]). pose proof (N.bit_log2 _ Z) as T.
  rewrite N.lxor_spec, !byte_bits_high in T by auto. discriminate.
Qed.

(** Every file of nine bytes or more has another one, of the same length, that is saved under the same name. *)
Theorem C84_collision_refuted : forall c, octets c -> (9 <= length c)%nat ->
  exists c', octets c' /\ length c' = length c /\ c' <> c /\ forall n, hashed_name n c' = hashed_name n c.
Proof.
  intros c O L. exists (xor_bytes (firstn 9 c) pattern ++ skipn 9 c). rewrite <- (firstn_skipn 9 c) in O. apply Forall_app in O. destruct O as [O1 O2].
  destruct c as [|c0 [|c1 [|c2 [|c3 [|c4 [|c5 [|c6 [|c7 [|c8 c]]]]]]]]]; cbn [length] in L; try lia. cbn [firstn skipn] in *.
  split; [|split; [|split]].
  - apply Forall_app. split; auto. unfold xor_bytes. cbn [combine map fst snd pattern].
    repeat match goal with H : Forall _ (_ :: _) |- _ => inversion H; clear H; subst end.
    repeat (constructor; [apply lxor_octet; [assumption|reflexivity]|]). constructor.
  - reflexivity.
  - unfold xor_bytes. cbn [combine map fst snd pattern app]. intros E.
    assert (E0 : N.lxor c0 1 = c0) by congruence.
    apply (f_equal (N.lxor c0)) in E0. rewrite <- N.lxor_assoc, N.lxor_nilpotent in E0. discriminate.
  - intros n. assert (E : crc (xor_bytes [c0; c1; c2; c3; c4; c5; c6; c7; c8] pattern ++ c) = crc ([c0; c1; c2; c3; c4; c5; c6; c7; c8] ++ c)).
    { unfold crc. rewrite !fold_left_app. f_equal. pose proof (crc_linear [c0; c1; c2; c3; c4; c5; c6; c7; c8] pattern 0 0 eq_refl) as H.
      change (N.lxor 0 0) with 0 in H. rewrite H. fold (crc pattern). rewrite pattern_zero. apply N.lxor_0_r. }
    change (c0 :: c1 :: c2 :: c3 :: c4 :: c5 :: c6 :: c7 :: c8 :: c) with ([c0; c1; c2; c3; c4; c5; c6; c7; c8] ++ c).
    unfold hashed_name. replace (get_hash (xor_bytes [c0; c1; c2; c3; c4; c5; c6; c7; c8] pattern ++ c))
      with (get_hash ([c0; c1; c2; c3; c4; c5; c6; c7; c8] ++ c)); [reflexivity|]. Local Transparent get_hash. unfold get_hash. Local Opaque get_hash. rewrite E. reflexivity.
Qed.

(** Zero bytes put before a content leave its name unchanged. *)
Theorem C84_zeros_refuted : forall n c k, hashed_name n (repeat 0 k ++ c) = hashed_name n c.
Proof.
  intros n c k. assert (E : crc (repeat 0 k ++ c) = crc c).
  { unfold crc. rewrite fold_left_app. f_equal. induction k; [reflexivity|]. cbn [repeat]. rewrite fold_cons. change (crc_byte 0 0) with 0. exact IHk. }
  unfold hashed_name. replace (get_hash (repeat 0 k ++ c)) with (get_hash c); [reflexivity|].
  Local Transparent get_hash. unfold get_hash. Local Opaque get_hash. rewrite E. reflexivity.
Qed.

(** The check value of the algorithm (a test), and a change of two letters. *)
Example C84_example : crc (str "123456789") = 0x6c40df5f0b497347 /\
  hashed_name (str "style.css") (str "a { color: red }") = Some (str "style.LQXYwyFSjnw.css") /\
  hashed_name (str "style.css") (str "a { color: tan }") <> hashed_name (str "style.css") (str "a { color: red }") /\
  (forall i, bit (str "a { color: red }") i <> bit (str "a { color: tan }") i -> (88 <= i < 88 + 64)%nat).
Proof.
  split; [vm_compute; reflexivity|]. split; [vm_compute; reflexivity|]. split; [vm_compute; discriminate|].
  intros i D. destruct (Nat.lt_ge_cases i 128) as [G|G].
  - assert (A : forallb (fun i => Bool.eqb (bit (str "a { color: red }") i) (bit (str "a { color: tan }") i) || (Nat.leb 88 i && Nat.ltb i 152)) (seq 0 128) = true) by (vm_compute; reflexivity).
    rewrite forallb_forall in A. specialize (A i). rewrite in_seq in A. specialize (A ltac:(lia)).
    apply orb_true_iff in A. destruct A as [A|A]; [apply Bool.eqb_prop in A; contradiction|].
    apply andb_true_iff in A. destruct A as [A1 A2]. apply Nat.leb_le in A1. apply Nat.ltb_lt in A2. lia.
  - exfalso. apply D. unfold bit. rewrite !nth_overflow; [reflexivity|..]; change (length (str "a { color: red }")) with 16%nat;
      change (length (str "a { color: tan }")) with 16%nat; lia.
Qed.
