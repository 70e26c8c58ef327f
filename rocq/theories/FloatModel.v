(** Conversions between integers and f64 (IEEE 754 binary64), as done by the Rust operator [as]
    (/repo/crates/vertigo/src/driver_module/js_value/serialize.rs:80-150).  An f64 is its 64-bit pattern. *)

From Coq Require Import NArith ZArith Bool Lia.

Local Open Scope N_scope.

(** IEEE 754 binary64: 2^52, the unit of the exponent field. *)
Definition p52 : N := 4503599627370496.
(** 2^53, the first integer with a successor that is not an f64. *)
Definition p53 : N := 9007199254740992.
(** 2^63, the sign bit. *)
Definition p63 : N := 9223372036854775808.
(** 2^64, the number of patterns. *)
Definition p64 : N := 18446744073709551616.

(** Rust reference, "Numeric cast": integer to float rounds to nearest, ties to even.  [n < 2^64]. *)
Definition f64_of_N (n : N) : N :=
  if n =? 0 then 0
  else
    let k := N.log2 n in
    if k <=? 52 then (k + 1023) * p52 + (n * 2 ^ (52 - k) - p52)
    else
      let s := k - 52 in
      let q := n / 2 ^ s in
      let r := n mod 2 ^ s in
      let half := 2 ^ (s - 1) in
      let up := (half <? r) || ((half =? r) && N.odd q) in
      (k + 1023) * p52 + ((if up then q + 1 else q) - p52).

(** The same for signed integers. *)
Definition f64_of_Z (z : Z) : N :=
  if (z <? 0)%Z then p63 + f64_of_N (Z.to_N (- z)) else f64_of_N (Z.to_N z).

(** What an f64 is, truncated towards zero. *)
Inductive ftrunc := FNan | FInf (neg : bool) | FInt (neg : bool) (mag : N).

(** IEEE 754 binary64: what a pattern is, truncated towards zero (serialize.rs:80-150 casts with [as]). *)
Definition f64_trunc (bits : N) : ftrunc :=
  let neg := p63 <=? bits in
  let e := (bits / p52) mod 2048 in
  let m := bits mod p52 in
  if e =? 2047 then (if m =? 0 then FInf neg else FNan)
  else if e <? 1023 then FInt neg 0
  else
    let k := e - 1023 in
    FInt neg (if k <=? 52 then (p52 + m) / 2 ^ (52 - k) else (p52 + m) * 2 ^ (k - 52)).

(** Rust reference, "Numeric cast": float to integer rounds towards zero, saturates, NaN is 0. *)
Definition f64_to_N (max bits : N) : N :=
  match f64_trunc bits with
  | FNan => 0
  | FInf neg => if neg then 0 else max
  | FInt neg m => if neg then 0 else N.min m max
  end.

(** Rust reference, "Numeric cast": a float to a signed integer of the range saturates; NaN is 0. *)
Definition f64_to_Z (lo hi : Z) (bits : N) : Z :=
  match f64_trunc bits with
  | FNan => 0%Z
  | FInf neg => if neg then lo else hi
  | FInt neg m => if neg then Z.max lo (- Z.of_N m) else Z.min (Z.of_N m) hi
  end.

(** Known bit patterns: 1.0, 3.0, -2.0, 2^53 + 1 (tie, to even), 2^53 + 3, u64::MAX, i64::MIN; and back from
    3.5, -1.5, 1e300, NaN, infinity. *)
Example f64_known :
  f64_of_N 1 = 0x3FF0000000000000 /\ f64_of_N 3 = 0x4008000000000000 /\ f64_of_Z (-2) = 0xC000000000000000 /\
  f64_of_N (p53 + 1) = 0x4340000000000000 /\ f64_of_N (p53 + 3) = 0x4340000000000002 /\
  f64_of_N (p64 - 1) = 0x43F0000000000000 /\ f64_of_Z (- 9223372036854775808) = 0xC3E0000000000000 /\
  f64_to_N (p64 - 1) 0x400C000000000000 = 3 /\ f64_to_Z (-2147483648) 2147483647 0xBFF8000000000000 = (-1)%Z /\
  f64_to_N 4294967295 0x7E37E43C8800759C = 4294967295 /\ f64_to_N 4294967295 0x7FF8000000000000 = 0 /\
  f64_to_Z (-2147483648) 2147483647 0xFFF0000000000000 = (-2147483648)%Z.
Proof. vm_compute. repeat split. Qed.

(** ** Facts *)

(** Exactly what comes back: the nearest multiple of the spacing. *)
Definition rounded (n : N) : N :=
  let k := N.log2 n in
  if k <=? 52 then n
  else
    let s := k - 52 in
    let q := n / 2 ^ s in
    let r := n mod 2 ^ s in
    let half := 2 ^ (s - 1) in
    (if (half <? r) || ((half =? r) && N.odd q) then q + 1 else q) * 2 ^ s.

Lemma p52_pow : p52 = 2 ^ 52. Proof. reflexivity. Qed.
Lemma p53_pow : p53 = 2 ^ 53. Proof. reflexivity. Qed.

Lemma trunc_parts sgn e m : e < 2047 -> 1023 <= e -> m < p52 ->
  f64_trunc ((if sgn : bool then p63 else 0) + (e * p52 + m)) =
  FInt sgn (if e - 1023 <=? 52 then (p52 + m) / 2 ^ (52 - (e - 1023)) else (p52 + m) * 2 ^ (e - 1023 - 52)).
Proof.
  intros E E1 M. unfold f64_trunc.
  assert (D : ((if sgn then p63 else 0) + (e * p52 + m)) / p52 = (if sgn then 2048 else 0) + e).
  { symmetry. apply N.div_unique with m; auto. unfold p63, p52. destruct sgn; lia. }
  assert (R : ((if sgn then p63 else 0) + (e * p52 + m)) mod p52 = m).
  { symmetry. apply N.mod_unique with ((if sgn then 2048 else 0) + e); auto. unfold p63, p52. destruct sgn; lia. }
  rewrite D, R.
  assert (F : ((if sgn then 2048 else 0) + e) mod 2048 = e).
  { destruct sgn.
    - rewrite N.add_comm. replace (e + 2048) with (e + 1 * 2048) by lia. rewrite N.mod_add by lia. apply N.mod_small; lia.
    - apply N.mod_small. lia. }
  rewrite F. destruct (N.eqb_spec e 2047); [lia|]. destruct (N.ltb_spec e 1023); [lia|].
  assert (G : (p63 <=? (if sgn then p63 else 0) + (e * p52 + m)) = sgn).
  { destruct sgn.
    - apply N.leb_le. lia.
    - apply N.leb_gt. unfold p63, p52 in *. nia. }
  rewrite G. auto.
Qed.

Lemma rounded_trunc sgn n : n < p64 -> n <> 0 -> f64_trunc ((if sgn : bool then p63 else 0) + f64_of_N n) = FInt sgn (rounded n).
Proof.
  intros B Z. unfold f64_of_N, rounded. destruct (N.eqb_spec n 0); [contradiction|].
  pose proof (N.log2_spec n ltac:(lia)) as [L1 L2]. set (k := N.log2 n) in *.
  assert (K : k < 64).
  { apply N.log2_lt_pow2; [lia|]. exact B. }
  destruct (N.leb_spec k 52) as [H|H].
  - assert (X : 2 ^ k * 2 ^ (52 - k) = p52) by (rewrite <- N.pow_add_r; replace (k + (52 - k)) with 52 by lia; auto).
    assert (X2 : 2 ^ N.succ k * 2 ^ (52 - k) = 2 * p52) by (rewrite N.pow_succ_r', <- N.mul_assoc, X; auto).
    assert (P : 0 < 2 ^ (52 - k)) by (apply N.neq_0_lt_0, N.pow_nonzero; lia).
    assert (Y1 : p52 <= n * 2 ^ (52 - k)) by (rewrite <- X; apply N.mul_le_mono_r; auto).
    assert (Y2 : n * 2 ^ (52 - k) < 2 * p52) by (rewrite <- X2; apply N.mul_lt_mono_pos_r; auto).
    rewrite trunc_parts by lia. replace (k + 1023 - 1023) with k by lia.
    destruct (N.leb_spec k 52); [|lia]. f_equal.
    replace (p52 + (n * 2 ^ (52 - k) - p52)) with (n * 2 ^ (52 - k)) by lia. apply N.div_mul. lia.
  - set (s := k - 52). assert (S : s >= 1) by lia.
    assert (P : 2 ^ s <> 0) by (apply N.pow_nonzero; lia).
    assert (X : p52 * 2 ^ s = 2 ^ k) by (rewrite p52_pow, <- N.pow_add_r; f_equal; lia).
    assert (X2 : (2 * p52) * 2 ^ s = 2 ^ N.succ k) by (rewrite N.pow_succ_r', <- N.mul_assoc, X; auto).
    assert (Q1 : p52 <= n / 2 ^ s) by (apply N.div_le_lower_bound; auto; lia).
    assert (Q2 : n / 2 ^ s < 2 * p52) by (apply N.div_lt_upper_bound; auto; lia).
    set (q := n / 2 ^ s) in *. set (up := _ || _).
    destruct up.
    + destruct (N.eq_dec (q + 1) (2 * p52)) as [Q|Q].
      * rewrite Q. replace ((k + 1023) * p52 + (2 * p52 - p52)) with ((k + 1 + 1023) * p52 + 0) by lia.
        rewrite trunc_parts by (unfold p52; lia). replace (k + 1 + 1023 - 1023) with (k + 1) by lia.
        destruct (N.leb_spec (k + 1) 52); [lia|]. f_equal. replace (k + 1 - 52) with (N.succ s) by lia.
        rewrite N.pow_succ_r'. lia.
      * rewrite trunc_parts by lia. replace (k + 1023 - 1023) with k by lia.
        destruct (N.leb_spec k 52); [lia|]. f_equal. f_equal. lia.
    + rewrite trunc_parts by lia. replace (k + 1023 - 1023) with k by lia.
      destruct (N.leb_spec k 52); [lia|]. f_equal. f_equal. lia.
Qed.

Lemma trunc_zero : f64_trunc 0 = FInt false 0. Proof. reflexivity. Qed.

(** ** Representable integers *)

(** [n] has at most 53 significant bits. *)
Definition representable (n : N) : Prop := exists m e, m <= p53 /\ n = m * 2 ^ e.

Lemma representable_small n : n <= p53 -> representable n.
Proof. intros H. exists n, 0. rewrite N.pow_0_r. lia. Qed.

Lemma rounded_representable n : n <> 0 -> (rounded n = n <-> representable n).
Proof.
  intros NZ. unfold rounded. pose proof (N.log2_spec n ltac:(lia)) as [L1 L2]. set (k := N.log2 n) in *.
  destruct (N.leb_spec k 52) as [H|H].
  - split; auto. intros _. apply representable_small.
    assert (2 ^ N.succ k <= 2 ^ 53) by (apply N.pow_le_mono_r; lia). rewrite <- p53_pow in H0. lia.
  - set (s := k - 52). assert (P : 2 ^ s <> 0) by (apply N.pow_nonzero; lia).
    pose proof (N.div_mod n (2 ^ s) P) as D. pose proof (N.mod_lt n (2 ^ s) P) as M.
    set (q := n / 2 ^ s) in *. set (r := n mod 2 ^ s) in *.
    assert (X2 : p53 * 2 ^ s = 2 ^ N.succ k) by (rewrite p53_pow, <- N.pow_add_r; f_equal; lia).
    assert (Q : q < p53).
    { apply N.div_lt_upper_bound; auto. lia. }
    assert (HALF : 0 < 2 ^ (s - 1)) by (apply N.neq_0_lt_0, N.pow_nonzero; lia).
    assert (R0 : r = 0 <-> representable n).
    { split.
      - intros R. exists q, s. split; [lia|]. lia.
      - intros (m0 & e0 & Hm0 & E0).
        assert (exists m e, m < p53 /\ n = m * 2 ^ e) as (m & e & Hm & E).
        { destruct (N.eq_dec m0 p53) as [->|NE]; [|exists m0, e0; split; [lia|auto]].
          exists p52, (N.succ e0). split; [reflexivity|]. rewrite E0, N.pow_succ_r'. unfold p53, p52. lia. }
        assert (SE : s <= e).
        { destruct (N.le_gt_cases s e); auto. exfalso.
          assert (2 ^ e * 2 <= 2 ^ s).
          { rewrite N.mul_comm, <- N.pow_succ_r'. apply N.pow_le_mono_r; lia. }
          assert (p52 * 2 ^ s = 2 ^ k) by (rewrite p52_pow, <- N.pow_add_r; f_equal; lia).
          assert (m * 2 ^ e < p53 * 2 ^ e).
          { apply N.mul_lt_mono_pos_r; [apply N.neq_0_lt_0, N.pow_nonzero; lia|lia]. }
          assert (p53 * 2 ^ e = p52 * (2 ^ e * 2)) by (unfold p53, p52; lia).
          assert (p52 * (2 ^ e * 2) <= p52 * 2 ^ s) by (apply N.mul_le_mono_l; auto). lia. }
        unfold r. rewrite E. replace e with ((e - s) + s) by lia. rewrite N.pow_add_r, N.mul_assoc.
        apply N.mod_mul; auto. }
    rewrite <- R0.
    destruct ((2 ^ (s - 1) <? r) || ((2 ^ (s - 1) =? r) && N.odd q)) eqn:UP.
    + assert (r <> 0).
      { intros R. rewrite R in UP. destruct (N.ltb_spec (2 ^ (s - 1)) 0); [lia|].
        destruct (N.eqb_spec (2 ^ (s - 1)) 0); [lia|]. discriminate. }
      split; [intros E; exfalso|intros; contradiction]. nia.
    + split; intros; nia.
Qed.

(** Values rounded up to 2^64 or 2^63 saturate to the largest value. *)
Lemma rounded_mult n : 52 < N.log2 n -> exists a, rounded n = a * 2 ^ (N.log2 n - 52).
Proof. intros H. unfold rounded. destruct (N.leb_spec (N.log2 n) 52); [lia|]. eauto. Qed.

Lemma rounded_le n : n <> 0 -> rounded n <= 2 ^ N.succ (N.log2 n).
Proof.
  intros NZ. unfold rounded. pose proof (N.log2_spec n ltac:(lia)) as [L1 L2]. set (k := N.log2 n) in *.
  destruct (N.leb_spec k 52) as [H|H]; [lia|].
  set (s := k - 52). assert (P : 2 ^ s <> 0) by (apply N.pow_nonzero; lia).
  assert (X2 : p53 * 2 ^ s = 2 ^ N.succ k) by (rewrite p53_pow, <- N.pow_add_r; f_equal; lia).
  assert (Q : n / 2 ^ s < p53) by (apply N.div_lt_upper_bound; auto; lia).
  rewrite <- X2. apply N.mul_le_mono_r. destruct (_ || _); lia.
Qed.

Lemma u64_roundtrip n : n < p64 -> (f64_to_N (p64 - 1) (f64_of_N n) = n <-> representable n \/ n = p64 - 1).
Proof.
  intros B. destruct (N.eq_dec n 0) as [->|NZ].
  - split; [intros _; left; apply representable_small; unfold p53; lia|reflexivity].
  - unfold f64_to_N. pose proof (rounded_trunc false n B NZ) as T. cbv iota in T. rewrite N.add_0_l in T. rewrite T.
    rewrite <- (rounded_representable n NZ).
    destruct (N.le_gt_cases (rounded n) (p64 - 1)) as [L|L].
    + rewrite N.min_l by auto. split; auto. intros [H|H]; auto. exfalso. subst n.
      vm_compute in L. congruence.
    + rewrite N.min_r by lia. split; [intros <-; auto|]. intros [H|H]; auto. lia.
Qed.

Lemma i64_roundtrip z : (- 9223372036854775808 <= z <= 9223372036854775807)%Z ->
  (f64_to_Z (- 9223372036854775808) 9223372036854775807 (f64_of_Z z) = z <->
   representable (Z.to_N (Z.abs z)) \/ z = 9223372036854775807%Z).
Proof.
  intros B. destruct (Z.eq_dec z 0) as [->|NZ].
  - split; [intros _; left; apply representable_small; unfold p53; simpl; lia|reflexivity].
  - unfold f64_to_Z, f64_of_Z. destruct (Z.ltb_spec z 0) as [S|S].
    + pose proof (rounded_trunc true (Z.to_N (- z)) ltac:(unfold p64; lia) ltac:(lia)) as T. cbv iota in T. rewrite T.
      replace (Z.abs z) with (- z)%Z by lia. set (n := Z.to_N (- z)) in *.
      rewrite <- (rounded_representable n) by lia.
      assert (LE : rounded n <= p63).
      { destruct (N.eq_dec n p63) as [->|NE]; [vm_compute; congruence|].
        assert (K : N.log2 n < 63) by (apply N.log2_lt_pow2; [lia|]; change (2 ^ 63) with p63; unfold p63 in *; lia).
        pose proof (rounded_le n ltac:(lia)) as R.
        assert (2 ^ N.succ (N.log2 n) <= 2 ^ 63) by (apply N.pow_le_mono_r; lia). change (2 ^ 63) with p63 in H. lia. }
      rewrite Z.max_r by (unfold p63 in LE; lia). split; [intros; left; lia|]. intros [H|H]; lia.
    + pose proof (rounded_trunc false (Z.to_N z) ltac:(unfold p64; lia) ltac:(lia)) as T. cbv iota in T. rewrite N.add_0_l in T. rewrite T.
      replace (Z.abs z) with z by lia. set (n := Z.to_N z) in *.
      rewrite <- (rounded_representable n) by lia.
      destruct (Z.le_gt_cases (Z.of_N (rounded n)) 9223372036854775807) as [L|L].
      * rewrite Z.min_l by auto. split; [intros; left; lia|]. intros [H|H]; [lia|]. exfalso.
        assert (n = 9223372036854775807) by lia. rewrite H0 in L. vm_compute in L. congruence.
      * rewrite Z.min_r by lia. split; [intros <-; auto|]. intros [H|H]; auto. lia.
Qed.

Lemma u32_roundtrip n : n < 4294967296 -> f64_to_N 4294967295 (f64_of_N n) = n.
Proof.
  intros B. destruct (N.eq_dec n 0) as [->|NZ]; [reflexivity|].
  unfold f64_to_N. pose proof (rounded_trunc false n ltac:(unfold p64; lia) NZ) as T. cbv iota in T. rewrite N.add_0_l in T. rewrite T.
  assert (R : rounded n = n) by (apply rounded_representable; auto; apply representable_small; unfold p53; lia).
  rewrite R. lia.
Qed.

Lemma i32_roundtrip z : (- 2147483648 <= z <= 2147483647)%Z -> f64_to_Z (- 2147483648) 2147483647 (f64_of_Z z) = z.
Proof.
  intros B. destruct (Z.eq_dec z 0) as [->|NZ]; [reflexivity|].
  unfold f64_to_Z, f64_of_Z.
  assert (R : rounded (Z.to_N (Z.abs z)) = Z.to_N (Z.abs z))
    by (apply rounded_representable; [lia|]; apply representable_small; unfold p53; lia).
  destruct (Z.ltb_spec z 0) as [S|S].
  - pose proof (rounded_trunc true (Z.to_N (- z)) ltac:(unfold p64; lia) ltac:(lia)) as T. cbv iota in T. rewrite T.
    replace (Z.abs z) with (- z)%Z in R by lia. rewrite R. lia.
  - pose proof (rounded_trunc false (Z.to_N z) ltac:(unfold p64; lia) ltac:(lia)) as T. cbv iota in T. rewrite N.add_0_l in T. rewrite T.
    replace (Z.abs z) with z in R by lia. rewrite R. lia.
Qed.
