(** What instants tell about the time that has passed (C97). *)
From Coq Require Import String List NArith ZArith Bool Lia.
From Verif Require Import CodecModel CodecJsModel CodecSpec CodecProps FloatModel DomWire BridgeModel BridgeProps ApiModel ClockModel.
Import ListNotations.
Local Open Scope string_scope.
Local Open Scope list_scope.
Local Open Scope N_scope.

(** ** Specification *)

(** A page whose clock shows [t] milliseconds since 1970: [window.Date.now()] gives that number. *)
Definition clock_at S (eget : S -> jval -> bytes -> option jval) (ecall : S -> jval -> bytes -> list jval -> S * option jval)
  (window : jval) (s : S) (t : N) : Prop :=
  exists d, eget s window (str "Date") = Some d /\ ecall s d (str "now") [] = (s, Some (KNum (f64_of_N t))).

(** The dates from 25 January 1970 on for which JavaScript has exact milliseconds: 2^31 to 2^53. *)
Definition usual (t : N) : Prop := 2147483648 <= t <= 9007199254740992.

(** ** Proofs *)

Lemma f64_of_N_back t : t <= 9007199254740992 ->
  f64_to_Z (- 9223372036854775808) 9223372036854775807 (f64_of_N t) = Z.of_N t.
Proof.
  intros H. pose proof (i64_roundtrip (Z.of_N t) ltac:(lia)) as R.
  unfold f64_of_Z in R. destruct (Z.ltb_spec (Z.of_N t) 0); [lia|]. rewrite N2Z.id in R.
  apply R. left. rewrite Z.abs_eq, N2Z.id by lia. apply representable_small. change p53 with 9007199254740992. lia.
Qed.

Lemma i32_not_usual z t : (- 2147483648 <= z < 2147483648)%Z -> usual t -> f64_of_Z z <> f64_of_N t.
Proof.
  intros R [U1 U2] E.
  pose proof (f64_of_N_back t U2) as B. rewrite <- E in B.
  assert (F : f64_to_Z (- 9223372036854775808) 9223372036854775807 (f64_of_Z z) = z).
  { apply i64_roundtrip; [lia|]. left. apply representable_small. change p53 with 9007199254740992. lia. }
  lia.
Qed.

Lemma now_path : ApiModel.builder CNow = BridgeProps.builder Window [Get (str "Date"); Call (str "now") []].
Proof. reflexivity. Qed.

Lemma int32_range n : (- 2147483648 <= to_int32 n < 2147483648)%Z.
Proof. unfold to_int32. destruct (f64_trunc n); try lia. Qed.

Lemma conv_usual t : usual t -> conv_val (KNum (f64_of_N t)) = Some (SF64 (f64_of_N t)).
Proof.
  intros U. cbn [conv_val]. destruct (num_is (f64_of_N t) (to_int32 (f64_of_N t))) eqn:E; [|reflexivity].
  exfalso. unfold num_is in E. apply orb_prop in E. destruct E as [E|E].
  - apply N.eqb_eq in E. apply (i32_not_usual _ t (int32_range (f64_of_N t)) U). exact E.
  - apply andb_prop in E. destruct E as [_ E]. apply N.eqb_eq in E.
    destruct U as [U1 U2]. pose proof (f64_of_N_back t U2) as B. rewrite E in B.
    change (f64_to_Z (- 9223372036854775808) 9223372036854775807 p63) with 0%Z in B. lia.
Qed.

Lemma as_u64_N t : t < 18446744073709551616 -> as_u64 (Z.of_N t) = t.
Proof. intros H. unfold as_u64. rewrite Z.mod_small by lia. apply N2Z.id. Qed.

(** *** C97, the clock of the browser: an instant is the time on the clock of the page, in milliseconds.
    Missing: clocks before 25 January 1970 (see the refutation). *)
Theorem C97_clock_partial S eget eset ecall enode api window document lossy (s : S) t :
  clock_at S eget ecall window s t -> usual t ->
  instant_now S eget eset ecall enode api window document lossy s = Some (t, false).
Proof.
  intros (d & G & C) U. unfold instant_now. rewrite now_path. unfold fetch.
  destruct (access_decoded lossy Window [Get (str "Date"); Call (str "now") []]) as (blk & B1 & B2).
  { exact Logic.I. }
  { split; [|split; [|exact Logic.I]].
    - split; [vm_compute; repeat split|intros ? ?; discriminate].
    - split; [split; [vm_compute; repeat split|intros ? ?; discriminate]|exact Logic.I]. }
  { vm_compute. reflexivity. }
  rewrite B1. unfold dom_access. rewrite B2.
  rewrite (first_step S eget eset ecall enode api window document s Window window) by (constructor || exact Logic.I).
  rewrite (walk_runs S eget eset ecall enode api window document s window [Get (str "Date"); Call (str "now") []] s (KNum (f64_of_N t))).
  2:{ eapply runs_get; [exact G|]. eapply runs_call; [exact C|]. constructor. }
  2:{ split; [|split; [|exact Logic.I]].
    - split; [vm_compute; repeat split|intros ? ?; discriminate].
    - split; [split; [vm_compute; repeat split|intros ? ?; discriminate]|exact Logic.I]. }
  rewrite (conv_usual t U). destruct U as [U1 U2].
  destruct (C16_js_to_rust_partial (VF64 (f64_of_N t))) as (b & D1 & D2); try exact Logic.I.
  { apply f64_bits. exact U2. } { reflexivity. } { discriminate. }
  cbn [js_of_val] in D1. rewrite D1. cbn [get_by_ptr]. rewrite D2. cbn [use].
  rewrite f64_of_N_back by exact U2. rewrite as_u64_N by lia. reflexivity.
Qed.

(** *** C97, during server rendering: an instant is the time on the clock of the server. *)
Theorem C97_server_clock url env t : t < 9223372036854775808 -> server_now url env (Z.of_N t) = Some (t, false).
Proof. intros H. unfold server_now. vm_compute dispatch. cbn. rewrite as_u64_N by lia. reflexivity. Qed.

(** *** C97, time that passes: with the clock going forwards from [t0] to [t1], [elapsed] gives the milliseconds in
    between, [seconds_elapsed] the whole seconds, and an instant moved by [ms] has expired exactly when more than [ms]
    milliseconds have passed.  Nothing of this depends on how the arithmetic was compiled. *)
Theorem C97_elapsed checks t0 t1 ms : t0 <= t1 -> t1 < 18446744073709551616 -> t0 + ms < 18446744073709551616 ->
  elapsed checks t1 t0 = Some (t1 - t0) /\
  (exists q, seconds_elapsed checks t1 t0 = Some q /\ q * 1000 <= t1 - t0 < (q + 1) * 1000) /\
  (exists j, add_duration checks t0 ms = Some j /\ (is_expire t1 j = true <-> ms < t1 - t0)).
Proof.
  intros L W O. unfold seconds_elapsed, elapsed, sub_u64, add_duration, add_u64, is_expire.
  rewrite (proj2 (N.leb_le _ _) L). split; [reflexivity|]. split.
  - exists ((t1 - t0) / 1000). split; [reflexivity|].
    pose proof (N.div_mod (t1 - t0) 1000 ltac:(discriminate)). pose proof (N.mod_lt (t1 - t0) 1000 ltac:(discriminate)). lia.
  - rewrite (N.mod_small ms) by lia. rewrite (proj2 (N.ltb_lt _ _) O). exists (t0 + ms). split; [reflexivity|].
    rewrite N.ltb_lt. lia.
Qed.

(** A wait of 1.5 s from 17 November 2026, looked at 1.5 s and 2.3 s later. *)
Example C97_elapsed_case :
  elapsed true 1794927602300 1794927600000 = Some 2300 /\ seconds_elapsed true 1794927602300 1794927600000 = Some 2 /\
  add_duration true 1794927600000 1500 = Some 1794927601500 /\
  is_expire 1794927601500 1794927601500 = false /\ is_expire 1794927602300 1794927601500 = true.
Proof. vm_compute. repeat split. Qed.

(** *** C97, the whole way in a browser: made when the clock shows [t0] and asked when it shows [t1]. *)
Theorem C97_browser_partial S eget eset ecall enode api window document lossy (s0 s1 : S) t0 t1 checks :
  clock_at S eget ecall window s0 t0 -> clock_at S eget ecall window s1 t1 -> usual t0 -> usual t1 -> t0 <= t1 ->
  exists i now, instant_now S eget eset ecall enode api window document lossy s0 = Some (i, false) /\
    instant_now S eget eset ecall enode api window document lossy s1 = Some (now, false) /\
    elapsed checks now i = Some (t1 - t0).
Proof.
  intros C0 C1 U0 U1 L. exists t0, t1.
  split; [apply C97_clock_partial; auto|]. split; [apply C97_clock_partial; auto|].
  destruct U0, U1. apply (C97_elapsed checks t0 t1 0); lia.
Qed.

(** ** A page that is only a clock *)
Module Demo.
  Definition get (t : N) (v : jval) (n : bytes) : option jval :=
    match v with KHost 1 => if bytes_eqb n (str "Date") then Some (KHost 2) else Some KUndef | _ => None end.
  Definition call (t : N) (v : jval) (n : bytes) (args : list jval) : N * option jval :=
    match v with KHost 2 => if bytes_eqb n (str "now") then (t, Some (KNum (f64_of_N t))) else (t, None) | _ => (t, None) end.
  Definition now (t : N) : option (N * bool) :=
    instant_now N get (fun _ _ _ _ => None) call (fun _ _ => None) KNull (KHost 1) KNull (fun b => b) t.
  Lemma shows t : clock_at N get call (KHost 1) t t.
  Proof. exists (KHost 2). split; reflexivity. Qed.
End Demo.
Import Demo.

(** The hypotheses of the theorems on the clock are met. *)
Example C97_clock_case : clock_at N get call (KHost 1) 1794927600000 1794927600000 /\ usual 1794927600000 /\
  now 1794927600000 = Some (1794927600000, false).
Proof. split; [apply shows|]. split; [unfold usual; lia|]. vm_compute. reflexivity. Qed.

(** *** C97 fails on a device whose clock was never set: on 2 January 1970 the time is 0 and an error is shown. *)
Theorem C97_early_refuted : exists t, clock_at N get call (KHost 1) t t /\ t <> 0 /\ now t = Some (0, true).
Proof. exists 86400000. split; [apply shows|]. split; [discriminate|]. vm_compute. reflexivity. Qed.

(** *** C97 fails when the clock of the device is set back, which the documentation of [Instant] rules out: [elapsed]
    ends in a panic, or in more than half a billion years when built without overflow checks. *)
Theorem C97_set_back_refuted : exists t0 t1, clock_at N get call (KHost 1) t0 t0 /\ clock_at N get call (KHost 1) t1 t1 /\
  usual t0 /\ usual t1 /\ now t0 = Some (t0, false) /\ now t1 = Some (t1, false) /\
  elapsed true t1 t0 = None /\ exists e, elapsed false t1 t0 = Some e /\ 18446744073709000000 < e.
Proof.
  exists 1794927600000, 1794927599000. do 4 (split; [apply shows || (unfold usual; lia)|]).
  do 3 (split; [vm_compute; reflexivity|]). exists 18446744073709550616. split; vm_compute; reflexivity.
Qed.

(** *** C97 fails for the time that is left: an instant moved forwards cannot be asked before it has come. *)
Theorem C97_ahead_refuted : exists t ms j, usual t /\ add_duration true t ms = Some j /\ is_expire t j = false /\
  elapsed true t j = None.
Proof. exists 1794927600000, 1, 1794927600001. split; [unfold usual; lia|]. vm_compute. repeat split. Qed.

(** *** C97: [elapsed] is documented to be in seconds; five seconds are 5000. *)
Theorem C97_unit_refuted : exists t0 t1, t1 = t0 + 5000 /\ usual t0 /\ elapsed true t1 t0 = Some 5000.
Proof. exists 1794927600000, 1794927605000. split; [reflexivity|]. split; [unfold usual; lia|]. reflexivity. Qed.
