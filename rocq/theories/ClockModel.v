(** The clock of the application: [Instant] over [ApiImport::instant_now].

    Source: /repo/crates/vertigo/src/instant.rs (I/ below), /repo/crates/vertigo/src/driver_module/api/api_import.rs
    (A/ below).  The call itself and its reading are [ApiModel.CNow] and [ApiModel.use]; the way into JavaScript is
    [BridgeModel.fetch]. *)
From Coq Require Import String List NArith ZArith Bool.
From Verif Require Import CodecModel DomWire BridgeModel ApiModel.
Import ListNotations.
Local Open Scope list_scope.
Local Open Scope N_scope.

(** [as u64] of an i64 (A/api_import.rs:266-268). *)
Definition as_u64 (z : Z) : N := Z.to_N (z mod 18446744073709551616)%Z.

(** A/api_import.rs:266-287, in a browser: the time, and whether an error was shown ([use] of [CNow]); no result when
    the import threw or the answer could not be read at all. *)
Definition instant_now S eget eset ecall enode api window document lossy (s : S) : option (N * bool) :=
  match fetch S eget eset ecall enode api window document lossy s (ApiModel.builder CNow) with
  | (_, FVal v) => match use CNow v with (AInt z, e) => Some (as_u64 z, e) | _ => None end
  | _ => None
  end.

(** The same during server rendering (W/decode_commands.rs:139-149 through [server_call]). *)
Definition server_now (url : bytes) (env : bytes -> option bytes) (now : Z) : option (N * bool) :=
  match server_call url env now CNow with (es, AInt z) => Some (as_u64 z, match es with [] => false | _ => true end) | _ => None end.

(** I/instant.rs:9-12: an instant is the number it was made with; the api it holds is the [now] below. *)
Definition instant := N.

(** Subtraction of u64: [None] is the panic of a build with overflow checks, otherwise it wraps. *)
Definition sub_u64 (checks : bool) (a b : N) : option N :=
  if b <=? a then Some (a - b) else if checks then None else Some (a + 18446744073709551616 - b).

(** Addition of u64, likewise. *)
Definition add_u64 (checks : bool) (a b : N) : option N :=
  if a + b <? 18446744073709551616 then Some (a + b)
  else if checks then None else Some (a + b - 18446744073709551616).

(** I/instant.rs:30-32 *)
Definition elapsed (checks : bool) (now : N) (i : instant) : option N := sub_u64 checks now i.

(** I/instant.rs:34-36 *)
Definition seconds_elapsed (checks : bool) (now : N) (i : instant) : option N :=
  option_map (fun d => d / 1000) (elapsed checks now i).

(** I/instant.rs:38-45; [ms] is [time.as_millis()], a u128. *)
Definition add_duration (checks : bool) (i : instant) (ms : N) : option instant :=
  add_u64 checks i (ms mod 18446744073709551616).

(** I/instant.rs:47-49 *)
Definition is_expire (now : N) (i : instant) : bool := i <? now.
