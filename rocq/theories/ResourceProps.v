(** C109: [?], [==] and [map] of resources. *)
From Coq Require Import List NArith Arith Bool.
From Verif Require Import CodecModel CodecProofs ResourceModel.
Import ListNotations.
Local Open Scope nat_scope.

(** ** Specification *)

(** Both are loading, or both failed with the same message. *)
Inductive same_trouble {T R : Type} : resource T -> resource R -> Prop :=
| both_loading : same_trouble Loading Loading
| both_failed m : same_trouble (Error m) (Error m).
(** The end of a function when the resources it asks for have the given data. *)
Fixpoint with_data {T R} (c : code T R) (vs : list T) : option (resource R) :=
  match c, vs with
  | Give r, [] => Some r
  | Ask _ next, v :: t => with_data (next v) t
  | _, _ => None
  end.
(** An equality of a type. *)
Definition equivalence {T} (eq : T -> T -> bool) : Prop :=
  (forall a, eq a a = true) /\ (forall a b, eq a b = eq b a) /\ (forall a b c, eq a b = true -> eq b c = true -> eq a c = true).

(** ** Proofs *)

Lemma bytes_eq a b : bytes_eqb a b = true <-> a = b.
Proof. destruct (bytes_eqb_spec a b); split; congruence. Qed.

(** Either all the resources that were asked for were there, and the function went to its end with their data; or the last one was not there, its trouble is
    what is returned, and nothing after it was looked at. *)
Theorem C109_question {T R} (c : code T R) r asked : run c = (r, asked) ->
  (exists vs, asked = map Ready vs /\ with_data c vs = Some r) \/
  (exists vs x, asked = map Ready vs ++ [x] /\ same_trouble x r).
Proof.
  revert r asked. induction c as [r0|x next IH]; intros r asked E; cbn [run] in E.
  - injection E as <- <-. left. exists []. auto.
  - destruct x as [|v|m]; cbn [branch] in E.
    + injection E as <- <-. right. exists [], Loading. split; [reflexivity|constructor].
    + destruct (run (next v)) as [y l] eqn:E1. injection E as <- <-. destruct (IH v y l E1) as [(vs & A & B)|(vs & z & A & B)]; subst l.
      * left. exists (v :: vs). auto.
      * right. exists (v :: vs), z. auto.
    + injection E as <- <-. right. exists [], (Error m). split; [reflexivity|constructor].
Qed.
(** The equality of resources is one if that of the data is; it tells the three states apart, and messages and data. *)
Theorem C109_equal {T} (eq : T -> T -> bool) : equivalence eq ->
  equivalence (r_eq eq) /\ forall a b, r_eq eq a b = true <-> same_trouble a b \/ exists x y, a = Ready x /\ b = Ready y /\ eq x y = true.
Proof.
  intros (R & S & Tr). split; [split; [|split]|].
  - intros [|x|m]; cbn; auto. apply bytes_eq. reflexivity.
  - intros [|x|m] [|y|k]; cbn; auto. destruct (bytes_eqb m k) eqn:E.
    + apply bytes_eq in E. subst. symmetry. apply bytes_eq. reflexivity.
    + destruct (bytes_eqb k m) eqn:E2; [|reflexivity]. apply bytes_eq in E2. subst. rewrite (proj2 (bytes_eq m m) eq_refl) in E. discriminate.
  - intros [|x|m] [|y|k] [|z|l]; cbn; try discriminate; auto; [eapply Tr|]. intros A B. apply bytes_eq in A, B. apply bytes_eq. congruence.
  - intros a b. split.
    + destruct a as [|x|m], b as [|y|k]; cbn; try discriminate; intros E; [left; constructor|right; eauto|apply bytes_eq in E; subst; left; constructor].
    + intros [H|(x & y & -> & -> & E)]; [|exact E]. destruct H; cbn; [reflexivity|apply bytes_eq; reflexivity].
Qed.
(** [map] changes the data and nothing else, and functions after one another are one function; [ref_map] is the same, and a clone equals its original if that of
    the data does. *)
Theorem C109_map {T K L} (f : T -> K) (g : K -> L) (r : resource T) :
  r_map g (r_map f r) = r_map (fun x => g (f x)) r /\ ref_map f r = r_map f r /\
  (forall x, r_map f r = Ready x <-> exists d, r = Ready d /\ x = f d) /\ (forall m, r_map f r = Error m <-> r = Error m) /\ (r_map f r = Loading <-> r = Loading) /\
  (forall eq clone, (forall d, eq (clone d) d = true) -> r_eq eq (ref_clone clone r) r = true).
Proof.
  split; [destruct r; reflexivity|]. split; [destruct r; reflexivity|]. split; [|split; [|split]].
  - intros x. destruct r as [|d|m]; cbn; split; try discriminate; try (intros (e & E & _); discriminate).
    + intros E. injection E as <-. eauto.
    + intros (e & E & ->). injection E as <-. reflexivity.
  - intros m. destruct r as [|d|k]; cbn; split; try discriminate; congruence.
  - destruct r; cbn; split; congruence.
  - intros eq clone C. destruct r as [|d|m]; cbn; [reflexivity|apply C|apply bytes_eq; reflexivity].
Qed.
(** Data that is not equal to itself (NaN) makes resources that are not: a computed of such a resource changes with every evaluation. *)
Theorem C109_nan_refuted : exists (eq : N -> N -> bool) r, r_eq eq r r = false.
Proof. exists (fun a b => if N.eqb a 9221120237041090560 then false else N.eqb a b), (Ready 9221120237041090560%N). reflexivity. Qed.

(** ** Examples *)
(** Three resources, the second is loading: the third is not looked at. *)
Example C109_case : run (T:=nat) (R:=nat) (Ask (Ready 1%nat) (fun a => Ask (if Nat.eqb a 1 then Loading else Ready 5) (fun b => Ask (Error [7%N]) (fun c => Give (Ready (a + b + c)))))) =
  (Loading, [Ready 1; Loading]).
Proof. reflexivity. Qed.
Example C109_case2 : run (T:=nat) (R:=nat) (Ask (Ready 1%nat) (fun a => Ask (Ready (a + 2)) (fun b => Give (Ready (a + b))))) = (Ready 4, [Ready 1; Ready 3]).
Proof. reflexivity. Qed.
Example C109_equal_case : equivalence N.eqb /\ r_eq N.eqb (Ready 3%N) (Ready 3%N) = true /\ r_eq N.eqb (Ready 3%N) Loading = false /\ r_eq N.eqb (Error [1%N]) (Error [2%N]) = false.
Proof.
  split; [|repeat split]. split; [apply N.eqb_refl|]. split; [apply N.eqb_sym|]. intros a b c A B. apply N.eqb_eq in A, B. subst. apply N.eqb_refl.
Qed.
