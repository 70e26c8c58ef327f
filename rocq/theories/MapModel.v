(** A Rust [HashMap<u64, A>] as an association list: at most one entry per key; the order of entries is
    not used by any model (std::collections::HashMap is trusted to be a map, see DESIGN.md). *)

From Coq Require Import List NArith PeanoNat Bool Lia.
Import ListNotations.

Section Map.
  Context {A : Type}.

  (** std::collections::HashMap with u64 keys (e.g. callbacks.rs:38-41, arguments.rs:5-8). *)
  Definition hmap := list (N * A).

  (** [HashMap::get]. *)
  Fixpoint hget (m : hmap) (k : N) : option A :=
    match m with
    | [] => None
    | (k', a) :: t => if (k =? k')%N then Some a else hget t k
    end.

  (** [HashMap::remove]. *)
  Definition hdel (m : hmap) (k : N) : hmap := filter (fun e => negb (k =? fst e)%N) m.

  (** [HashMap::insert]. *)
  Definition hset (m : hmap) (k : N) (a : A) : hmap := (k, a) :: hdel m k.

  (** Keys are unique: holds of [[]] and is kept by the operations. *)
  Definition hwf (m : hmap) : Prop := NoDup (map fst m).

  Lemma hget_del m k k' : hget (hdel m k) k' = if (k' =? k)%N then None else hget m k'.
  Proof.
    induction m as [|[x a] m IH]; simpl; [destruct (k' =? k)%N; auto|].
    destruct (N.eqb_spec k x) as [->|N]; simpl.
    - rewrite IH. destruct (N.eqb_spec k' x); auto.
    - destruct (N.eqb_spec k' x) as [->|N']; auto.
      destruct (N.eqb_spec x k); congruence.
  Qed.

  Lemma hget_set m k a k' : hget (hset m k a) k' = if (k' =? k)%N then Some a else hget m k'.
  Proof.
    simpl. destruct (N.eqb_spec k' k) as [->|N]; auto. rewrite hget_del.
    destruct (N.eqb_spec k' k); congruence.
  Qed.

  Lemma hdel_in m k x : In x (map fst (hdel m k)) <-> In x (map fst m) /\ x <> k.
  Proof.
    unfold hdel. rewrite !in_map_iff. split.
    - intros ([y a] & <- & I). apply filter_In in I as [I Q]. simpl in *.
      destruct (N.eqb_spec k y); [discriminate|]. split; [exists (y, a); auto|congruence].
    - intros [([y a] & <- & I) N]. exists (y, a). split; auto. apply filter_In; split; auto. simpl in *.
      destruct (N.eqb_spec k y); [congruence|reflexivity].
  Qed.

  Lemma hwf_del m k : hwf m -> hwf (hdel m k).
  Proof.
    unfold hwf. induction m as [|[x a] m IH]; simpl; auto. inversion 1; subst.
    destruct (N.eqb_spec k x); simpl; auto. constructor; auto.
    rewrite hdel_in. tauto.
  Qed.

  Lemma hwf_set m k a : hwf m -> hwf (hset m k a).
  Proof.
    intros H. unfold hwf, hset. simpl. constructor; [|apply hwf_del; auto].
    rewrite hdel_in. tauto.
  Qed.

  Lemma hget_in m k : hget m k <> None <-> In k (map fst m).
  Proof.
    induction m as [|[x a] m IH]; simpl; [tauto|].
    destruct (N.eqb_spec k x) as [->|N]; split; intros H; auto; try discriminate.
    - right. apply IH; auto.
    - destruct H as [->|H]; [congruence|]. apply IH; auto.
  Qed.

  (** Two maps with the same domain, as duplicate-free lists, have equally many entries. *)
  Lemma hlen m (l : list N) : hwf m -> NoDup l -> (forall k, hget m k <> None <-> In k l) ->
    length m = length l.
  Proof.
    intros H ND D. rewrite <- (map_length fst m).
    apply Nat.le_antisymm; apply NoDup_incl_length; auto; intros k I.
    - apply D, hget_in; auto.
    - apply hget_in, D; auto.
  Qed.
End Map.
Arguments hmap : clear implicits.
