(** C07 and C08: the dependency graph. *)

From Coq Require Import List NArith Lia Relations.
From Verif Require Import GraphModel GraphSpec GraphProofs.
Import ListNotations.

(** ** C07 *)

(** Replacing the parents of a node, in any intact acyclic graph: it terminates, the maps stay exact
    inverses without empty entries, the node has exactly the new parents, every other node keeps its
    parents unless it was orphaned (lost its last dependent), in which case it loses all of them; the
    nodes reported inactive are exactly the orphaned ones (and the node itself if nothing depends on
    it), and everything reported carries the right activity flag. *)
Theorem C07_replace_parents g client new :
  intact g -> acyclic (child g) -> sorted new ->
  exists g' info,
    set_parent_for_client g client new = Some (g', info) /\
    intact g' /\
    (forall p, parent g' client p <-> In p new) /\
    (forall c p, c <> client -> ~ orphaned (child g) client new c -> (parent g' c p <-> parent g c p)) /\
    (forall c p, c <> client -> orphaned (child g) client new c -> ~ parent g' c p) /\
    (forall n, n <> client -> (In (n, false) info <-> orphaned (child g) client new n)) /\
    (forall n b, In (n, b) info -> (b = true <-> exists c, child g' n c)) /\
    (forall n, (exists c, child g' n c) -> ~ (exists c, child g n c) -> In (n, true) info).
Proof.
  intros I A S.
  destruct (set_parent_spec g client new I A S)
    as (g' & info & X & I' & CH & SI & FL & OR & RO & CL & AD & _).
  exists g', info. split; [exact X|]. split; [exact I'|].
  assert (P' : forall c p, parent g' c p <-> child g' p c) by (intros; symmetry; apply I').
  assert (P : forall c p, parent g c p <-> child g p c) by (intros; symmetry; apply I).
  split; [|split; [|split; [|split; [|split]]]].
  - intros p; rewrite P', CH; tauto.
  - intros c p N NO; rewrite P', P, CH; tauto.
  - intros c p N O; rewrite P', CH; tauto.
  - intros n N; split; [|apply OR]. intros H; destruct (RO n H); tauto.
  - exact FL.
  - intros n [c Hc] No. apply CH in Hc as [[-> Hn]|(_ & Hc & _)].
    + apply AD; auto. intros Q; apply No; eauto.
    + exfalso; eauto.
Qed.
Print Assumptions C07_replace_parents.

(** The same for whole histories from the empty graph.  [rank] witnesses acyclicity of what the
    program reads. *)
Fixpoint replay (g : graph) (ops : list (gid * list gid)) : option graph :=
  match ops with
  | [] => Some g
  | (client, new) :: t =>
      match set_parent_for_client g client new with
      | Some (g', _) => replay g' t
      | None => None
      end
  end.

Definition ranked_ops (rank : gid -> nat) (ops : list (gid * list gid)) : Prop :=
  forall client new, In (client, new) ops ->
    sorted new /\ forall p, In p new -> rank p < rank client.

Theorem C07_history rank ops :
  ranked_ops rank ops ->
  exists g, replay graph_new ops = Some g /\ intact g /\
    (forall p c, child g p c -> rank p < rank c) /\
    (forall ops' client new, ops = ops' ++ [(client, new)] -> forall p, parent g client p <-> In p new).
Proof.
  intros R.
  assert (G : forall ops g, ranked_ops rank ops -> intact g ->
            (forall p c, child g p c -> rank p < rank c) ->
            exists g', replay g ops = Some g' /\ intact g' /\
              (forall p c, child g' p c -> rank p < rank c) /\
              (forall ops' client new, ops = ops' ++ [(client, new)] ->
                 forall p, parent g' client p <-> In p new)).
  { clear. induction ops as [|[client new] ops IH]; intros g R I A; simpl.
    - exists g; repeat split; auto; try apply I; destruct ops'; discriminate.
    - destruct (R client new) as [S RK]; [left; auto|].
      destruct (set_parent_spec g client new I (ex_intro _ rank A) S)
        as (g' & info & X & I' & CH & _). rewrite X.
      assert (A' : forall p c, child g' p c -> rank p < rank c).
      { intros p c Hc; apply CH in Hc as [[-> Hp]|(_ & Hc & _)]; auto. }
      destruct (IH g' (fun c n H => R c n (or_intror H)) I' A') as (g2 & X2 & I2 & A2 & L2).
      exists g2; split; [auto|split; [auto|split; [auto|]]].
      intros ops' cl nw Eq p. destruct ops' as [|o ops'].
      + simpl in Eq; inversion Eq; subst. simpl in X2; inversion X2; subst g2.
        unfold parent. rewrite <- child_parent, CH by auto. tauto.
      + simpl in Eq; inversion Eq; subst. eapply L2; eauto. }
  apply G; auto using intact_new.
  intros p c H; destruct H.
Qed.
Print Assumptions C07_history.

Section Example_C07.
  Let v n := GId KValue n.
  Let c n := GId KComputed n.
  Let s n := GId KClient n.
  Local Open Scope N_scope.

  (* value 1 -> computed 2 -> computed 3 -> subscription 4, and value 5 -> computed 3 *)
  Let ops := [(c 2, [v 1]); (c 3, [v 5; c 2]); (s 4, [c 3])].

  Let rank (g : gid) : nat := N.to_nat (gnum g) + match gkind g with KValue => 0 | _ => 10 end.

  Example C07_hypotheses : ranked_ops rank ops.
  Proof.
    intros cl nw H. simpl in H.
    repeat destruct H as [H|H]; try contradiction; inversion H; subst; clear H;
      (split; [repeat constructor; unfold gid_lt; simpl; lia
              |intros p Hp; simpl in Hp; repeat destruct Hp as [<-|Hp]; try contradiction;
               vm_compute; lia]).
  Qed.

  Example C07_graph :
    option_map (fun g => (rel (g_pc g) (v 1), rel (g_cp g) (c 3))) (replay graph_new ops) =
    Some ([c 2], [v 5; c 2]).
  Proof. reflexivity. Qed.

  (* dropping the subscription detaches both computeds and disconnects both values *)
  Example C07_cascade :
    match replay graph_new ops with
    | Some g => set_parent_for_client g (s 4) [] =
        Some (graph_new, [(v 1, false); (v 5, false); (c 2, false); (c 3, false); (s 4, false)])
    | None => False
    end.
  Proof. reflexivity. Qed.
End Example_C07.

(** ** C08 *)

(** The traversal terminates on every graph (cyclic ones included) and yields, in id order and
    without repetition, exactly the transitive dependents. *)
Theorem C08_all_deps g id :
  exists r, get_all_deps g id = Some r /\ sorted r /\ NoDup r /\
    forall x, In x r <-> dependents (child g) id x.
Proof.
  destruct (get_all_deps_spec g id) as (r & X & S & D).
  exists r; repeat split; auto using sorted_NoDup; apply D.
Qed.
Print Assumptions C08_all_deps.

Section Example_C08.
  Let v n := GId KValue n.
  Let c n := GId KComputed n.
  Let s n := GId KClient n.
  Local Open Scope N_scope.

  (* a diamond with a cycle: 1 -> 2 -> 3 -> 2, 2 -> 4, 3 -> 4 *)
  Let g := Graph [(v 1, [c 2]); (c 2, [c 3; s 4]); (c 3, [c 2; s 4])] [].

  Example C08_cycle : get_all_deps g (v 1) = Some [c 2; c 3; s 4].
  Proof. reflexivity. Qed.
End Example_C08.
