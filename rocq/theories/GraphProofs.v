(** Lemmas about the dependency graph model. *)

From Coq Require Import List NArith Bool Lia Relations Arith FinFun.
From Verif Require Import GraphModel GraphSpec.
Import ListNotations.

(** ** Ids *)

Lemma kind_rank_inj a b : kind_rank a = kind_rank b -> a = b.
Proof. destruct a, b; simpl; intros; congruence. Qed.

Lemma gid_cmp_spec a b :
  match gid_cmp a b with
  | Eq => a = b
  | Lt => gid_lt a b
  | Gt => gid_lt b a
  end.
Proof.
  destruct a as [ka na], b as [kb nb]; unfold gid_cmp, gid_lt; simpl.
  destruct (N.compare_spec (kind_rank ka) (kind_rank kb)) as [H|H|H].
  - apply kind_rank_inj in H; subst kb.
    destruct (N.compare_spec na nb); subst; auto.
  - auto.
  - auto.
Qed.

Lemma gid_lt_irrefl a : ~ gid_lt a a.
Proof. unfold gid_lt; intros [H|[_ H]]; lia. Qed.

Lemma gid_lt_trans a b c : gid_lt a b -> gid_lt b c -> gid_lt a c.
Proof.
  unfold gid_lt; intros [H|[E H]] [H'|[E' H']].
  - left; lia.
  - left; rewrite <- E'; assumption.
  - left; rewrite E; assumption.
  - right; split; [congruence|lia].
Qed.

Lemma gid_eqb_spec a b : reflect (a = b) (gid_eqb a b).
Proof.
  unfold gid_eqb; pose proof (gid_cmp_spec a b) as H.
  destruct (gid_cmp a b); constructor; auto;
    intros ->; eapply gid_lt_irrefl; eauto.
Qed.

Lemma gid_eqb_refl a : gid_eqb a a = true.
Proof. destruct (gid_eqb_spec a a); congruence. Qed.

Lemma gid_eqb_neq a b : a <> b -> gid_eqb a b = false.
Proof. destruct (gid_eqb_spec a b); congruence. Qed.

Lemma gid_eq_dec (a b : gid) : {a = b} + {a <> b}.
Proof. destruct (gid_eqb_spec a b); auto. Qed.

Lemma gid_lt_total a b : gid_lt a b \/ a = b \/ gid_lt b a.
Proof. pose proof (gid_cmp_spec a b); destruct (gid_cmp a b); auto. Qed.

(** ** Sets *)

Lemma set_insert_In x l y : In y (set_insert x l) <-> y = x \/ In y l.
Proof.
  induction l as [|z l IH]; simpl; [intuition|].
  pose proof (gid_cmp_spec x z) as H; destruct (gid_cmp x z); subst; simpl; rewrite ?IH; intuition.
Qed.

Lemma sorted_In_lt x l y : sorted (x :: l) -> In y l -> gid_lt x y.
Proof. intros S I; inversion S; subst; rewrite Forall_forall in *; auto. Qed.

Lemma sorted_tail x l : sorted (x :: l) -> sorted l.
Proof. inversion 1; auto. Qed.

Lemma set_insert_sorted x l : sorted l -> sorted (set_insert x l).
Proof.
  induction l as [|z l IH]; simpl; intros S.
  - constructor; [constructor|constructor].
  - pose proof (gid_cmp_spec x z) as H; destruct (gid_cmp x z); subst; auto.
    + constructor; auto. constructor; auto.
      apply Forall_forall; intros y Hy; eapply gid_lt_trans; eauto using sorted_In_lt.
    + inversion S; subst. constructor; auto.
      apply Forall_forall; intros y Hy; apply set_insert_In in Hy as [->|Hy]; auto.
      rewrite Forall_forall in *; auto.
Qed.

Lemma sorted_NoDup l : sorted l -> NoDup l.
Proof.
  induction 1 as [|x l F S IH]; constructor; auto.
  intros I; rewrite Forall_forall in F; eapply gid_lt_irrefl; eauto.
Qed.

Lemma sorted_ext l l' : sorted l -> sorted l' -> (forall x, In x l <-> In x l') -> l = l'.
Proof.
  revert l'; induction l as [|x l IH]; intros [|y l'] S S' E.
  - reflexivity.
  - exfalso; apply (proj2 (E y)); simpl; auto.
  - exfalso; apply (proj1 (E x)); simpl; auto.
  - assert (x = y) as ->.
    { destruct (proj1 (E x)) as [->|I]; simpl; auto.
      destruct (proj2 (E y)) as [->|I']; simpl; auto.
      exfalso; eapply gid_lt_irrefl, gid_lt_trans; eapply sorted_In_lt; eauto. }
    f_equal. inversion S; inversion S'; subst. apply IH; auto.
    intros z; split; intros I.
    + destruct (proj1 (E z)) as [->|]; simpl; auto.
      exfalso; eapply gid_lt_irrefl, (sorted_In_lt z l); eauto.
    + destruct (proj2 (E z)) as [->|]; simpl; auto.
      exfalso; eapply gid_lt_irrefl, (sorted_In_lt z l'); eauto.
Qed.

Lemma filter_sorted f l : sorted l -> sorted (filter f l).
Proof.
  induction 1 as [|x l F S IH]; simpl; [constructor|].
  destruct (f x); auto. constructor; auto.
  rewrite Forall_forall in *; intros y Hy; apply filter_In in Hy; intuition.
Qed.

Lemma set_remove_In x l y : In y (set_remove x l) <-> In y l /\ y <> x.
Proof.
  unfold set_remove; rewrite filter_In.
  destruct (gid_eqb_spec x y); simpl; intuition; congruence.
Qed.

Lemma set_mem_spec x l : reflect (In x l) (set_mem x l).
Proof.
  unfold set_mem; destruct (existsb (gid_eqb x) l) eqn:E; constructor.
  - apply existsb_exists in E as (y & I & E). destruct (gid_eqb_spec x y); congruence.
  - intros I. assert (existsb (gid_eqb x) l = true); [|congruence].
    apply existsb_exists; exists x; split; auto using gid_eqb_refl.
Qed.

Lemma set_difference_In a b x : In x (set_difference a b) <-> In x a /\ ~ In x b.
Proof.
  unfold set_difference; rewrite filter_In. destruct (set_mem_spec x b); simpl; intuition; congruence.
Qed.

Lemma fold_insert_In l s x :
  In x (fold_left (fun s x => set_insert x s) l s) <-> In x s \/ In x l.
Proof.
  revert s; induction l as [|y l IH]; intros s; simpl; [intuition|].
  rewrite IH, set_insert_In; intuition; subst; auto.
Qed.

Lemma fold_insert_sorted l s :
  sorted s -> sorted (fold_left (fun s x => set_insert x s) l s).
Proof. revert s; induction l; simpl; auto using set_insert_sorted. Qed.

Lemma set_of_list_In l x : In x (set_of_list l) <-> In x l.
Proof. unfold set_of_list; rewrite fold_insert_In; simpl; intuition. Qed.

Lemma set_of_list_sorted l : sorted (set_of_list l).
Proof. apply fold_insert_sorted; constructor. Qed.

Lemma set_insert_length x l : length (set_insert x l) <= S (length l).
Proof. induction l as [|y l IH]; simpl; auto. destruct (gid_cmp x y); simpl; lia. Qed.

Lemma filter_all f (l : list gid) : (forall x, In x l -> f x = true) -> filter f l = l.
Proof.
  induction l as [|y l IH]; simpl; intros H; auto.
  rewrite (H y), IH; auto.
Qed.

Lemma filter_length_le (f : gid -> bool) l : length (filter f l) <= length l.
Proof. induction l as [|y l IH]; simpl; auto. destruct (f y); simpl; lia. Qed.

Lemma set_remove_length x l : sorted l -> In x l -> S (length (set_remove x l)) = length l.
Proof.
  unfold set_remove; induction 1 as [|y l F S IH]; simpl; [tauto|].
  intros [->|I].
  - rewrite gid_eqb_refl; simpl. rewrite filter_all; auto.
    intros z Hz; rewrite gid_eqb_neq; auto.
    rewrite Forall_forall in F; intros ->; eapply gid_lt_irrefl; eauto.
  - rewrite gid_eqb_neq by (rewrite Forall_forall in F; intros ->; eapply gid_lt_irrefl; eauto).
    simpl; rewrite IH; auto.
Qed.

(** ** One-to-many maps *)

Lemma tidy_cons k s m : tidy ((k, s) :: m) <->
  Forall (gid_lt k) (map fst m) /\ s <> [] /\ sorted s /\ tidy m.
Proof.
  unfold tidy; simpl; split.
  - intros [S F]; inversion S; inversion F; subst; simpl in *; intuition.
  - intros (A & B & C & D & E); split; constructor; simpl; auto.
Qed.

Lemma tidy_nil : tidy [].
Proof. split; constructor. Qed.

Lemma map_get_lt m k : Forall (gid_lt k) (map fst m) -> map_get m k = None.
Proof.
  induction m as [|[k' s] m IH]; simpl; auto. inversion 1; subst.
  rewrite gid_eqb_neq; auto. intros ->; eapply gid_lt_irrefl; eauto.
Qed.

Lemma rel_cons k s m k' : rel ((k, s) :: m) k' = if gid_eqb k' k then s else rel m k'.
Proof. unfold rel; simpl; destruct (gid_eqb k' k); auto. Qed.

Lemma o2m_add_keys m l r k : In k (map fst (o2m_add m l r)) <-> k = l \/ In k (map fst m).
Proof.
  induction m as [|[k' s] m IH]; simpl; [intuition|].
  pose proof (gid_cmp_spec l k') as H; destruct (gid_cmp l k'); subst; simpl; rewrite ?IH; intuition.
Qed.

Lemma o2m_add_tidy m l r : tidy m -> tidy (o2m_add m l r).
Proof.
  induction m as [|[k s] m IH]; simpl; intros T.
  - apply tidy_cons; repeat split; try constructor; congruence || constructor.
  - pose proof T as T0. apply tidy_cons in T as (A & B & C & D).
    pose proof (gid_cmp_spec l k) as H; destruct (gid_cmp l k); subst.
    + apply tidy_cons; repeat split; auto; try apply D.
      * destruct s as [|x s]; simpl; [congruence|destruct (gid_cmp r x); congruence].
      * apply set_insert_sorted; auto.
    + apply tidy_cons; repeat split; auto; try apply T0; try congruence.
      * simpl; constructor; auto. eapply Forall_impl; [|exact A].
        intros; eapply gid_lt_trans; eauto.
      * constructor; constructor.
    + apply tidy_cons; repeat split; auto; try (apply IH; exact D).
      apply Forall_forall; intros x Hx; apply o2m_add_keys in Hx as [->|Hx]; auto.
      rewrite Forall_forall in A; auto.
Qed.

Lemma o2m_add_rel m l r k x : tidy m ->
  (In x (rel (o2m_add m l r) k) <-> (k = l /\ x = r) \/ In x (rel m k)).
Proof.
  induction m as [|[k' s] m IH]; simpl; intros T.
  - rewrite rel_cons. destruct (gid_eqb_spec k l); unfold rel; simpl; intuition.
  - apply tidy_cons in T as (A & B & C & D). specialize (IH D).
    pose proof (gid_cmp_spec l k') as H; destruct (gid_cmp l k'); subst; rewrite !rel_cons.
    + destruct (gid_eqb_spec k k'); [rewrite set_insert_In|]; intuition; congruence.
    + destruct (gid_eqb_spec k l) as [->|].
      * rewrite gid_eqb_neq by (intros ->; eapply gid_lt_irrefl; eauto).
        assert (map_get m l = None).
        { apply map_get_lt. eapply Forall_impl; [|exact A]. intros; eapply gid_lt_trans; eauto. }
        unfold rel; rewrite H0; simpl; intuition; congruence.
      * destruct (gid_eqb_spec k k'); intuition; congruence.
    + destruct (gid_eqb_spec k k') as [->|].
      * split; auto. intros [[-> _]|]; auto. exfalso; eapply gid_lt_irrefl; eauto.
      * exact IH.
Qed.

Lemma o2m_remove_keys m p c k : In k (map fst (o2m_remove m p c)) -> In k (map fst m).
Proof.
  induction m as [|[k' s] m IH]; simpl; auto.
  destruct (gid_eqb p k').
  - destruct (set_remove c s); simpl; intuition.
  - simpl; intuition.
Qed.

Lemma o2m_remove_tidy m p c : tidy m -> tidy (o2m_remove m p c).
Proof.
  induction m as [|[k s] m IH]; simpl; intros T; auto.
  apply tidy_cons in T as (A & B & C & D).
  destruct (gid_eqb p k).
  - destruct (set_remove c s) eqn:E; auto.
    apply tidy_cons; repeat split; auto; try apply D; try congruence.
    rewrite <- E; apply filter_sorted; auto.
  - apply tidy_cons; repeat split; auto; try (apply IH; exact D).
    rewrite Forall_forall in *; intros x Hx; apply A, (o2m_remove_keys _ _ _ _ Hx).
Qed.

Lemma o2m_remove_rel m p c k x : tidy m ->
  (In x (rel (o2m_remove m p c) k) <-> In x (rel m k) /\ ~ (k = p /\ x = c)).
Proof.
  induction m as [|[k' s] m IH]; simpl; intros T.
  - unfold rel; simpl; intuition.
  - apply tidy_cons in T as (A & B & C & D). specialize (IH D).
    destruct (gid_eqb_spec p k') as [->|N].
    + assert (forall t, In x (rel ((k', t) :: m) k) <->
                (if gid_eqb k k' then In x t else In x (rel m k))) as R.
      { intros; rewrite rel_cons; destruct (gid_eqb k k'); tauto. }
      assert (In x (rel (match set_remove c s with [] => m | s' => (k', s') :: m end) k) <->
              (if gid_eqb k k' then In x (set_remove c s) else In x (rel m k))) as ->.
      { destruct (set_remove c s) as [|y s'].
        - destruct (gid_eqb_spec k k') as [->|]; [|tauto].
          unfold rel; rewrite map_get_lt by auto; simpl; tauto.
        - apply R. }
      rewrite R. destruct (gid_eqb_spec k k') as [->|]; [rewrite set_remove_In|]; intuition; congruence.
    + rewrite !rel_cons. destruct (gid_eqb_spec k k') as [->|]; [|exact IH].
      intuition; congruence.
Qed.

Lemma edge_count_cons e m : edge_count (e :: m) = length (snd e) + edge_count m.
Proof. reflexivity. Qed.

Lemma o2m_add_count m l r : edge_count (o2m_add m l r) <= S (edge_count m).
Proof.
  induction m as [|[k s] m IH]; simpl; auto.
  destruct (gid_cmp l k); rewrite !edge_count_cons; simpl; try lia.
  pose proof (set_insert_length r s); unfold edge_count in *; lia.
Qed.

Lemma o2m_remove_count m p c : tidy m -> In c (rel m p) ->
  S (edge_count (o2m_remove m p c)) = edge_count m.
Proof.
  induction m as [|[k s] m IH]; simpl; intros T I; [contradiction|].
  apply tidy_cons in T as (A & B & C & D). rewrite rel_cons in I.
  destruct (gid_eqb_spec p k) as [->|N].
  - pose proof (set_remove_length c s C I) as L.
    destruct (set_remove c s) as [|y s'] eqn:E; simpl in *; rewrite ?edge_count_cons; simpl;
      unfold edge_count in *; lia.
  - rewrite edge_count_cons; simpl. specialize (IH D I). unfold edge_count in *; lia.
Qed.

Lemma rel_sorted m k : tidy m -> sorted (rel m k).
Proof.
  induction m as [|[k' s] m IH]; intros T; [constructor|].
  apply tidy_cons in T as (A & B & C & D). rewrite rel_cons. destruct (gid_eqb k k'); auto.
Qed.

Lemma is_empty_spec l : is_empty l = true <-> l = [].
Proof. destruct l; simpl; intuition; congruence. Qed.

(** ** Single edges *)

Definition g_add (g : graph) (p c : gid) := Graph (o2m_add (g_pc g) p c) (o2m_add (g_cp g) c p).
Definition g_remove (g : graph) (p c : gid) :=
  Graph (o2m_remove (g_pc g) p c) (o2m_remove (g_cp g) c p).

Lemma intact_new : intact graph_new.
Proof.
  split; [|split; apply tidy_nil]. intros p c; unfold child, parent, rel; simpl; tauto.
Qed.

Lemma g_add_child g p c a b : intact g -> (child (g_add g p c) a b <-> (a = p /\ b = c) \/ child g a b).
Proof. intros (_ & T & _); unfold child, g_add; simpl. apply o2m_add_rel; auto. Qed.

Lemma g_add_intact g p c : intact g -> intact (g_add g p c).
Proof.
  intros I; pose proof I as (E & T & T'). split; [|split; apply o2m_add_tidy; auto].
  intros a b; rewrite g_add_child by auto. unfold parent, g_add; simpl.
  rewrite o2m_add_rel by auto. rewrite E; unfold parent. tauto.
Qed.

Lemma g_remove_child g p c a b : intact g ->
  (child (g_remove g p c) a b <-> child g a b /\ ~ (a = p /\ b = c)).
Proof. intros (_ & T & _); unfold child, g_remove; simpl. apply o2m_remove_rel; auto. Qed.

Lemma g_remove_intact g p c : intact g -> intact (g_remove g p c).
Proof.
  intros I; pose proof I as (E & T & T'). split; [|split; apply o2m_remove_tidy; auto].
  intros a b; rewrite g_remove_child by auto. unfold parent, g_remove; simpl.
  rewrite o2m_remove_rel by auto. rewrite E; unfold parent. tauto.
Qed.

Lemma child_parent g p c : intact g -> child g p c <-> In p (rel (g_cp g) c).
Proof. intros (E & _); apply E. Qed.

(** ** The cascade *)

  Lemma fold_nodes_In us s x :
    In x (fold_left (fun s u => set_insert (update_parent u) s) us s) <->
    In x s \/ exists u, In u us /\ update_parent u = x.
  Proof.
    revert s; induction us as [|u us IH]; intros s; simpl.
    - firstorder.
    - rewrite IH, set_insert_In. split.
      + intros [[->|H]|(v & H & <-)]; eauto.
      + intros [H|(v & [->|H] & <-)]; eauto.
  Qed.

  Lemma fold_nodes_sorted us s :
    sorted s -> sorted (fold_left (fun s u => set_insert (update_parent u) s) us s).
  Proof. revert s; induction us; simpl; auto using set_insert_sorted. Qed.

Section Cascade.
  Variable E : gid -> gid -> Prop.       (* the edges before *)
  Variable client : gid.
  Variable new : list gid.
  Variable rank : gid -> nat.
  Hypothesis ranked : forall p c, E p c -> rank p < rank c.

  Let orph := orphaned E client new.

  (* pending removals *)
  Definition pend (us : list update) (p c : gid) : Prop := In (URemove p c) us.

  Record inv (g : graph) (us : list update) : Prop := {
    i_intact : intact g;
    i_rem : forall u, In u us -> exists p c, u = URemove p c;
    i_nodup : NoDup us;
    i_edge : forall p c, pend us p c -> child g p c /\ E p c;
    i_rank : forall p c, pend us p c -> rank p < rank client;
    i_why : forall p c, pend us p c ->
      (c = client /\ ~ In p new) \/
      (c <> client /\ orph c /\ forall d, ~ child g c d);
    i_sub : forall p c, child g p c -> (c = client /\ In p new) \/ E p c;
    i_gone : forall p c, E p c -> ~ child g p c ->
      (c = client /\ ~ In p new) \/ (c <> client /\ orph c);
    i_new : forall p, In p new -> child g p client;
    i_off : forall p, child g p client -> ~ In p new -> pend us p client;
    i_casc : forall c, c <> client -> (exists d, E c d) -> (forall d, ~ child g c d) ->
      forall p, child g p c -> pend us p c
  }.

  (* the same invariant, but node [n] may not have been cascaded yet *)
  Lemma inv_step g p c us n :
    inv g (URemove p c :: us) ->
    exec_command g (URemove p c) = (g_remove g p c, n) ->
    inv (g_remove g p c) (us ++ n).
  Proof.
    intros I X. destruct I as [II IR IN IE IK IW IS IG INW IO IC].
    assert (child g p c /\ E p c) as [CH EE] by (apply IE; left; auto).
    assert (rank p < rank client) as RK by (eapply (IK p c); left; auto).
    assert (p <> client) as PC by (intros ->; lia).
    assert (forall a b, child (g_remove g p c) a b <-> child g a b /\ ~ (a = p /\ b = c)) as RC
      by (intros; apply g_remove_child; auto).
    assert (intact (g_remove g p c)) as II' by (apply g_remove_intact; auto).
    assert (~ In (URemove p c) us) as NI by (inversion IN; auto).
    assert (NoDup us) as ND by (inversion IN; auto).
    assert (WHY : (c = client /\ ~ In p new) \/ (c <> client /\ orph c /\ forall d, ~ child g c d))
      by (apply IW; left; auto).
    (* what is emitted *)
    assert (NSPEC : (forall d, ~ child (g_remove g p c) p d) /\
                    n = map (fun q => URemove q p) (rel (g_cp (g_remove g p c)) p) \/
                    (exists d, child (g_remove g p c) p d) /\ n = []).
    { unfold exec_command in X. inversion X as [[X1]]. clear X. subst n.
      unfold g_remove at 1 3; simpl.
      destruct (rel (o2m_remove (g_pc g) p c) p) as [|d ds] eqn:RE; simpl.
      - left; split; auto. intros d; unfold child; simpl; rewrite RE; simpl; auto.
      - right; split; auto. exists d; unfold child; simpl; rewrite RE; simpl; auto. }
    (* an emission means p is orphaned *)
    assert (ORPH : (forall d, ~ child (g_remove g p c) p d) -> orph p).
    { intros NC. constructor.
      - exists c; auto.
      - intros In'. specialize (INW p In'). apply (NC client), RC. split; auto.
        intros [_ Ec]; subst c. destruct WHY as [[_ W]|[W _]]; auto.
      - intros d Ed. destruct (gid_eq_dec d c) as [->|Ndc].
        + destruct WHY as [[W _]|[_ [W _]]]; auto.
        + assert (~ child g p d) as Hd.
          { intros Hd; apply (NC d), RC; split; auto. intros [_ ?]; auto. }
          destruct (IG p d Ed Hd) as [[? _]|[_ ?]]; auto. }
    assert (PN : forall a b, pend (us ++ n) a b <->
                pend us a b \/ (b = p /\ child (g_remove g p c) a p /\
                                forall d, ~ child (g_remove g p c) p d)).
    { intros a b; unfold pend; rewrite in_app_iff.
      destruct NSPEC as [[NC ->]|[[d Hd] ->]].
      - rewrite in_map_iff. split; (intros [H|H]; [left; exact H|right]).
        + destruct H as (q & Q & Hq). inversion Q; subst. repeat split; auto.
          apply child_parent; auto.
        + destruct H as (-> & Ha & _). exists a; split; auto. apply child_parent; auto.
      - simpl. split; [tauto|]. intros [H|(_ & _ & H)]; [tauto|]. exfalso; eapply H; eauto. }
    assert (NCP : forall q, ~ pend us q p).
    { intros q Hq. destruct (IW q p) as [[? _]|(_ & _ & W)]; [right; auto|auto|]. eapply W; eauto. }
    constructor.
    - auto.
    - intros u Hu; apply in_app_iff in Hu as [Hu|Hu].
      + apply IR; right; auto.
      + destruct NSPEC as [[_ ->]|[_ ->]]; [|contradiction].
        apply in_map_iff in Hu as (q & <- & _). eauto.
    - destruct NSPEC as [[NC Hn]|[_ ->]]; [|rewrite app_nil_r; auto].
      assert (NoDup n) as NDn.
      { subst n. apply FinFun.Injective_map_NoDup.
        - intros x y Q; congruence.
        - apply sorted_NoDup, rel_sorted. apply II'. }
      clear - ND NDn NCP Hn. induction us as [|u us IHu]; simpl; auto.
      inversion ND; subst. constructor.
      + rewrite in_app_iff; intros [H|H]; auto.
        apply in_map_iff in H as (q & <- & _). eapply NCP; left; reflexivity.
      + apply IHu; auto. intros q Hq; eapply NCP; right; eauto.
    - intros a b Hab. apply PN in Hab as [Hab|(-> & Hc & _)].
      + destruct (IE a b) as [Q1 Q2]; [right; auto|]. split; auto. apply RC; split; auto.
        intros [-> ->]; auto.
      + split; auto. apply RC in Hc as [Hc _].
        destruct (IS a p Hc) as [[? _]|]; auto. contradiction.
    - intros a b Hab. apply PN in Hab as [Hab|(-> & Hc & _)].
      + eapply IK; right; eauto.
      + apply RC in Hc as [Hc _]. destruct (IS a p Hc) as [[? _]|Q]; [contradiction|].
        apply ranked in Q; lia.
    - intros a b Hab. apply PN in Hab as [Hab|(-> & Hc & NC)].
      + destruct (IW a b) as [?|(Q1 & Q2 & Q3)]; [right; auto|left; auto|].
        right. refine (conj Q1 (conj Q2 _)). intros d Hd; apply RC in Hd as [Hd _]; eapply Q3; eauto.
      + right. refine (conj PC (conj (ORPH NC) NC)).
    - intros a b Hab; apply RC in Hab as [Hab _]; auto.
    - intros a b Hab Hn. destruct (gid_eq_dec a p) as [->|Na].
      + destruct (gid_eq_dec b c) as [->|Nb].
        * destruct WHY as [?|(? & ? & _)]; auto.
        * apply IG; auto. intros Hc; apply Hn, RC; split; auto. intros [_ ?]; auto.
      + apply IG; auto. intros Hc; apply Hn, RC; split; auto. intros [? _]; auto.
    - intros q Hq. apply RC; split; auto. intros [-> <-].
      destruct WHY as [[_ ?]|[? _]]; auto.
    - intros q Hq Hn'. apply RC in Hq as [Hq NE]. apply PN; left.
      destruct (IO q Hq Hn') as [Q|Q]; auto. inversion Q; subst. exfalso; auto.
    - intros a Na Ha Hno q Hq. apply PN.
      destruct (gid_eq_dec a p) as [->|Nap].
      + right; auto.
      + left. apply RC in Hq as [Hq NE].
        assert (forall d, ~ child g a d) as Hno'.
        { intros d Hd; apply (Hno d), RC; split; auto. intros [? _]; auto. }
        destruct (IC a Na Ha Hno' q Hq) as [Q|Q]; auto. inversion Q; subst. exfalso; auto.
  Qed.

  Lemma inv_list us : forall g pre g' n,
    inv g (us ++ pre) ->
    exec_command_list g us = (g', n) ->
    inv g' (pre ++ n) /\ edge_count (g_cp g') + length us = edge_count (g_cp g).
  Proof.
    induction us as [|u us IH]; intros g pre g' n I X; simpl in X.
    - inversion X; subst. rewrite app_nil_r; split; auto.
    - destruct (i_rem _ _ I u) as (p & c & ->); [simpl; auto|].
      destruct (exec_command g (URemove p c)) as [g1 n1] eqn:X1.
      destruct (exec_command_list g1 us) as [g2 n2] eqn:X2.
      inversion X; subst g2 n; clear X.
      assert (g1 = g_remove g p c) as -> by (unfold exec_command in X1; inversion X1; reflexivity).
      pose proof (inv_step g p c (us ++ pre) n1 I X1) as I1.
      rewrite <- app_assoc in I1.
      destruct (IH _ _ _ _ I1 X2) as [I2 L].
      rewrite <- app_assoc in I2. split; auto.
      assert (child g p c) as CH by (apply (i_edge _ _ I); left; auto).
      pose proof (i_intact _ _ I) as IT.
      apply child_parent in CH; auto.
      pose proof (o2m_remove_count (g_cp g) c p) as RCt.
      specialize (RCt (proj2 (proj2 IT)) CH). unfold g_remove in L; simpl in *. lia.
  Qed.

  (* the nodes that lost or are about to lose an edge have been (or will be) recorded *)
  Definition recorded (g : graph) (nodes : list gid) (us : list update) : Prop :=
    sorted nodes /\ In client nodes /\
    (forall n, In n nodes -> n = client \/ (exists c, E n c) \/ In n new) /\
    (forall p c, E p c -> ~ child g p c -> In p nodes) /\
    (forall p, In p new -> ~ E p client -> In p nodes).

  Lemma list_keeps us : forall g g' n a b,
    intact g -> (forall u, In u us -> exists p c, u = URemove p c) ->
    exec_command_list g us = (g', n) ->
    child g a b -> ~ child g' a b -> exists u, In u us /\ update_parent u = a.
  Proof.
    induction us as [|u us IH]; intros g g' n a b IT R X C NC; simpl in X.
    - inversion X; subst; contradiction.
    - destruct (R u) as (p & c & ->); [left; auto|].
      destruct (exec_command g (URemove p c)) as [g1 n1] eqn:X1.
      destruct (exec_command_list g1 us) as [g2 n2] eqn:X2. inversion X; subst g2 n.
      assert (g1 = g_remove g p c) as -> by (unfold exec_command in X1; inversion X1; reflexivity).
      destruct (gid_eq_dec a p) as [->|N].
      + exists (URemove p c); simpl; auto.
      + destruct (IH _ _ _ a b (g_remove_intact _ p c IT) (fun u H => R u (or_intror H)) X2) as (u & Hu & <-);
          auto.
        * apply g_remove_child; auto. split; auto. intros [? _]; auto.
        * exists u; simpl; auto.
  Qed.

  Lemma recorded_step g nodes us g' n :
    inv g us -> recorded g nodes us -> exec_command_list g us = (g', n) ->
    recorded g' (fold_left (fun s u => set_insert (update_parent u) s) us nodes) n.
  Proof.
    intros I (S & C & W & G & A) X.
    destruct (inv_list us g [] g' n) as [I' _]; [rewrite app_nil_r; auto|auto|].
    split; [|split; [|split; [|split]]].
    - apply fold_nodes_sorted; auto.
    - apply fold_nodes_In; auto.
    - intros m Hm; apply fold_nodes_In in Hm as [Hm|(u & Hu & <-)]; auto.
      destruct (i_rem _ _ I u Hu) as (p & c & ->). simpl. right; left.
      exists c. apply (i_edge _ _ I p c Hu).
    - intros p c Hpc Hno. apply fold_nodes_In.
      destruct (in_dec gid_eq_dec c (rel (g_pc g) p)) as [H|H].
      + right. eapply list_keeps; eauto. apply (i_intact _ _ I). apply (i_rem _ _ I).
      + left; eapply G; eauto.
    - intros p Hp Hn. apply fold_nodes_In; left; auto.
  Qed.

  Lemma orph_ind2 (P : gid -> Prop) :
    (forall n, (exists c, E n c) -> ~ In n new ->
       (forall c, E n c -> c = client \/ (orph c /\ P c)) -> P n) ->
    forall n, orph n -> P n.
  Proof.
    intros H. fix IH 2. intros n O. destruct O as [n Ex NI ALL].
    apply H; auto. intros c Hc. destruct (ALL c Hc) as [?|O]; [left; auto|right].
    split; [exact O|apply IH; exact O].
  Qed.

  Lemma inv_done_orph g : inv g [] -> forall n, orph n -> forall d, ~ child g n d.
  Proof.
    intros I. apply (orph_ind2 (fun n => forall d, ~ child g n d)).
    intros n Ex NI ALL d Hd.
    destruct (i_sub _ _ I n d Hd) as [[-> ?]|Ed]; auto.
    destruct (gid_eq_dec d client) as [->|Nd].
    - apply (i_off _ _ I n Hd NI).
    - destruct (ALL d Ed) as [?|[Od CD]]; auto.
      apply (i_casc _ _ I d Nd) with (p := n); auto.
      inversion Od; auto.
  Qed.

  Lemma inv_done g : inv g [] ->
    intact g /\
    forall p c, child g p c <-> (c = client /\ In p new) \/ (c <> client /\ E p c /\ ~ orph c).
  Proof.
    intros I. split; [apply (i_intact _ _ I)|]. intros p c; split.
    - intros C. destruct (gid_eq_dec c client) as [->|N].
      + left; split; auto. destruct (in_dec gid_eq_dec p new); auto.
        exfalso; apply (i_off _ _ I p C n).
      + right. destruct (i_sub _ _ I p c C) as [[? _]|Ec]; [contradiction|].
        repeat split; auto. intros O.
        apply (i_casc _ _ I c N) with (p := p); auto.
        * inversion O; auto.
        * apply inv_done_orph; auto.
    - intros [[-> Hp]|(N & Ec & NO)].
      + apply (i_new _ _ I); auto.
      + destruct (in_dec gid_eq_dec c (rel (g_pc g) p)) as [H|H]; auto.
        destruct (i_gone _ _ I p c Ec H) as [[? _]|[_ ?]]; contradiction.
  Qed.

  Lemma loop_done fuel : forall g nodes us,
    inv g us -> recorded g nodes us -> edge_count (g_cp g) < fuel ->
    exists g' nodes',
      set_parent_loop fuel g nodes us = Some (g', get_info_about_active g' nodes') /\ inv g' [] /\ recorded g' nodes' [].
  Proof.
    induction fuel as [|f IH]; intros g nodes us I R L; [lia|]. simpl.
    destruct (exec_command_list g us) as [g1 n1] eqn:X.
    destruct (inv_list us g [] g1 n1) as [I1 L1]; [rewrite app_nil_r; auto|auto|]. simpl in I1.
    pose proof (recorded_step _ _ _ _ _ I R X) as R1.
    destruct n1 as [|u n1].
    - eexists _, _; split; [reflexivity|]. auto.
    - apply IH; auto. 
      assert (us <> []) by (intros ->; simpl in X; inversion X).
      destruct us; [congruence|simpl in L1; lia].
  Qed.
End Cascade.

(** ** The first round: additions, then removals *)

Lemma exec_list_app us vs : forall g,
  exec_command_list g (us ++ vs) =
  let '(g1, n1) := exec_command_list g us in
  let '(g2, n2) := exec_command_list g1 vs in (g2, n1 ++ n2).
Proof.
  induction us as [|u us IH]; intros g; simpl.
  - destruct (exec_command_list g vs); auto.
  - destruct (exec_command g u) as [g0 n0]. rewrite IH.
    destruct (exec_command_list g0 us) as [g1 n1].
    destruct (exec_command_list g1 vs) as [g2 n2]. rewrite app_assoc; auto.
Qed.

Lemma exec_adds client l : forall g, intact g ->
  exists g', exec_command_list g (map (fun p => UAdd p client) l) = (g', []) /\ intact g' /\ edge_count (g_cp g') <= edge_count (g_cp g) + length l /\ forall p c, child g' p c <-> (c = client /\ In p l) \/ child g p c.
Proof.
  induction l as [|x l IH]; intros g I; simpl.
  - exists g; split; [auto|split; [auto|split; [lia|intros p c; tauto]]].
  - destruct (IH (g_add g x client) (g_add_intact _ _ _ I)) as (g' & X & I' & L & C).
    unfold g_add in X at 1. rewrite X. exists g'; split; [auto|split; [auto|split]].
    + unfold g_add in L; simpl in L. pose proof (o2m_add_count (g_cp g) client x). lia.
    + intros p c; rewrite C, g_add_child by auto. intuition; subst; auto.
Qed.

Lemma fold_nodes_app us vs s :
  fold_left (fun s u => set_insert (update_parent u) s) (us ++ vs) s =
  fold_left (fun s u => set_insert (update_parent u) s) vs
    (fold_left (fun s u => set_insert (update_parent u) s) us s).
Proof. apply fold_left_app. Qed.

Lemma inv_start g g1 client new rank :
  intact g -> intact g1 -> sorted new ->
  (forall p c, child g p c -> rank p < rank c) ->
  (forall p c, child g1 p c <->
     (c = client /\ In p (set_difference new (rel (g_cp g) client))) \/ child g p c) ->
  inv (child g) client new rank g1
    (map (fun p => URemove p client) (set_difference (rel (g_cp g) client) new)).
Proof.
  intros I I1 S R C.
  assert (PE : forall p c, In (URemove p c)
      (map (fun p => URemove p client) (set_difference (rel (g_cp g) client) new)) <->
      c = client /\ child g p client /\ ~ In p new).
  { intros p c; rewrite in_map_iff; split.
    - intros (q & Q & H). inversion Q; subst. apply set_difference_In in H as [H1 H2].
      repeat split; auto. apply child_parent; auto.
    - intros (-> & H1 & H2). exists p; split; auto. apply set_difference_In; split; auto.
      apply child_parent in H1; auto. }
  assert (CN : forall p c, child g1 p c <-> (c = client /\ In p new) \/ child g p c).
  { intros p c; rewrite C, set_difference_In, <- (child_parent g p client I).
    destruct (in_dec gid_eq_dec client (rel (g_pc g) p)); intuition; subst; auto. }
  constructor; auto.
  - intros u Hu; apply in_map_iff in Hu as (p & <- & _); eauto.
  - apply FinFun.Injective_map_NoDup; [intros x y Q; congruence|].
    apply sorted_NoDup, filter_sorted, rel_sorted, I.
  - intros p c H. apply PE in H as (-> & H & _). split; auto. apply CN; auto.
  - intros p c H. apply PE in H as (-> & H & _); auto.
  - intros p c H. apply PE in H as (-> & _ & H); auto.
  - intros p c H. apply CN; auto.
  - intros p c H N. exfalso; apply N, CN; auto.
  - intros p H; apply CN; auto.
  - intros p H N. apply PE; repeat split; auto. apply CN in H as [[_ ?]|]; auto. contradiction.
  - intros c N [d Hd] No. exfalso. apply (No d), CN; auto.
Qed.

(** The whole of [set_parent_for_client]. *)
Theorem set_parent_spec g client new :
  intact g -> acyclic (child g) -> sorted new ->
  exists g' info,
    set_parent_for_client g client new = Some (g', info) /\
    intact g' /\
    (forall p c, child g' p c <->
       (c = client /\ In p new) \/
       (c <> client /\ child g p c /\ ~ orphaned (child g) client new c)) /\
    sorted (map fst info) /\
    (forall n b, In (n, b) info -> (b = true <-> exists c, child g' n c)) /\
    (forall n, orphaned (child g) client new n -> In (n, false) info) /\
    (forall n, In (n, false) info -> n = client \/ orphaned (child g) client new n) /\
    In client (map fst info) /\
    (forall p, In p new -> ~ child g p client -> In (p, true) info) /\
    (forall p c, child g p c -> ~ child g' p c -> In p (map fst info)).
Proof.
  intros I [rank R] S.
  unfold set_parent_for_client.
  set (fuel := 1 + edge_count (g_cp g) + length new).
  change (2 + edge_count (g_cp g) + length new) with (Datatypes.S fuel).
  unfold get_update_commands.
  set (adds := set_difference new (rel (g_cp g) client)).
  set (rems := map (fun p => URemove p client) (set_difference (rel (g_cp g) client) new)).
  destruct (exec_adds client adds g I) as (g1 & X1 & I1 & L1 & C1).
  pose proof (inv_start g g1 client new rank I I1 S R C1) as INV. fold rems in INV.
  cbn [set_parent_loop]. rewrite exec_list_app, X1, fold_nodes_app.
  set (nodes1 := fold_left _ (map (fun p => UAdd p client) adds) [client]).
  assert (REC : recorded (child g) client new g1 nodes1 rems).
  { split; [|split; [|split; [|split]]].
    - apply fold_nodes_sorted. repeat constructor.
    - apply fold_nodes_In; simpl; auto.
    - intros n Hn. apply fold_nodes_In in Hn as [[->|[]]|(u & Hu & <-)]; auto.
      apply in_map_iff in Hu as (p & <- & Hp). simpl. right; right.
      apply set_difference_In in Hp; tauto.
    - intros p c H N. exfalso; apply N, C1; auto.
    - intros p Hp N. apply fold_nodes_In. right. exists (UAdd p client); split; auto.
      apply in_map_iff. exists p; split; auto. apply set_difference_In; split; auto. intros Q; apply N, child_parent; auto. }
  assert (exists g' nodes',
    set_parent_loop (Datatypes.S fuel) g1 nodes1 rems = Some (g', get_info_about_active g' nodes') /\
    inv (child g) client new rank g' [] /\ recorded (child g) client new g' nodes' [])
    as (g' & nodes' & X & IV & RC).
  { apply loop_done; auto. unfold adds in L1.
    assert (length (set_difference new (rel (g_cp g) client)) <= length new)
      by (unfold set_difference; apply filter_length_le).
    unfold fuel; lia. }
  cbn [set_parent_loop] in X.
  destruct (exec_command_list g1 rems) as [g2 n2]. cbn [app].
  rewrite X. exists g', (get_info_about_active g' nodes').
  destruct (inv_done _ _ _ _ _ IV) as [I' CH].
  destruct RC as (SN & CN & WN & GN & AN).
  assert (FST : map fst (get_info_about_active g' nodes') = nodes').
  { unfold get_info_about_active; rewrite map_map; simpl; apply map_id. }
  assert (FLAG : forall n b, In (n, b) (get_info_about_active g' nodes') <->
            In n nodes' /\ b = negb (is_empty (rel (g_pc g') n))).
  { intros n b; unfold get_info_about_active; rewrite in_map_iff; split.
    - intros (m & Q & H); inversion Q; subst; auto.
    - intros [H ->]; eauto. }
  assert (ACT : forall n, negb (is_empty (rel (g_pc g') n)) = true <-> exists c, child g' n c).
  { intros n; unfold child. destruct (rel (g_pc g') n) as [|x l]; simpl; split; try congruence.
    - intros [c []].
    - intros _; exists x; simpl; auto. }
  rewrite FST.
  split; [reflexivity|]. split; [auto|]. split; [exact CH|]. split; [exact SN|].
  split; [|split; [|split; [|split; [|split]]]].
  - intros n b H. apply FLAG in H as [_ ->]. apply ACT.
  - intros n O. apply FLAG.
    assert (NC : forall d, ~ child g' n d) by (eapply inv_done_orph; eauto).
    split.
    + inversion O as [m [c Hc] NI ALL]; subst. eapply GN; eauto.
    + destruct (negb (is_empty (rel (g_pc g') n))) eqn:EB; auto.
      apply ACT in EB as [d Hd]. exfalso; eapply NC; eauto.
  - intros n H. apply FLAG in H as [Hn EB].
    assert (NC : forall d, ~ child g' n d).
    { intros d Hd. rewrite (proj2 (ACT n)) in EB by eauto. congruence. }
    destruct (WN n Hn) as [->|[[c Hc]|Hnew]]; auto.
    + right. constructor.
      * eauto.
      * intros Q. apply (NC client), CH; auto.
      * intros d Hd. destruct (i_gone _ _ _ _ _ _ IV n d Hd (NC d)) as [[? _]|[_ ?]]; auto.
    + exfalso. apply (NC client), CH; auto.
  - exact CN.
  - intros p Hp N. apply FLAG. split; [auto|]. symmetry; apply ACT. exists client; apply CH; auto.
  - exact GN.
Qed.

(** ** Transitive dependents *)

Lemma deps_push_spec items : forall result stack result' stack',
  sorted result ->
  deps_push items result stack = (result', stack') ->
  sorted result' /\
  (forall x, In x result' <-> In x result \/ In x items) /\
  (forall x, In x stack' <-> In x stack \/ (In x items /\ ~ In x result)) /\
  length stack' + length result = length stack + length result'.
Proof.
  induction items as [|i items IH]; intros result stack result' stack' S X; simpl in X.
  - inversion X; subst. simpl; firstorder.
  - destruct (set_mem_spec i result) as [Hi|Hi].
    + destruct (IH _ _ _ _ S X) as (S' & R' & K' & L'). split; [auto|split; [|split; [|lia]]].
      * intros x; rewrite R'; simpl; intuition; subst; auto.
      * intros x; rewrite K'; simpl; intuition; subst; contradiction.
    + destruct (IH _ _ _ _ (set_insert_sorted i result S) X) as (S' & R' & K' & L').
      split; [auto|split; [|split]].
      * intros x; rewrite R', set_insert_In; simpl; intuition; subst; auto.
      * intros x; rewrite K', set_insert_In; simpl.
        destruct (gid_eq_dec x i) as [->|]; intuition; subst; auto; congruence.
      * assert (length (set_insert i result) = Datatypes.S (length result)).
        { clear - Hi. induction result as [|y r IH]; simpl; auto.
          pose proof (gid_cmp_spec i y); destruct (gid_cmp i y); subst; simpl in *; auto.
          - exfalso; auto.
          - rewrite IH; auto. }
        simpl in *; lia.
Qed.

(** Every dependent is the target of a recorded edge. *)
Definition targets (m : o2m) : list gid := concat (map snd m).

Lemma targets_length m : length (targets m) = edge_count m.
Proof. induction m as [|[k s] m IH]; simpl; auto. unfold targets in *; simpl. rewrite app_length, IH; auto. Qed.

Lemma rel_targets m k x : In x (rel m k) -> In x (targets m).
Proof.
  induction m as [|[k' s] m IH]; [auto|]. rewrite rel_cons. unfold targets; simpl.
  rewrite in_app_iff. destruct (gid_eqb k k'); auto.
Qed.

Section Deps.
  Variable g : graph.
  Variable start : gid.

  Record dinv (result stack : list gid) : Prop := {
    d_sorted : sorted result;
    d_sound : forall x, In x result -> dependents (child g) start x;
    d_stack : forall x, In x stack -> x = start \/ In x result;
    d_closed : forall x y, x = start \/ In x result -> ~ In x stack -> child g x y -> In y result;
    d_targets : forall x, In x result -> In x (targets (g_pc g))
  }.

  Lemma deps_loop_spec fuel : forall result stack,
    dinv result stack ->
    length stack + length (targets (g_pc g)) - length result < fuel ->
    length result <= length (targets (g_pc g)) ->
    exists r, all_deps_loop fuel g result stack = Some r /\ dinv r [].
  Proof.
    induction fuel as [|f IH]; intros result stack D L LR; [lia|]. simpl.
    destruct stack as [|next rest]; [eauto|].
    destruct (deps_push (rel (g_pc g) next) result rest) as [result' stack'] eqn:X.
    destruct (deps_push_spec _ _ _ _ _ (d_sorted _ _ D) X) as (S' & R' & K' & LL).
    assert (DT : forall x, In x result' -> In x (targets (g_pc g))).
    { intros x Hx; apply R' in Hx as [Hx|Hx]; [apply (d_targets _ _ D); auto|eapply rel_targets; eauto]. }
    assert (length result' <= length (targets (g_pc g))) as LR'.
    { apply NoDup_incl_length; [apply sorted_NoDup; auto|exact DT]. }
    apply IH; auto; [|revert L LL; cbn [length]; lia].
    assert (NS : next = start \/ In next result) by (apply (d_stack _ _ D); simpl; auto).
    constructor; auto.
    - intros x Hx; apply R' in Hx as [Hx|Hx]; [apply (d_sound _ _ D); auto|].
      destruct NS as [->|NS]; [apply t_step; auto|].
      eapply t_trans; [apply (d_sound _ _ D); eauto|apply t_step; auto].
    - intros x Hx; apply K' in Hx as [Hx|[Hx _]].
      + destruct (d_stack _ _ D x) as [?|?]; [simpl; auto|auto|right; apply R'; auto].
      + right; apply R'; auto.
    - intros x y Hx Hn Hc. apply R'.
      destruct (gid_eq_dec x next) as [->|N]; [right; exact Hc|].
      destruct (in_dec gid_eq_dec x result) as [Hr|Hr].
      + left. apply (d_closed _ _ D x y); auto. intros [<-|Q]; auto.
        apply Hn, K'; auto.
      + destruct Hx as [->|Hx].
        * left. apply (d_closed _ _ D start y); auto. intros [<-|Q]; auto. apply Hn, K'; auto.
        * apply R' in Hx as [Hx|Hx]; [contradiction|]. exfalso; apply Hn, K'; auto.
  Qed.

  Lemma dinv_done r : dinv r [] -> forall x, In x r <-> dependents (child g) start x.
  Proof.
    intros D x; split; [apply (d_sound _ _ D)|].
    intros H; apply clos_trans_tn1 in H. induction H as [y Hy|y z Hyz _ IH].
    - apply (d_closed _ _ D start y); auto.
    - apply (d_closed _ _ D y z); auto.
  Qed.
End Deps.

Theorem get_all_deps_spec g id :
  exists r, get_all_deps g id = Some r /\ sorted r /\
    forall x, In x r <-> dependents (child g) id x.
Proof.
  unfold get_all_deps.
  destruct (deps_loop_spec g id (2 + edge_count (g_pc g)) [] [id]) as (r & X & D).
  - constructor; simpl; try tauto.
    + constructor.
    + intros x [->|[]]; auto.
    + intros x y [->|[]] N _. exfalso; auto.
  - simpl; rewrite targets_length; lia.
  - simpl; lia.
  - exists r; split; [auto|split; [apply (d_sorted _ _ _ _ D)|apply dinv_done; auto]].
Qed.
