(** C31: render_list shows the list.  C52: ... with its current content. *)

From Coq Require Import List NArith Bool Lia Permutation.
From Verif Require Import DomModel DomSort RenderModel RenderProps.
Import ListNotations.

Section Lists.
  Context {T K S : Type}.
  Variable teq : T -> T -> bool.
  Variable keq : K -> K -> bool.
  Variable get_key : T -> K.
  Variable is_text : T -> bool.
  Variable label : T -> S.
  Variable ord : list (node T) -> list (node T).
  Hypothesis TEQ : forall x y, teq x y = true -> x = y.
  Hypothesis KEQ : forall x y, reflect (x = y) (keq x y).
  Hypothesis ORD : forall l, Permutation (ord l) l.

  Notation get_pairs_top := (get_pairs_top teq).
  Notation get_pairs_bottom := (get_pairs_bottom teq).
  Notation cache_insert := (@RenderModel.cache_insert T K keq).
  Notation cache_pop := (@RenderModel.cache_pop T K keq).
  Notation get_or_create := (get_or_create keq get_key is_text label).
  Notation middle_loop := (middle_loop keq get_key is_text label).
  Notation get_pairs_middle := (get_pairs_middle keq get_key is_text label ord).
  Notation reorder_nodes := (reorder_nodes teq keq get_key is_text label ord).
  Notation on_list := (on_list teq keq get_key is_text label ord).
  Notation on_lists := (on_lists teq keq get_key is_text label ord).
  Notation drop_node := (@RenderModel.drop_node T S is_text).
  Notation ids := (map (fun e : T * node T => n_id (snd e))).
  Notation nodes c := (map n_id (flat_map snd c)).

  (** *** Matching from the top and from the bottom *)
  Lemma top_spec cur : forall new p c n, get_pairs_top cur new = (p, c, n) -> cur = p ++ c /\ new = map fst p ++ n.
  Proof.
    induction cur as [|[x nd] cur IH]; intros new p c n E.
    - simpl in E. inversion E; subst; auto.
    - destruct new as [|y new]; simpl in E; [inversion E; subst; auto|]. destruct (teq x y) eqn:Q.
      + destruct (get_pairs_top cur new) as [[p1 c1] n1] eqn:E1. inversion E; subst. destruct (IH _ _ _ _ E1) as [-> ->]. apply TEQ in Q. subst. auto.
      + inversion E; subst. auto.
  Qed.

  Lemma bottom_spec cur new p c n : get_pairs_bottom cur new = (p, c, n) -> cur = c ++ p /\ new = n ++ map fst p.
  Proof.
    unfold RenderModel.get_pairs_bottom. destruct (get_pairs_top (rev cur) (rev new)) as [[p1 c1] n1] eqn:E. intros Q. inversion Q; subst.
    destruct (top_spec _ _ _ _ _ E) as [E1 E2]. split.
    - rewrite <- (rev_involutive cur), E1, rev_app_distr. auto.
    - rewrite <- (rev_involutive new), E2, rev_app_distr, map_rev. auto.
  Qed.

  (** *** The cache *)
  Lemma insert_nodes c k n : Permutation (flat_map snd (cache_insert c k n)) (n :: flat_map snd c).
  Proof.
    induction c as [|[k' q] c IH]; simpl; auto. destruct (keq k k'); simpl.
    - rewrite <- app_assoc. simpl. symmetry. apply Permutation_middle.
    - etransitivity; [apply Permutation_app_head; exact IH|]. symmetry. apply Permutation_middle.
  Qed.

  Lemma build_nodes l : forall c, Permutation (flat_map snd (fold_left (fun c e => cache_insert c (get_key (fst e)) (snd e)) l c)) (map snd l ++ flat_map snd c).
  Proof.
    induction l as [|[x n] l IH]; intros c; simpl; auto. etransitivity; [apply IH|]. etransitivity; [apply Permutation_app_head, insert_nodes|].
    symmetry. apply Permutation_middle.
  Qed.

  Lemma pop_nodes c k : match cache_pop c k with
    | (Some n, c1) => Permutation (flat_map snd c) (n :: flat_map snd c1)
    | (None, c1) => flat_map snd c1 = flat_map snd c
    end.
  Proof.
    induction c as [|[k' q] c IH]; simpl; auto. destruct (keq k k').
    - destruct q as [|n q]; simpl; auto.
    - destruct (cache_pop c k) as [[n|] c1]; simpl.
      + etransitivity; [apply Permutation_app_head; exact IH|]. symmetry. apply Permutation_middle.
      + rewrite IH. auto.
  Qed.

  (** The queue of a key. *)
  Fixpoint queue_of (c : @cache T K) (k : K) : list (node T) :=
    match c with [] => [] | (k', q) :: t => if keq k k' then q else queue_of t k end.

  Lemma keq_refl k : keq k k = true.
  Proof. destruct (KEQ k k); congruence. Qed.

  Lemma queue_insert c k n k1 : queue_of (cache_insert c k n) k1 = if keq k1 k then queue_of c k1 ++ [n] else queue_of c k1.
  Proof.
    induction c as [|[k' q] c IH]; simpl.
    - destruct (keq k1 k); auto.
    - destruct (KEQ k k'); simpl.
      + subst k'. destruct (KEQ k1 k); auto.
      + rewrite IH. destruct (KEQ k1 k'); auto. subst k'. destruct (KEQ k1 k); auto; congruence.
  Qed.

  Lemma queue_build l k1 : forall c, queue_of (fold_left (fun c e => cache_insert c (get_key (fst e)) (snd e)) l c) k1 =
    queue_of c k1 ++ map snd (filter (fun e => keq k1 (get_key (fst e))) l).
  Proof.
    induction l as [|[x n] l IH]; intros c; simpl; [rewrite app_nil_r; auto|]. rewrite IH, queue_insert. simpl.
    destruct (keq k1 (get_key x)); simpl; auto. rewrite <- app_assoc. auto.
  Qed.

  Lemma queue_pop c k : fst (cache_pop c k) = hd_error (queue_of c k) /\
    forall k1, queue_of (snd (cache_pop c k)) k1 = if keq k1 k then tl (queue_of c k) else queue_of c k1.
  Proof.
    induction c as [|[k' q] c [IH1 IH2]]; simpl.
    - auto.
    - destruct (KEQ k k').
      + subst k'. destruct q as [|n q]; simpl; split; auto; intros k1; destruct (keq k1 k); auto.
      + destruct (cache_pop c k) as [r t]. simpl in *. split; auto. intros k1. rewrite IH2. destruct (KEQ k1 k').
        * subst k'. destruct (KEQ k1 k); auto; congruence.
        * auto.
  Qed.

  (** *** Moving nodes *)
  Variable P : N.
  Notation krun := (krun P).

  Lemma put_at l r x R : ~ In r l -> put_before (l ++ r :: R) r x = l ++ x :: r :: R.
  Proof. induction l as [|y l IH]; simpl; intros H; [rewrite N.eqb_refl; auto|]. destruct (N.eqb_spec y r); [subst; tauto|]. rewrite IH; tauto. Qed.

  Lemma nodup_parts {A : Type} (a b : list A) : NoDup (a ++ b) -> NoDup a /\ NoDup b /\ (forall x, In x a -> ~ In x b).
  Proof.
    induction a as [|y a IH]; simpl; intros H; [split; [constructor|split; [auto|intros x []]]|]. inversion H as [|? ? H1 H2]; subst. destruct (IH H2) as (A1 & A2 & A3).
    split; [constructor; auto; intros J; apply H1, in_app_iff; auto|]. split; auto. intros x [<-|J]; [intros L; apply H1, in_app_iff; auto|auto].
  Qed.

  Lemma perm_out M x : NoDup M -> In x M -> Permutation (x :: out_of M x) M.
  Proof.
    induction M as [|y M IH]; intros ND IM; [destruct IM|]. inversion ND; subst. unfold out_of. simpl. destruct (N.eqb_spec y x).
    - subst. simpl. fold (out_of M x). rewrite out_of_notin by auto. auto.
    - simpl. fold (out_of M x). destruct IM as [|IM]; [congruence|]. etransitivity; [apply perm_swap|]. apply perm_skip. auto.
  Qed.

  Lemma loop_kids items : forall last c next acc r c2 next2 cs k pre M R,
    middle_loop P items last c next acc = (r, c2, next2, cs) ->
    kids k = pre ++ M ++ last :: R -> NoDup (kids k) -> bound k = next -> (forall x, In x (kids k) -> x < next)%N ->
    (forall x, In x M -> In x (known k)) -> Permutation M (nodes c) ->
    exists new M' k', r = new ++ acc /\ map fst new = rev items /\ Permutation M' (nodes c2) /\ krun k cs = Some k' /\
      kids k' = pre ++ M' ++ ids new ++ last :: R /\ NoDup (kids k') /\ bound k' = next2 /\ (forall x, In x (kids k') -> x < next2)%N /\
      (forall x, In x (known k) -> In x (known k')) /\ (forall x, In x (ids new) -> In x (known k')).
  Proof.
    induction items as [|x items IH]; intros last c next acc r c2 next2 cs k pre M R E KK ND B LT KN PM.
    - simpl in E. inversion E; subst. exists [], M, k. simpl. repeat split; auto. tauto.
    - cbn [RenderModel.middle_loop] in E. destruct (get_or_create c next x) as [[[n c1] next1] cs1] eqn:G.
      destruct (middle_loop P items (n_id n) c1 next1 ((x, n) :: acc)) as [[[r0 c20] next20] cs2] eqn:E2. inversion E; subst r0 c20 next20 cs; clear E.
      unfold RenderModel.get_or_create in G. pose proof (pop_nodes c (get_key x)) as PN. destruct (cache_pop c (get_key x)) as [[n0|] c10].
      + inversion G; subst n0 c10 next1 cs1. clear G.
        assert (IM : In (n_id n) M). { eapply Permutation_in; [symmetry; exact PM|]. apply in_map. eapply Permutation_in; [symmetry; exact PN|]. left; auto. }
        assert (ND' := ND). rewrite KK in ND'. destruct (nodup_parts _ _ ND') as (_ & ND2 & DP). destruct (nodup_parts _ _ ND2) as (NDM & _ & DM).
        assert (NR : ~ In (n_id n) (last :: R)) by auto.
        assert (NL : n_id n <> last) by (intros Q; apply NR; left; auto).
        assert (NP : ~ In (n_id n) pre). { intros J. apply (DP _ J). apply in_app_iff. auto. }
        set (k1 := Kst (pre ++ out_of M (n_id n) ++ n_id n :: last :: R) (known k) (bound k)).
        assert (K1 : @kstep S P k (InsertBefore P (n_id n) (Some last)) = Some k1).
        { cbn [kstep]. rewrite N.eqb_refl. rewrite (proj2 (inb_spec _ _) (KN _ IM)). rewrite (proj2 (inb_spec last (kids k))) by (rewrite KK, !in_app_iff; simpl; auto).
          destruct (N.eqb_spec last (n_id n)); [congruence|]. simpl. f_equal. unfold k1. f_equal. rewrite KK, !out_of_app.
          rewrite (out_of_notin pre) by auto. rewrite (out_of_notin (last :: R)) by auto. rewrite app_assoc, put_at, <- app_assoc; auto.
          rewrite app_assoc in ND'. apply NoDup_remove_2 in ND'. intros I. apply ND'. rewrite in_app_iff in I. rewrite !in_app_iff. destruct I as [I|I]; auto. apply out_of_in in I. tauto. }
        assert (KP : Permutation (kids k1) (kids k)).
        { unfold k1. simpl. rewrite KK. apply Permutation_app_head. etransitivity; [symmetry; apply Permutation_middle|]. rewrite app_comm_cons. apply Permutation_app_tail.
          apply perm_out; auto. }
        destruct (IH _ _ _ _ _ _ _ _ k1 pre (out_of M (n_id n)) (last :: R) E2) as (new & M' & k' & A1 & A2 & A3 & A4 & A5 & A6 & A7 & A8 & A9 & A10); auto.
        * eapply Permutation_NoDup; [symmetry; exact KP|auto].
        * intros y I. apply LT. eapply Permutation_in; [exact KP|auto].
        * intros y I. apply out_of_in in I as [I _]. auto.
        * assert (Q : Permutation (n_id n :: out_of M (n_id n)) (n_id n :: nodes c1)).
          { etransitivity; [|etransitivity; [exact PM|apply (Permutation_map n_id) in PN; exact PN]].
            apply perm_out; auto. }
          apply Permutation_cons_inv in Q. auto.
        * exists (new ++ [(x, n)]), M', k'. rewrite A1, <- app_assoc. split; auto. split; [rewrite map_app, A2; auto|]. split; auto.
          split; [cbn [app RenderProps.krun]; rewrite K1; exact A4|]. split; [rewrite A5, map_app; simpl; rewrite <- app_assoc; auto|].
          split; auto. split; auto. split; auto. split; auto. intros y I. rewrite map_app in I. apply in_app_iff in I as [I|[<-|[]]]; auto.
      + simpl in G. inversion G; subst n c10 next1 cs1. clear G. cbn [n_id] in *. subst next.
        set (nx := bound k) in *.
        assert (FR : ~ In nx (kids k)) by (intros I; apply LT in I; lia).
        set (k1 := Kst (pre ++ M ++ nx :: last :: R) (nx :: known k) (nx + 1)).
        assert (NM : ~ In last (pre ++ M)). { rewrite KK, app_assoc in ND. apply NoDup_remove_2 in ND. intros I. apply ND. apply in_app_iff. auto. }
        assert (K1 : krun k ([if is_text x then CreateText nx (label x) else CreateNode nx (label x)] ++ [InsertBefore P nx (Some last)]) = Some k1).
        { assert (C : kstep P k (if is_text x then CreateText nx (label x) else CreateNode nx (label x)) = Some (Kst (kids k) (nx :: known k) (nx + 1))).
          { destruct (is_text x); cbn [kstep]; unfold nx; rewrite N.leb_refl; auto. }
          cbn [app RenderProps.krun]. rewrite C. cbn [kstep]. rewrite N.eqb_refl. unfold inb at 1. cbn [known existsb]. rewrite N.eqb_refl. cbn [kids].
          rewrite (proj2 (inb_spec last (kids k))) by (rewrite KK, !in_app_iff; simpl; auto).
          destruct (N.eqb_spec last nx) as [->|]; [destruct FR; rewrite KK, !in_app_iff; simpl; auto|]. simpl. f_equal. unfold k1. f_equal.
          rewrite out_of_notin by auto. rewrite KK, app_assoc, put_at, <- app_assoc; auto. }
        assert (KP : Permutation (kids k1) (nx :: kids k)).
        { unfold k1. simpl. rewrite KK. rewrite !app_assoc. symmetry. apply Permutation_middle. }
        destruct (IH _ _ _ _ _ _ _ _ k1 pre M (last :: R) E2) as (new & M' & k' & A1 & A2 & A3 & A4 & A5 & A6 & A7 & A8 & A9 & A10); auto.
        * eapply Permutation_NoDup; [symmetry; exact KP|constructor; auto].
        * intros y I. eapply Permutation_in in I; [|exact KP]. destruct I as [<-|I]; [lia|]. apply LT in I. lia.
        * intros y I. unfold k1. simpl. right. auto.
        * rewrite PN. auto.
        * exists (new ++ [(x, Node nx x)]), M', k'. rewrite A1, <- app_assoc. split; auto. split; [rewrite map_app, A2; auto|]. split; auto.
          split.
          { change (?a ++ InsertBefore P nx (Some last) :: cs2) with (a ++ [InsertBefore P nx (Some last)] ++ cs2). rewrite app_assoc, krun_app, K1. exact A4. }
          split; [rewrite A5, map_app; simpl; rewrite <- app_assoc; auto|].
          split; auto. split; auto. split; auto. split; [intros y I; apply A9; unfold k1; simpl; auto|].
          intros y I. rewrite map_app in I. apply in_app_iff in I as [I|[<-|[]]]; auto. simpl. apply A9. unfold k1. simpl. auto.
  Qed.

  Lemma drop_kids l : forall k pre M R, kids k = pre ++ M ++ R -> NoDup (kids k) -> Permutation M (map n_id l) -> (forall x, In x M -> In x (known k)) ->
    exists k', krun k (map drop_node l) = Some k' /\ kids k' = pre ++ R /\ bound k' = bound k /\ (forall x, In x (known k) -> ~ In x M -> In x (known k')).
  Proof.
    induction l as [|n l IH]; intros k pre M R KK ND PM KN.
    - simpl in PM. symmetry in PM. apply Permutation_nil in PM. subst M. exists k. simpl in *. auto.
    - simpl in PM. assert (IM : In (n_id n) M) by (eapply Permutation_in; [symmetry; exact PM|left; auto]).
      set (k1 := Kst (pre ++ out_of M (n_id n) ++ R) (out_of (known k) (n_id n)) (bound k)).
      assert (NDM : NoDup M /\ ~ In (n_id n) pre /\ ~ In (n_id n) R).
      { rewrite KK in ND. destruct (nodup_parts _ _ ND) as (_ & ND2 & DP). destruct (nodup_parts _ _ ND2) as (NDM & _ & DM).
        split; [auto|split; [|auto]]. intros J. apply (DP _ J). apply in_app_iff. auto. }
      destruct NDM as (NDM & NP & NR).
      assert (K1 : kstep P k (drop_node n) = Some k1).
      { assert (C : forall c : dcmd S, c = RemoveText (n_id n) \/ c = RemoveNode (n_id n) -> kstep P k c = Some k1).
        { intros c [-> | ->]; cbn [kstep]; rewrite (proj2 (inb_spec _ _) (KN _ IM)); unfold k1; rewrite KK, !out_of_app, (out_of_notin pre), (out_of_notin R); auto. }
        apply C. unfold RenderModel.drop_node. destruct (is_text (n_item n)); auto. }
      assert (PO : Permutation (n_id n :: out_of M (n_id n)) M) by (apply perm_out; auto).
      destruct (IH k1 pre (out_of M (n_id n)) R) as (k' & A1 & A2 & A3 & A4); auto.
      + assert (Q : Permutation (n_id n :: kids k1) (kids k)).
        { unfold k1. simpl. rewrite KK. etransitivity; [apply Permutation_middle|]. apply Permutation_app_head. rewrite app_comm_cons. apply Permutation_app_tail. auto. }
        apply Permutation_sym in Q. eapply Permutation_NoDup in Q; [|exact ND]. inversion Q; auto.
      + assert (Q : Permutation (n_id n :: out_of M (n_id n)) (n_id n :: map n_id l)) by (etransitivity; eauto). apply Permutation_cons_inv in Q. auto.
      + intros x I. apply out_of_in in I as [I NE]. unfold k1. simpl. apply out_of_in. auto.
      + exists k'. cbn [map RenderProps.krun]. rewrite K1. split; auto. split; auto. split; auto.
        intros x I NI. apply A4; unfold k1; simpl; [apply out_of_in; split; auto; intros ->; auto|]. intros J. apply out_of_in in J. tauto.
  Qed.

  (** *** One value of the list *)

  (** The state of a mounted list: its nodes and then its marker are among the children, between [pre] and [post]. *)
  Record list_ok (pre post : list N) (comment : N) (l : rlist T) (k : kst) : Prop := {
    lo_kids : kids k = pre ++ ids (l_current l) ++ comment :: post;
    lo_nodup : NoDup (kids k);
    lo_bound : bound k = l_next l;
    lo_lt : forall x, In x (kids k) -> (x < l_next l)%N;
    lo_known : forall x, In x (ids (l_current l)) -> In x (known k)
  }.

  Lemma find_first bottom comment post : exists last R, (match find_first_dom bottom with Some id => id | None => comment end) = last /\ @ids bottom ++ comment :: post = last :: R.
  Proof. destruct bottom as [|[x n] b]; simpl; eauto. Qed.

  Lemma update_kids pre post comment l k new l1 cs : list_ok pre post comment l k -> on_list P comment l new = (l1, cs) ->
    exists k1, krun k cs = Some k1 /\ list_ok pre post comment l1 k1 /\ map fst (l_current l1) = new.
  Proof.
    intros [H1 H2 H3 H4 H5] E. unfold RenderModel.on_list, RenderModel.reorder_nodes in E.
    destruct (get_pairs_top (l_current l) new) as [[top real1] new1] eqn:E1. destruct (get_pairs_bottom real1 new1) as [[bottom real2] new2] eqn:E2.
    destruct (top_spec _ _ _ _ _ E1) as [T1 T2]. destruct (bottom_spec _ _ _ _ _ E2) as [B1 B2]. subst real1 new1. rewrite T1 in *.
    destruct (find_first bottom comment post) as (last & R & F1 & F2). rewrite F1 in E.
    unfold RenderModel.get_pairs_middle in E. set (c := fold_left (fun (c : @cache T K) (e : T * node T) => cache_insert c (get_key (fst e)) (snd e)) real2 []) in E.
    destruct (middle_loop P (rev new2) last c (l_next l) []) as [[[r c2] next2] cs2] eqn:E3. inversion E; subst l1 cs; clear E.
    rewrite !map_app in H1, H5.
    assert (KK : kids k = (pre ++ ids top) ++ ids real2 ++ last :: R). { rewrite H1, <- F2, <- !app_assoc. auto. }
    destruct (loop_kids _ _ _ _ _ _ _ _ _ k (pre ++ ids top) (ids real2) R E3) as (nw & M' & k' & A1 & A2 & A3 & A4 & A5 & A6 & A7 & A8 & A9 & A10); auto.
    - intros x I. apply H5. rewrite !in_app_iff. auto.
    - unfold c. apply Permutation_sym. etransitivity; [apply Permutation_map, build_nodes|]. simpl. rewrite app_nil_r, map_map. auto.
    - rewrite app_nil_r in A1. subst r. rewrite rev_involutive in A2.
      destruct (drop_kids (ord (flat_map snd c2)) k' (pre ++ ids top) M' (ids nw ++ last :: R)) as (k1 & D1 & D2 & D3 & D4); auto.
      + etransitivity; [exact A3|]. apply Permutation_map. symmetry. apply ORD.
      + intros x I.
        assert (J : In x (nodes c2)) by (eapply Permutation_in; eauto).
        (* the nodes left over are old ones *)
        assert (L : forall items last c next acc r c2 next2 cs, middle_loop P items last c next acc = (r, c2, next2, cs) -> incl (nodes c2) (nodes c)).
        { clear. induction items as [|y items IH]; intros last c next acc r c2 next2 cs E; [simpl in E; inversion E; subst; intros z; auto|].
          cbn [RenderModel.middle_loop] in E. destruct (get_or_create c next y) as [[[n c1] next1] cs1] eqn:G.
          destruct (middle_loop P items (n_id n) c1 next1 ((y, n) :: acc)) as [[[r0 c20] next20] cs20] eqn:E2. inversion E; subst.
          apply IH in E2. intros z I. apply E2 in I. clear - G I. unfold RenderModel.get_or_create in G. pose proof (pop_nodes c (get_key y)) as PN.
          destruct (cache_pop c (get_key y)) as [[n0|] c10]; simpl in G; inversion G; subst.
          - eapply Permutation_in; [symmetry; apply Permutation_map; exact PN|]. simpl. auto.
          - rewrite PN in I. auto. }
        apply (L _ _ _ _ _ _ _ _ _ E3) in J. apply A9, H5. rewrite !in_app_iff. right. left.
        unfold c in J. eapply Permutation_in in J; [|apply Permutation_map, build_nodes]. simpl in J. rewrite app_nil_r, map_map in J. auto.
      + exists k1. rewrite krun_app, A4. split; auto. split.
        * constructor; cbn [l_current l_next].
          -- rewrite D2, !map_app, <- F2, <- !app_assoc. auto.
          -- rewrite D2. rewrite A5 in A6. clear - A6. revert A6. generalize (pre ++ ids top) as a. generalize (ids nw ++ last :: R) as b. intros b a.
             induction a as [|y a IH]; simpl; intros H.
             ++ induction M' as [|y M IH]; simpl in H; [auto|inversion H; auto].
             ++ inversion H; subst. constructor; auto. intros I. apply H2. rewrite !in_app_iff in *. tauto.
          -- rewrite D3. auto.
          -- intros x I. apply A8. rewrite A5. rewrite D2 in I. rewrite !in_app_iff in *. tauto.
          -- intros x I. rewrite !map_app, !in_app_iff in I.
             assert (NI : ~ In x M').
             { rewrite A5 in A6. intros J. assert (IX : In x (pre ++ ids top) \/ In x (ids nw ++ last :: R)).
               { destruct I as [I|[I|I]]; [left; rewrite in_app_iff; auto|right; rewrite in_app_iff; auto|right; rewrite <- F2, !in_app_iff; auto]. }
               destruct (nodup_parts _ _ A6) as (_ & A62 & DA). destruct (nodup_parts _ _ A62) as (_ & _ & DB).
               destruct IX as [IX|IX]; [apply (DA _ IX); apply in_app_iff; auto|apply (DB _ J); auto]. }
             apply D4; auto. destruct I as [I|[I|I]]; [apply A9, H5; rewrite !in_app_iff; auto|auto|apply A9, H5; rewrite !in_app_iff; auto].
        * cbn [l_current]. rewrite !map_app, A2, T2. auto.
  Qed.

  (** *** Keys, fresh nodes, dropped nodes *)

  (** A node of the result: taken from the cache, or created here. *)
  Lemma loop_source items : forall last c next acc r c2 next2 cs, middle_loop P items last c next acc = (r, c2, next2, cs) ->
    forall x n, In (x, n) r -> In (x, n) acc \/ In n (queue_of c (get_key x)) \/
      (n_item n = x /\ In (if is_text x then CreateText (n_id n) (label x) else CreateNode (n_id n) (label x)) cs).
  Proof.
    induction items as [|y items IH]; intros last c next acc r c2 next2 cs E x n I; [simpl in E; inversion E; subst; auto|].
    cbn [RenderModel.middle_loop] in E. destruct (get_or_create c next y) as [[[m c1] next1] cs1] eqn:G.
    destruct (middle_loop P items (n_id m) c1 next1 ((y, m) :: acc)) as [[[r0 c20] next20] cs20] eqn:E2. inversion E; subst r0 c20 next20 cs; clear E.
    unfold RenderModel.get_or_create in G. destruct (queue_pop c (get_key y)) as [Q1 Q2]. destruct (cache_pop c (get_key y)) as [o c10]. cbn [fst snd] in Q1, Q2.
    assert (SUB : forall k1 z, In z (queue_of c10 k1) -> In z (queue_of c k1)).
    { intros k1 z J. rewrite Q2 in J. destruct (KEQ k1 (get_key y)); auto. subst k1. destruct (queue_of c (get_key y)); [destruct J|right; auto]. }
    assert (C1 : c1 = c10) by (destruct o; simpl in G; inversion G; auto). subst c10.
    destruct (IH _ _ _ _ _ _ _ _ E2 x n I) as [[J|J]|[J|[J1 J2]]].
    - inversion J; subst m y. destruct o as [n0|]; simpl in G; inversion G; subst.
      + right. left. destruct (queue_of c (get_key x)); simpl in Q1; inversion Q1; subst. left; auto.
      + right. right. split; auto. simpl. left. auto.
    - auto.
    - right. left. auto.
    - right. right. split; auto. rewrite in_app_iff. right. right. auto.
  Qed.

  Lemma loop_creates items : forall last c next acc r c2 next2 cs, middle_loop P items last c next acc = (r, c2, next2, cs) -> Forall (fun d => is_event d = false) cs.
  Proof.
    induction items as [|y items IH]; intros last c next acc r c2 next2 cs E; [simpl in E; inversion E; subst; auto|].
    cbn [RenderModel.middle_loop] in E. destruct (get_or_create c next y) as [[[m c1] next1] cs1] eqn:G.
    destruct (middle_loop P items (n_id m) c1 next1 ((y, m) :: acc)) as [[[r0 c20] next20] cs20] eqn:E2. inversion E; subst r0 c20 next20 cs; clear E.
    apply Forall_app. split; [|constructor; auto; eauto]. unfold RenderModel.get_or_create in G. destruct (cache_pop c (get_key y)) as [[n0|] c10]; simpl in G; inversion G; subst; auto.
    constructor; auto. destruct (is_text y); auto.
  Qed.

  (** A key at the head of whose queue a node waits gets this node, if the keys are different. *)
  Lemma loop_keeps items : forall last c next acc r c2 next2 cs, middle_loop P items last c next acc = (r, c2, next2, cs) ->
    NoDup (map get_key items) -> forall x n, In x items -> hd_error (queue_of c (get_key x)) = Some n -> In (x, n) r.
  Proof.
    assert (ACC : forall items last c next acc r c2 next2 cs, middle_loop P items last c next acc = (r, c2, next2, cs) -> incl acc r).
    { clear. induction items as [|y items IH]; intros last c next acc r c2 next2 cs E; [simpl in E; inversion E; subst; intros z; auto|].
      cbn [RenderModel.middle_loop] in E. destruct (get_or_create c next y) as [[[m c1] next1] cs1] eqn:G.
      destruct (middle_loop P items (n_id m) c1 next1 ((y, m) :: acc)) as [[[r0 c20] next20] cs20] eqn:E2. inversion E; subst r0 c20 next20 cs; clear E.
      apply IH in E2. intros z J. apply E2. right. auto. }
    induction items as [|y items IH]; intros last c next acc r c2 next2 cs E ND x n I HD; [destruct I|].
    cbn [RenderModel.middle_loop] in E. destruct (get_or_create c next y) as [[[m c1] next1] cs1] eqn:G.
    destruct (middle_loop P items (n_id m) c1 next1 ((y, m) :: acc)) as [[[r0 c20] next20] cs20] eqn:E2. inversion E; subst r0 c20 next20 cs; clear E.
    unfold RenderModel.get_or_create in G. destruct (queue_pop c (get_key y)) as [Q1 Q2]. destruct (cache_pop c (get_key y)) as [o c10]. cbn [fst snd] in Q1, Q2.
    assert (C1 : c1 = c10) by (destruct o; simpl in G; inversion G; auto). subst c10. cbn [map] in ND. apply NoDup_cons_iff in ND as [N1 N2].
    destruct I as [->|I].
    - rewrite HD in Q1. subst o. simpl in G. inversion G; subst. apply (ACC _ _ _ _ _ _ _ _ _ E2). left. auto.
    - eapply IH; eauto. rewrite Q2. destruct (KEQ (get_key x) (get_key y)) as [Q|Q]; auto. destruct N1. rewrite <- Q. apply in_map. auto.
  Qed.

  (** What the node of an item looks like in the document. *)
  Definition content (x : T) : bnode S := if is_text x then BText (label x) else BElement (label x) [].

  (** A node of the cache is used or left. *)
  Lemma loop_pool items : forall last c next acc r c2 next2 cs, middle_loop P items last c next acc = (r, c2, next2, cs) ->
    incl acc r /\ forall n, In n (flat_map snd c) -> In n (flat_map snd c2) \/ exists x, In (x, n) r.
  Proof.
    induction items as [|y items IH]; intros last c next acc r c2 next2 cs E; [simpl in E; inversion E; subst; split; [intros z|]; auto|].
    cbn [RenderModel.middle_loop] in E. destruct (get_or_create c next y) as [[[m c1] next1] cs1] eqn:G.
    destruct (middle_loop P items (n_id m) c1 next1 ((y, m) :: acc)) as [[[r0 c20] next20] cs20] eqn:E2. inversion E; subst r0 c20 next20 cs; clear E.
    destruct (IH _ _ _ _ _ _ _ _ E2) as [I1 I2]. split; [intros z J; apply I1; right; auto|]. intros n J.
    unfold RenderModel.get_or_create in G. pose proof (pop_nodes c (get_key y)) as PN. destruct (cache_pop c (get_key y)) as [[n0|] c10]; simpl in G; inversion G; subst.
    - eapply Permutation_in in J; [|exact PN]. destruct J as [->|J]; auto. right. exists y. apply I1. left. auto.
    - rewrite <- PN in J. auto.
  Qed.

  Lemma update_shape comment l new l1 cs : on_list P comment l new = (l1, cs) ->
    exists top mid bottom real2 new2 last c2 cs1,
      l_current l = top ++ real2 ++ bottom /\ new = map fst top ++ new2 ++ map fst bottom /\ l_current l1 = top ++ mid ++ bottom /\
      middle_loop P (rev new2) last (fold_left (fun (c : @cache T K) (e : T * node T) => cache_insert c (get_key (fst e)) (snd e)) real2 []) (l_next l) [] = (mid, c2, l_next l1, cs1) /\
      cs = cs1 ++ map drop_node (ord (flat_map snd c2)).
  Proof.
    unfold RenderModel.on_list, RenderModel.reorder_nodes. intros E.
    destruct (get_pairs_top (l_current l) new) as [[top real1] new1] eqn:E1. destruct (get_pairs_bottom real1 new1) as [[bottom real2] new2] eqn:E2.
    destruct (top_spec _ _ _ _ _ E1) as [T1 T2]. destruct (bottom_spec _ _ _ _ _ E2) as [B1 B2]. subst real1 new1.
    unfold RenderModel.get_pairs_middle in E. destruct (middle_loop _ _ _ _ _ _) as [[[r c2] next2] cs2] eqn:E3. inversion E; subst l1 cs; clear E.
    do 8 eexists. split; [exact T1|]. split; [exact T2|]. split; [reflexivity|]. split; [exact E3|]. auto.
  Qed.

  Lemma update_sorted comment l new l1 cs : on_list P comment l new = (l1, cs) -> sort_commands cs = cs.
  Proof.
    intros E. destruct (update_shape _ _ _ _ _ E) as (top & mid & bottom & real2 & new2 & last & c2 & cs1 & _ & _ & _ & E3 & ->).
    rewrite sort_filter, !filter_app. apply loop_creates in E3.
    assert (A : filter (fun c => negb (is_event c)) cs1 = cs1 /\ filter is_event cs1 = []).
    { clear E. induction E3 as [|d t H _ [IH1 IH2]]; cbn [filter]; auto. rewrite H. cbn [negb]. rewrite IH1, IH2. auto. }
    assert (B : forall q : list (node T), filter (fun c => negb (is_event c)) (map drop_node q) = [] /\ filter is_event (map drop_node q) = map drop_node q).
    { induction q as [|n q [IH1 IH2]]; cbn [filter map]; auto. replace (is_event (drop_node n)) with true by (unfold RenderModel.drop_node; destruct (is_text (n_item n)); auto).
      cbn [negb]. rewrite IH1, IH2; auto. }
    destruct A as [-> ->]. destruct (B (ord (flat_map snd c2))) as [-> ->]. rewrite app_nil_r. auto.
  Qed.

  Variable teqb : S -> S -> bool.
  Variable hook : S.
  Variable perm : N -> bool.


  (** *** A mounted list in a document *)

  (** The nodes of the list and its marker stand together between the children [pre] and [post] of [P]; each node was rendered for an
      item with the key of the item it stands for; ids from [l_next] on are unused ([view]: RenderProps). *)
  Record mounted (s : bdom S) (pre post : list N) (comment : N) (l : rlist T) : Prop := {
    m_view : view perm P s (Kst (pre ++ ids (l_current l) ++ comment :: post) (ids (l_current l)) (l_next l));
    m_nodup : NoDup (pre ++ ids (l_current l) ++ comment :: post);
    m_lt : forall x, In x (pre ++ ids (l_current l) ++ comment :: post) -> (x < l_next l)%N;
    m_content : forall x n, In (x, n) (l_current l) -> get_key (n_item n) = get_key x /\ b_get s (n_id n) = Some (content (n_item n))
  }.

  Lemma view_less (s : bdom S) ks kn kn1 b : view perm P s (Kst ks kn b) -> incl kn1 kn -> view perm P s (Kst ks kn1 b).
  Proof.
    intros [V1 V2 V3 V4 V5 V6 V7] H. constructor; cbn [kids known bound] in *; auto. intros x U. destruct (V6 x U). split; auto.
  Qed.

  Lemma creates_content x (n : node T) cs : In (if is_text x then CreateText (n_id n) (label x) else CreateNode (n_id n) (label x)) cs ->
    exists c, In c cs /\ creates c = Some (n_id n, content x).
  Proof. intros I. eexists. split; [exact I|]. unfold content. destruct (is_text x); auto. Qed.

  (** One new value of the list. *)
  Lemma update_mounted s pre post comment l new l1 cs : mounted s pre post comment l -> on_list P comment l new = (l1, cs) ->
    exists s1, breplay teqb hook perm s cs [] s1 /\ mounted s1 pre post comment l1 /\ map fst (l_current l1) = new /\
      (forall x n, b_node s x = Some n -> b_node s1 x = Some n) /\
      (forall x n, In (x, n) (l_current l) -> (exists y, In (y, n) (l_current l1) /\ get_key y = get_key x) \/ b_get s1 (n_id n) = None) /\
      (NoDup (map get_key (map fst (l_current l))) -> NoDup (map get_key new) ->
       forall x n y, In (x, n) (l_current l) -> In y new -> get_key y = get_key x -> In (y, n) (l_current l1)).
  Proof.
    intros [M1 M2 M3 M4] E.
    assert (LO : list_ok pre post comment l (Kst (pre ++ ids (l_current l) ++ comment :: post) (ids (l_current l)) (l_next l))) by (constructor; cbn [kids known bound]; auto).
    destruct (update_kids _ _ _ _ _ _ _ _ LO E) as (k1 & R & [L1 L2 L3 L4 L5] & EQ).
    destruct (run_nodes teqb hook perm P cs _ _ _ M1 R) as (s1 & B & V & N1 & N2 & N3 & N4 & N5).
    destruct (update_shape _ _ _ _ _ E) as (top & mid & bottom & real2 & new2 & last & c2 & cs1 & S1 & S2 & S3 & S4 & S5).
    assert (QB : forall k, queue_of (fold_left (fun (c : @cache T K) (e : T * node T) => cache_insert c (get_key (fst e)) (snd e)) real2 []) k = map snd (filter (fun e => keq k (get_key (fst e))) real2)) by (intros k; apply queue_build).
    (* where the nodes of the new list come from *)
    assert (SRC : forall x n, In (x, n) (l_current l1) -> (exists y, In (y, n) (l_current l) /\ get_key y = get_key x) \/
      (n_item n = x /\ exists c, In c cs /\ creates c = Some (n_id n, content x))).
    { intros x n I. rewrite S3, !in_app_iff in I. destruct I as [I|[I|I]].
      - left. exists x. rewrite S1, !in_app_iff. auto.
      - destruct (loop_source _ _ _ _ _ _ _ _ _ S4 x n I) as [[]|[J|[J1 J2]]].
        + rewrite QB in J. apply in_map_iff in J as ([y n0] & <- & J). apply filter_In in J as [J Q]. cbn [fst snd] in *.
          left. exists y. split; [rewrite S1, !in_app_iff; auto|]. destruct (KEQ (get_key x) (get_key y)); congruence.
        + right. split; auto. destruct (creates_content _ _ _ J2) as (c & C1 & C2). exists c. split; auto. rewrite S5, in_app_iff. auto.
      - left. exists x. rewrite S1, !in_app_iff. auto. }
    destruct k1 as [ks kn b]. cbn [kids known bound] in *. subst ks b.
    assert (MT : mounted s1 pre post comment l1).
    { constructor; auto.
      - eapply view_less; [exact V|]. intros x I. auto.
      - intros x n I.
        assert (IK : In (n_id n) (pre ++ ids (l_current l1) ++ comment :: post)).
        { rewrite !in_app_iff. right. left. apply in_map_iff. exists (x, n). auto. }
        destruct (v_kid _ _ _ _ V (n_id n) IK) as [G _].
        assert (Q : get_key (n_item n) = get_key x /\ b_node s1 (n_id n) = Some (content (n_item n))).
        { destruct (SRC x n I) as [(y & J1 & J2)|(J1 & c & J2 & J3)].
          - destruct (M4 y n J1) as [K1 K2]. split; [congruence|]. apply N1. unfold b_get in K2. destruct (b_reg s (n_id n)); congruence.
          - subst x. split; auto. eapply N2; eauto. }
        destruct Q as [Q1 Q2]. split; auto. unfold b_get in *. destruct (b_reg s1 (n_id n)); congruence. }
    exists s1. split; auto. split; auto. split; auto. split; auto. split.
    - intros x n I. rewrite S1, !in_app_iff in I. destruct I as [I|[I|I]].
      + left. exists x. rewrite S3, !in_app_iff. auto.
      + destruct (loop_pool _ _ _ _ _ _ _ _ _ S4) as [_ LP]. destruct (LP n) as [J|[y J]].
        * eapply Permutation_in; [symmetry; apply build_nodes|]. rewrite app_nil_r. apply in_map_iff. exists (x, n). auto.
        * right. unfold b_get. replace (b_reg s1 (n_id n)) with false; auto. symmetry. eapply (N4 (drop_node n)).
          -- rewrite S5, in_app_iff. right. apply in_map. eapply Permutation_in; [symmetry; apply ORD|auto].
          -- unfold RenderModel.drop_node. destruct (is_text (n_item n)); auto.
        * left. exists y. split; [rewrite S3, !in_app_iff; auto|].
          assert (K1 : get_key (n_item n) = get_key y) by (eapply (m_content _ _ _ _ _ MT); rewrite S3, !in_app_iff; eauto).
          assert (K2 : get_key (n_item n) = get_key x) by (eapply M4; rewrite S1, !in_app_iff; eauto). congruence.
      + left. exists x. rewrite S3, !in_app_iff. auto.
    - intros D1 D2 x n y I J KY.
      assert (UNIQ : forall a b, In a new -> In b new -> get_key a = get_key b -> a = b).
      { clear - D2. induction new as [|z new IH]; simpl; [tauto|]. simpl in D2. inversion D2 as [|? ? H1 H2]; subst. intros a b [->|A] [->|B] Q; auto.
        - destruct H1. rewrite Q. apply in_map. auto.
        - destruct H1. rewrite <- Q. apply in_map. auto. }
      assert (I0 := I). rewrite S1, !in_app_iff in I. destruct I as [I|[I|I]].
      + assert (y = x) as ->. { apply UNIQ; auto. rewrite S2, !in_app_iff. left. apply in_map_iff. exists (x, n). auto. }
        rewrite S3, !in_app_iff. auto.
      + rewrite S1, !map_app in D1. destruct (nodup_parts _ _ D1) as (_ & D1b & X1). destruct (nodup_parts _ _ D1b) as (D1c & _ & X2).
        assert (IK : In (get_key x) (map get_key (map fst real2))). { apply in_map, in_map_iff. exists (x, n). auto. }
        assert (J2 : In y new2).
        { rewrite S2, !in_app_iff in J. destruct J as [J|[J|J]]; auto.
          - destruct (X1 (get_key y)); [apply in_map; auto|]. rewrite KY, in_app_iff. auto.
          - destruct (X2 (get_key x)); auto. rewrite <- KY. apply in_map. auto. }
        rewrite S3, !in_app_iff. right. left. eapply loop_keeps; [exact S4| |rewrite <- in_rev; auto|].
        * rewrite map_rev. eapply Permutation_NoDup; [apply Permutation_rev|]. rewrite S2, !map_app in D2. destruct (nodup_parts _ _ D2) as (_ & D2b & _). destruct (nodup_parts _ _ D2b) as (D2c & _). auto.
        * rewrite QB, KY. clear - D1c I KEQ. induction real2 as [|[z m] t IH]; simpl; [destruct I|]. simpl in D1c. inversion D1c as [|? ? H1 H2]; subst.
          destruct I as [Q|I].
          -- inversion Q; subst. rewrite keq_refl. auto.
          -- destruct (KEQ (get_key x) (get_key z)) as [Q|Q]; auto. destruct H1. rewrite <- Q. apply in_map, in_map_iff. exists (x, n). auto.
      + assert (y = x) as ->. { apply UNIQ; auto. rewrite S2, !in_app_iff. right. right. apply in_map_iff. exists (x, n). auto. }
        rewrite S3, !in_app_iff. auto.
  Qed.

  (** *** C31 *)

  (** One node per item, in item order, whatever the lists were: the children of the parent are the same around the list, the
      nodes between them and the marker were made by [render] for items with the keys of the list. *)
  Theorem C31_shows ls : forall s pre post comment l l1 cs, mounted s pre post comment l -> on_lists P comment l ls = (l1, cs) ->
    exists s1 ns, breplay teqb hook perm s cs [] s1 /\ mounted s1 pre post comment l1 /\
      b_kids s1 P = pre ++ ns ++ comment :: post /\
      Forall2 (fun x id => exists y, get_key y = get_key x /\ b_get s1 id = Some (content y)) (last ls (map fst (l_current l))) ns.
  Proof.
    induction ls as [|new ls IH]; intros s pre post comment l l1 cs M E.
    - simpl in E. inversion E; subst. exists s, (ids (l_current l1)). split; [constructor|]. split; auto. split; [apply (v_kids _ _ _ _ (m_view _ _ _ _ _ M))|].
      simpl. pose proof (m_content _ _ _ _ _ M) as C. clear - C. induction (l_current l1) as [|[x n] t IH]; simpl; [constructor|]. constructor.
      + destruct (C x n) as [C1 C2]; [left; auto|]. eauto.
      + apply IH. intros y m I. apply C. right. auto.
    - cbn [RenderModel.on_lists] in E. destruct (on_list P comment l new) as [l2 c1] eqn:E1. destruct (on_lists P comment l2 ls) as [l3 c2] eqn:E2. inversion E; subst l3 cs.
      destruct (update_mounted _ _ _ _ _ _ _ _ M E1) as (s1 & B1 & M1 & EQ & _). destruct (IH _ _ _ _ _ _ _ M1 E2) as (s2 & ns & B2 & M2 & K2 & F2).
      exists s2, ns. split; [apply (breplay_app _ _ _ _ _ _ _ _ [] [] B1 B2)|]. split; auto. split; auto. rewrite EQ in F2. replace (last (new :: ls) (map fst (l_current l))) with (last ls new); auto.
      destruct ls as [|a ls]; auto. change (last (new :: a :: ls) (map fst (l_current l))) with (last (a :: ls) (map fst (l_current l))).
      clear. generalize (map fst (l_current l)) as d. revert a. induction ls as [|b ls IH]; intros a d; auto. apply IH.
  Qed.

  (** An item whose key survives keeps its node (distinct keys). *)
  Theorem C31_keeps s pre post comment l new l1 cs x n y : mounted s pre post comment l -> on_list P comment l new = (l1, cs) ->
    NoDup (map get_key (map fst (l_current l))) -> NoDup (map get_key new) ->
    In (x, n) (l_current l) -> In y new -> get_key y = get_key x -> In (y, n) (l_current l1).
  Proof. intros M E. destruct (update_mounted _ _ _ _ _ _ _ _ M E) as (s1 & _ & _ & _ & _ & _ & H). intros. eapply H; eauto. Qed.

  (** The node of an item whose key has vanished is removed; only nodes that are not used any more are removed. *)
  Theorem C31_released s pre post comment l new l1 cs : mounted s pre post comment l -> on_list P comment l new = (l1, cs) ->
    exists s1, breplay teqb hook perm s cs [] s1 /\
      (forall x n, In (x, n) (l_current l) -> (forall y, In y new -> get_key y <> get_key x) -> b_get s1 (n_id n) = None) /\
      (forall x n, In (x, n) (l_current l1) -> b_get s1 (n_id n) <> None).
  Proof.
    intros M E. destruct (update_mounted _ _ _ _ _ _ _ _ M E) as (s1 & B & M1 & EQ & _ & H & _). exists s1. split; auto. split.
    - intros x n I NK. destruct (H x n I) as [(y & J & Q)|J]; auto. destruct (NK y); auto. rewrite <- EQ. apply in_map_iff. exists (y, n). auto.
    - intros x n I. destruct (m_content _ _ _ _ _ M1 x n I) as [_ ->]. discriminate.
  Qed.

  (** The commands of one update go out in the order in which they were issued. *)
  Theorem C31_order comment l new l1 cs : on_list P comment l new = (l1, cs) -> sort_commands cs = cs.
  Proof. apply update_sorted. Qed.

  (** *** C52 *)

  (** Part of C52: if what is rendered for an item depends on its key only, the list shows what would be rendered for its items now. *)
  Theorem C52_content_partial ls s pre post comment l l1 cs : (forall x y, get_key x = get_key y -> content x = content y) ->
    mounted s pre post comment l -> on_lists P comment l ls = (l1, cs) ->
    exists s1 ns, breplay teqb hook perm s cs [] s1 /\ b_kids s1 P = pre ++ ns ++ comment :: post /\
      Forall2 (fun x id => b_get s1 id = Some (content x)) (last ls (map fst (l_current l))) ns.
  Proof.
    intros C M E. destruct (C31_shows _ _ _ _ _ _ _ _ M E) as (s1 & ns & B & _ & K1 & F). exists s1, ns. split; auto. split; auto.
    clear - C F. induction F as [|x id xs ids (y & Q & G) F IH]; constructor; auto. rewrite G. f_equal. auto.
  Qed.
End Lists.

(** ** Examples *)

Module ListDemo.
  (** Items are pairs of a key and a text; the element 1 contains the marker 2 and, after it, the text 3. *)
  Definition eqp (x y : N * N) : bool := ((fst x =? fst y) && (snd x =? snd y))%N.
  Definition node0 (x : N) : option (bnode N) :=
    if (x =? 1)%N then Some (BElement 50%N []) else if (x =? 2)%N then Some (BComment 51%N) else if (x =? 3)%N then Some (BText 52%N) else None.
  Definition s0 : bdom N :=
    BDom node0 (fun x => match node0 x with Some _ => true | None => false end) (fun x => if (x =? 1)%N then [2; 3]%N else [])
         (fun x => if ((x =? 2) || (x =? 3))%N then Some 1%N else None) [] (fun _ => false) (fun _ => []).
  Notation mount := (@mounted (N * N) N N fst (fun _ => true) snd 1%N (fun _ => false)).
  Notation lists := (@on_lists (N * N) N N eqp N.eqb fst (fun _ => true) snd (fun l => l) 1%N 2%N (RList [] 4%N)).
  Notation replay := (@breplay N N.eqb 100%N (fun _ => false)).

  Lemma node0_none x : (4 <= x)%N -> node0 x = None.
  Proof. intros H. unfold node0. destruct (N.eqb_spec x 1), (N.eqb_spec x 2), (N.eqb_spec x 3); lia || auto. Qed.

  Lemma mount0 : mount s0 [] [3%N] 2%N (RList [] 4%N).
  Proof.
    constructor; simpl.
    - constructor; cbn [kids known bound].
      + exists 50%N, []. reflexivity.
      + lia.
      + reflexivity.
      + intros x [<-|[<-|[]]]; split; try reflexivity; discriminate.
      + intros x [].
      + intros x U. assert (x = 1%N) as ->; [|split; [intros []|lia]]. inversion U as [|y p z Q U2]; subst; auto. discriminate.
      + intros x L. unfold s0. cbn [b_node b_reg b_par]. rewrite (node0_none x L). split; auto. split; auto. split; auto.
        destruct (N.eqb_spec x 2), (N.eqb_spec x 3); try lia. split; auto. intros [Q|[Q|[]]]; lia.
    - constructor; [intros [Q|[]]; discriminate|]. constructor; [intros []|constructor].
    - intros x [<-|[<-|[]]]; lia.
    - intros x n [].
  Qed.

  Lemma eqp_eq x y : eqp x y = true -> x = y.
  Proof. unfold eqp. intros H. apply andb_true_iff in H as [A B]. apply N.eqb_eq in A, B. destruct x, y; simpl in *; subst; auto. Qed.
End ListDemo.

(** A list of three items is turned round, one item leaves and a new one comes: the nodes 4 and 6 of the surviving keys stay. *)
Example C31_case :
  let ls := [[(1, 10); (2, 20); (3, 30)]; [(3, 30); (4, 40); (1, 10)]]%N in
  let see (s1 : bdom N) := (b_kids s1 1, map (b_get s1) [4; 7; 6], b_get s1 5)%N in
  ListDemo.mount ListDemo.s0 [] [3%N] 2%N (RList [] 4%N) /\
  exists s1, ListDemo.replay ListDemo.s0 (snd (ListDemo.lists ls)) [] s1 /\
    see s1 = ([4; 7; 6; 2; 3], [Some (BText 30); Some (BText 40); Some (BText 10)], None)%N.
Proof. intros ls see. split; [exact ListDemo.mount0|]. apply (brun_sees N.eqb 100%N (fun _ => false) 9 ListDemo.s0 _ see). vm_compute. reflexivity. Qed.

(** The part of C52 that holds: the text depends on the key only; the value of the item with key 1 changes and a second item comes. *)
Example C52_content_case :
  let content (x : N * N) := (fst x * 10)%N in
  let ls := [[(1, 7)]; [(2, 5); (1, 9)]]%N in
  let see (s1 : bdom N) := (b_kids s1 1, map (b_get s1) [5; 4])%N in
  (forall x y : N * N, fst x = fst y -> content x = content y) /\
  @mounted (N * N) N N fst (fun _ => true) content 1%N (fun _ => false) ListDemo.s0 [] [3%N] 2%N (RList [] 4%N) /\
  exists s1, ListDemo.replay ListDemo.s0 (snd (@on_lists (N * N) N N ListDemo.eqp N.eqb fst (fun _ => true) content (fun l => l) 1%N 2%N (RList [] 4%N) ls)) [] s1 /\
    see s1 = ([5; 4; 2; 3], [Some (BText 20); Some (BText 10)])%N.
Proof.
  intros content ls see. split; [intros x y E; unfold content; rewrite E; reflexivity|]. split.
  - destruct ListDemo.mount0 as [A B C D]. constructor; auto. intros x n [].
  - apply (brun_sees N.eqb 100%N (fun _ => false) 9 ListDemo.s0 _ see). vm_compute. reflexivity.
Qed.

(** C52 fails: the text of the item with key 1 changes, the list goes on showing the old one. *)
Theorem C52_refuted :
  let ls := [[(1, 10)]; [(1, 20)]]%N in
  let see (s1 : bdom N) := (b_kids s1 1, b_get s1 4)%N in
  ListDemo.mount ListDemo.s0 [] [3%N] 2%N (RList [] 4%N) /\
  map fst (l_current (fst (ListDemo.lists ls))) = [(1, 20)]%N /\
  exists s1, ListDemo.replay ListDemo.s0 (snd (ListDemo.lists ls)) [] s1 /\ see s1 = ([4; 2; 3], Some (BText 10))%N.
Proof.
  intros ls see. split; [exact ListDemo.mount0|]. split; [reflexivity|].
  apply (brun_sees N.eqb 100%N (fun _ => false) 9 ListDemo.s0 _ see). vm_compute. reflexivity.
Qed.
