(** What keeps a computed attached to the graph: something that depends on it, an evaluation in
    progress, or a one-off read. *)

From Coq Require Import List NArith Bool Lia Arith Relations.
From Verif Require Import GraphModel GraphSpec GraphProofs ReactModel ReactSpec ReactBase ReactInv ReactExec
  ReactRel ReactFacts.
Import ListNotations.

Section Conn.
  Context {V : Type}.
  Variable E : @env V.
  Variable rank : gid -> nat.
  Hypothesis WF : well_founded_env E rank.

  Notation GI := (GI E rank).
  Notation src := (src E).
  Notation open_sub := (open_sub E).
  Notation trans := (trans E rank).

  Definition was_read (c : gid) (l : list (@event V)) : Prop := exists v vs, In (ERead c v vs) l.

  (** An attached computed has a dependent, or is in a context, or has been read, or is exempted. *)
  Definition NXe (x : gid -> Prop) (s : @state V) : Prop :=
    forall p c, child (graph_of s) p c -> gkind c = KComputed ->
      (exists d, child (graph_of s) c d) \/ in_frames c s \/ was_read c (log s) \/ x c.

  Definition NX (s : @state V) : Prop := NXe (fun _ => False) s.

  Lemma NXe_weaken (x y : gid -> Prop) s : (forall c, x c -> y c) -> NXe x s -> NXe y s.
  Proof. intros W H p c P K. destruct (H p c P K) as [A|[A|[A|A]]]; auto. Qed.

  Lemma NXe_same (x : gid -> Prop) (s s' : @state V) : graph_of s' = graph_of s ->
    (forall c, in_frames c s -> in_frames c s') -> (exists l, log s' = l ++ log s) -> NXe x s -> NXe x s'.
  Proof.
    intros G F [l L] H p c P K. rewrite G in *. destruct (H p c P K) as [A|[A|[A|A]]]; auto.
    right; right; left. destruct A as (v & vs & A). exists v, vs. rewrite L. apply in_app_iff; auto.
  Qed.

  Lemma nn_list (P : gid -> Prop) l : (forall d, In d l -> ~ ~ P d) -> ~ ~ (forall d, In d l -> P d).
  Proof.
    induction l as [|a l IH]; intros H N.
    - apply N. intros d [].
    - apply (H a); [simpl; auto|]. intros A. apply IH; [intros; apply H; simpl; auto|].
      intros B. apply N. intros d [<-|I]; auto.
  Qed.

  (** Replacing the parents of [n] keeps everything attached that should be. *)
  Lemma parents_nx (x : gid -> Prop) n new s s' :
    GIx E rank (eq n) s -> sorted new ->
    (forall p, In p new -> rk E rank p < rk E rank n /\ gkind p <> KClient) ->
    gkind n <> KValue ->
    (gkind n = KClient -> forall p, In p new -> p = src n /\ live s n = true) ->
    set_parents E n new s = Ok s' ->
    NXe (fun c => x c \/ In c new) s -> NXe (fun c => x c \/ c = n) s'.
  Proof.
    intros G SN RN KC KL X H.
    destruct (set_parents_ok E rank n new s G SN RN KC KL)
      as (s0 & X0 & G' & FZ & CH & _ & _ & _ & _ & _ & (lc & LG & _) & _).
    rewrite X in X0. inversion X0; subst s0. clear X0.
    destruct FZ as (_ & _ & _ & _ & _ & Z6 & _ & _ & _).
    intros p c P K.
    destruct (gid_eq_dec c n) as [|N]; [auto|].
    assert (KEEP : was_read c (log s) -> was_read c (log s')).
    { intros (v & vs & A). exists v, vs. rewrite LG. apply in_app_iff; auto. }
    assert (FRM : in_frames c s -> in_frames c s').
    { intros (f & A & B). exists f. rewrite Z6. auto. }
    apply CH in P as [[? _]|(_ & P & NO)]; [congruence|].
    destruct (in_dec gid_eq_dec c new) as [IN|NI].
    { left. exists n. apply CH. auto. }
    destruct (H p c P K) as [[d D]|[A|[A|[A|A]]]]; auto; [|contradiction].
    left. destruct (rel (g_pc (graph_of s')) c) as [|e r] eqn:R.
    - exfalso. apply (nn_list (fun d => d = n \/ orph s n new d) (rel (g_pc (graph_of s)) c)).
      + intros e I NE. assert (C : child (graph_of s') c e).
        { apply CH. right. split; [intros ->; auto|]. split; auto. }
        unfold child in C. rewrite R in C. destruct C.
      + intros ALL. apply NO. constructor; eauto.
    - exists e. unfold child. rewrite R. simpl; auto.
  Qed.

  Lemma calc_gi f c s s' v : gkind c = KComputed -> GI s -> cache s c = None ->
    calc E f c s = Ok (s', v) -> step E rank s s' /\ frames s' = frames s /\ cache s' c = Some v.
  Proof.
    intros K G C X. apply (calc_mono E f (f + S (rk E rank c))) in X; [|lia].
    destruct (calc_ok E rank WF (f + S (rk E rank c)) c s) as (s2 & w & X2 & ST & F & CS); auto; [lia|].
    rewrite X in X2; inversion X2; subst; auto.
  Qed.

  Lemma calc_nx f : forall x c s s' v, gkind c = KComputed -> GI s -> cache s c = None -> NXe x s ->
    calc E f c s = Ok (s', v) -> NXe (fun d => x d \/ d = c) s'.
  Proof.
    induction f as [|f IH]; intros x c s s' v K G CN S X; [discriminate|].
    cbn [calc] in X.
    assert (RUN : forall p s s1 w f0 fs, GI s -> NXe x s -> frames s = f0 :: fs ->
              (forall i, In i f0 -> rank i < rank c /\ gkind i <> KClient) ->
              reads_below rank (rank c) p ->
              run_prog (calc E f) p s = Ok (s1, w) ->
              exists f1, GI s1 /\ NXe x s1 /\ frames s1 = f1 :: fs /\
                (forall i, In i f1 -> rank i < rank c /\ gkind i <> KClient)).
    { clear - IH WF. induction p as [v|id k IHp]; intros s s1 w f0 fs G S F RF RB X; cbn [run_prog] in X.
      - inversion X; subst. exists f0. auto.
      - destruct RB as (RI & KI & RB).
        set (s0 := add_parent id s) in *.
        assert (S0 : s0 = set_frames ((id :: f0) :: fs) s) by (unfold s0, add_parent; rewrite F; auto).
        assert (G0 : GI s0) by (rewrite S0; apply GIx_frames; auto).
        assert (F0 : frames s0 = (id :: f0) :: fs) by (rewrite S0; auto).
        assert (NX0 : NXe x s0).
        { apply (NXe_same x s); auto; [rewrite S0; auto| |exists []; rewrite S0; auto].
          intros d (g & A & B). rewrite F in A. unfold in_frames. rewrite F0.
          destruct A as [<-|A]; [exists (id :: f0)|exists g]; simpl; auto. }
        assert (RF0 : forall i, In i (id :: f0) -> rank i < rank c /\ gkind i <> KClient).
        { intros i [<-|Hi]; auto. }
        assert (FIN : forall s2 y, GI s2 -> NXe x s2 -> frames s2 = frames s0 ->
                  run_prog (calc E f) (k y) s2 = Ok (s1, w) ->
                  exists f1, GI s1 /\ NXe x s1 /\ frames s1 = f1 :: fs /\
                    (forall i, In i f1 -> rank i < rank c /\ gkind i <> KClient)).
        { intros s2 y G2 N2 F2 X2. rewrite F0 in F2. eapply (IHp y s2 s1 w (id :: f0) fs); eauto. }
        destruct (gkind id) eqn:KD; [| |discriminate].
        + apply (FIN s0 (vals s0 id)); auto.
        + destruct (cache s0 id) as [y|] eqn:CX.
          * apply (FIN s0 y); auto.
          * destruct (calc E f id s0) as [[s2 y]| |] eqn:CC; try discriminate. cbn [obind] in X.
            pose proof (IH x id s0 s2 y KD G0 CX NX0 CC) as A.
            destruct (calc_gi f id s0 s2 y KD G0 CX CC) as (ST & F2 & _).
            apply (FIN s2 y); auto; [apply ST|].
            intros p d P Kd. destruct (A p d P Kd) as [B|[B|[B|[B| ->]]]]; auto.
            right; left. exists (id :: f0). rewrite F2, F0. simpl; auto. }
    set (s0 := add_log (ECompute c) (frame_open s)) in *.
    assert (G0 : GI s0) by (apply GIx_log; [auto|congruence|apply GIx_frames; auto]).
    assert (NX0 : NXe x s0).
    { apply (NXe_same x s); auto; [|exists [ECompute c]; auto].
      intros d (g & A & B). exists g. simpl. auto. }
    destruct (run_prog (calc E f) (e_comp E c) s0) as [[s1 w]| |] eqn:R; try discriminate. cbn [obind] in X.
    destruct (RUN (e_comp E c) s0 s1 w [] (frames s) G0 NX0 eq_refl ltac:(intros i []) (proj1 WF c K) R)
      as (f1 & G1 & N1 & F1 & RF).
    unfold frame_close in X. rewrite F1 in X.
    set (s2 := set_frames (frames s) s1) in *.
    assert (G2 : GI s2) by (apply GIx_frames; auto).
    unfold push_context in X.
    destruct (set_parents E c (set_of_list f1) s2) as [s3| |] eqn:X3; try discriminate. cbn [obind] in X.
    inversion X; subst s' w. clear X.
    assert (N3 : NXe (fun d => x d \/ d = c) s3).
    { apply (parents_nx x c (set_of_list f1) s2 s3); auto.
      - eapply GIx_weaken; [|exact G2]. intros ? [].
      - apply set_of_list_sorted.
      - intros p Hp. rewrite set_of_list_In in Hp. destruct (RF p Hp) as [A B]. split; auto.
        unfold rk. rewrite K. destruct (gkind p) eqn:KP; auto. congruence.
      - congruence.
      - congruence.
      - intros p d P Kd. destruct (N1 p d P Kd) as [A|[(g & A & B)|[A|A]]]; auto.
        rewrite F1 in A. destruct A as [<-|A].
        + right; right; right; right. apply set_of_list_In; auto.
        + right; left. exists g. auto. }
    exact N3.
  Qed.

  Lemma get_nx f x id s s' v : GI s -> NXe x s -> get E f id s = Ok (s', v) -> NXe (fun d => x d \/ d = id) s'.
  Proof.
    intros G N. unfold get. destruct (gkind id) eqn:K; [| |discriminate].
    - intros X; inversion X; subst. eapply NXe_weaken; [|exact N]; auto.
    - destruct (cache s id) eqn:C.
      + intros X; inversion X; subst. eapply NXe_weaken; [|exact N]; auto.
      + apply calc_nx; auto.
  Qed.

  Theorem exec_nx f cs s s' : GI s -> exec E f (TCmds cs) s = Ok s' -> NX s -> NX s'.
  Proof.
    intros G X. revert G X.
    assert (SAME : forall a b : @state V, graph_of b = graph_of a -> frames b = frames a ->
              (exists l, log b = l ++ log a) -> NX a -> NX b).
    { intros a b GG F L. apply NXe_same; auto. intros c (g & A & B). exists g. rewrite F; auto. }
    apply (exec_rel E rank WF (fun s s' => NX s -> NX s')); auto.
    - intros a b Ga U H. destruct (up_facts E rank a b Ga U) as [-> _]. exact H.
    - intros a b l cs' id v Ga T R H.
      destruct (report_facts E rank a b l cs' id v Ga T R) as (t & c1 & h & ->).
      exact H.
    - intros f' id a b v Ga IN GX H.
      destruct (get_facts E rank WF f' id a b v Ga GX) as (_ & _ & _ & _ & F).
      intros p d P K. destruct (get_nx f' _ id a b v Ga H GX p d P K) as [A|[A|[A|[[]| ->]]]]; auto.
      right; left. destruct IN as (g & A & B). exists g. rewrite F. auto.
    - intros f' id a b v Ga GX H p d P K.
      destruct (get_nx f' _ id a b v Ga H GX p d P K) as [A|[A|[A|[[]| ->]]]]; auto.
      + right; right; left. destruct A as (w & vs & A). exists w, vs. simpl; auto.
      + right; right; left. exists v, (vals b). simpl; auto.
    - intros a c v Ga I. apply SAME; auto. exists [EDeliver c v (vals a) (is_refreshing a)]; auto.
    - intros a c b Ga LV NR X H.
      assert (KC : gkind c = KClient) by (apply (gi_livek _ _ _ _ Ga); auto).
      set (s1 := add_log (EDrop c) (set_live (upd (live a) c false) a)) in *.
      assert (G1 : GIx E rank (eq c) s1).
      { apply GIx_log; [auto|congruence|]. destruct Ga; constructor; auto.
        + intros p d Q Kd N. simpl. rewrite upd_other by congruence. eapply gi_live; eauto.
        + intros d Q. destruct (gi_fresh d Q) as (A1 & A2 & A3 & A4 & A5 & A6 & A7). simpl.
          repeat split; auto. unfold upd; destruct (gid_eqb d c); auto.
        + intros d Q. simpl in Q. unfold upd in Q. destruct (gid_eqb d c); [discriminate|auto].
        + intros d Q. simpl. rewrite upd_other by (intros ->; auto). auto. }
      assert (N1 : NXe (fun _ => False) s1).
      { apply (SAME a s1); auto. exists [EDrop c]; auto. }
      intros p d P K.
      destruct (parents_nx (fun _ => False) c [] s1 b G1) with (p := p) (c := d)
        as [A|[A|[A|[A|A]]]]; auto; try congruence; try tauto.
      + constructor.
      + intros q [].
      + intros _ q [].
      + eapply NXe_weaken; [|exact N1]. intros ? [].
    - intros s0 a c s4 s6 G0 ST Ga PR G4 T14 S14 P14 PC H.
      destruct (close_ok E rank WF c (tx a <> Idle) a s4 (snd (frame_close s4)) (fst (frame_close s4)) s6 Ga PR T14 S14)
        as (T09 & S09 & CTX & S5); auto.
      { destruct (frame_close s4); auto. }
      rewrite CTX, S5 in PC. clear CTX S5.
      pose proof PR as (P1 & P2 & P3 & P4 & P5).
      pose proof (t_running _ _ _ _ _ _ _ _ T14) as R4. simpl in R4.
      pose proof (t_frames _ _ _ _ _ _ _ _ T14) as F4. simpl in F4.
      assert (LV : live s4 c = true) by (apply (gi_runlive _ _ _ _ G4); rewrite R4; simpl; auto).
      change (push_context E c [src c] (set_frames (frames a) s4)) with
        (set_parents E c [src c] (set_frames (frames a) s4)) in PC.
      assert (G5 : GIx E rank (eq c) (set_frames (frames a) s4)).
      { apply GIx_frames. eapply GIx_weaken; [|exact G4]. intros ? []. }
      destruct (rk_src E rank WF c P1) as [RK KS].
      assert (HA : NX a).
      { destruct ST as [[-> _]|(_ & _ & ->)]; exact H. }
      assert (HO : NX (open_sub c a)).
      { apply (NXe_same _ a); auto; [|exists []; auto].
        intros d (g & A & B). exists g. simpl. auto. }
      pose proof (P14 HO) as N4.
      assert (N6 : NX s6).
      { intros p d P K.
        destruct (parents_nx (fun _ => False) c [src c] _ s6 G5) with (p := p) (c := d)
          as [A|[A|[A|[A|A]]]]; auto; try congruence; try tauto.
        - repeat constructor.
        - intros q [<-|[]]; split; auto. congruence.
        - intros _ q [<-|[]]; auto.
        - intros q e Q Ke. destruct (N4 q e Q Ke) as [A|[(g & A & B)|[A|[]]]]; auto.
          rewrite F4 in A. destruct A as [<-|A].
          + right; right; right; right. auto.
          + right; left. exists g. auto. }
      exact N6.
    - intros a b cs' Ga T Gb P TB H. apply (SAME b); auto. exists [EHook]; auto.
  Qed.

  Lemma run_nx vs h s : run E vs h s -> NX s.
  Proof.
    intros [f X]. eapply exec_nx; [apply (init_gi E rank vs)|exact X|]. intros p c [].
  Qed.

  (** What a connection is due to. *)
  Theorem run_anchored vs h s : run E vs h s -> forall p c, child (graph_of s) p c ->
    exists d, dependents (child (graph_of s)) p d /\
      ((gkind d = KClient /\ live s d = true) \/ (gkind d = KComputed /\ was_read d (log s))).
  Proof.
    intros R. destruct (run_gi E rank WF vs h s R) as (G & _ & _ & FR). pose proof (run_nx vs h s R) as N.
    set (M := list_max (map (rk E rank) (targets (g_pc (graph_of s))))).
    assert (B : forall p c, child (graph_of s) p c -> rk E rank c <= M).
    { intros p c H. apply rel_targets in H. unfold M.
      pose proof (proj1 (list_max_le (map (rk E rank) (targets (g_pc (graph_of s)))) _) (Nat.le_refl _)) as F.
      rewrite Forall_forall in F. apply F. apply in_map; auto. }
    assert (IND : forall n p c, M - rk E rank c < n -> child (graph_of s) p c ->
      exists d, dependents (child (graph_of s)) p d /\
        ((gkind d = KClient /\ live s d = true) \/ (gkind d = KComputed /\ was_read d (log s)))).
    { induction n as [|n IH]; intros p c L H; [lia|].
      destruct (gi_kind _ _ _ _ G _ _ H) as [_ KV].
      destruct (gkind c) eqn:K; [congruence| |].
      - destruct (N p c H K) as [[d D]|[(g & A & _)|[A|[]]]].
        + destruct (IH c d) as (e & DE & HE).
          * pose proof (gi_rank _ _ _ _ G _ _ D). pose proof (B _ _ D). lia.
          * auto.
          * exists e. split; auto. eapply t_trans; [apply t_step; exact H|exact DE].
        + rewrite FR in A. destruct A.
        + exists c. split; [apply t_step; auto|auto].
      - exists c. split; [apply t_step; auto|]. left. split; auto. eapply (gi_live _ _ _ _ G); eauto. }
    intros p c H. eapply IND; eauto.
  Qed.
End Conn.
