(** What single DOM commands do to a document that an application builds: lemmas for [UiProps]. *)
From Coq Require Import String List NArith Bool Lia Permutation.
From Verif Require Import CodecModel DomWire DomModel DomSort DomMacroModel UiModel.
From Verif Require DomMacroBuild.
Import ListNotations.
Local Open Scope list_scope.
Local Open Scope N_scope.

Section Steps.
  Notation bdom := (DomModel.bdom bytes).
  Notation bstep := (b_step beq DomMacroBuild.hook_name DomMacroBuild.perm).
  Notation brep := (breplay beq DomMacroBuild.hook_name DomMacroBuild.perm).
  Variable s0 : bdom.
  Variables R n0 : N.
  Hypothesis n0_ok : 4 <= n0.
  Hypothesis R_ok : R < n0.

  Definition same (s s' : bdom) (x : N) : Prop :=
    b_node s' x = b_node s x /\ b_reg s' x = b_reg s x /\ b_kids s' x = b_kids s x /\ b_par s' x = b_par s x.
  Definition absent (s : bdom) (x : N) : Prop := b_node s x = None /\ b_reg s x = false /\ b_kids s x = [] /\ b_par s x = None.
  Lemma same_refl s x : same s s x.
  Proof. repeat split. Qed.
  Lemma same_trans s1 s2 s3 x : same s1 s2 x -> same s2 s3 x -> same s1 s3 x.
  Proof. intros (A & B & C & D) (A' & B' & C' & D'). repeat split; congruence. Qed.
  Lemma same_get s1 s2 x : same s1 s2 x -> b_get s2 x = b_get s1 x.
  Proof. intros (A & B & _). unfold b_get. rewrite A, B. reflexivity. Qed.

  Definition mine (P : N) : Prop := P = R \/ n0 <= P.
  (** Of the commands so far: none names a node that was removed, insertions put nodes below older ones. *)
  Record tidy (next : N) (q : list (dcmd bytes)) (s : bdom) : Prop := {
    y_use : no_use_after_removal (fun _ => False) q;
    y_gone : forall c x, In c q -> removes c x -> n0 <= x /\ x < next /\ b_reg s x = false;
    y_ins : forall p c r, In (InsertBefore p c r) q -> n0 <= c /\ p < c /\ mine p
  }.
  (** Commands other than those for insertions, removals and listeners. *)
  Definition plain (t : bdom) (c : dcmd bytes) : Prop :=
    match c with
    | InsertBefore _ _ _ | CallbackAdd _ _ _ | CallbackRemove _ _ _ | RemoveNode _ | RemoveText _ | RemoveComment _ => False
    | _ => True
    end.
  Record Inv (w : uw) (s : bdom) : Prop := {
    i_tidy : tidy (u_next w) (u_q w) s;
    i_run : brep s0 (u_q w) [] s;
    i_abs : forall x, u_next w <= x -> absent s x;
    i_next : n0 <= u_next w;
    i_par : forall x y, b_par s x = Some y -> (n0 <= x -> y < x) /\ (x < n0 -> y < n0);
    i_site : forall P, mine P -> NoDup (b_kids s P) /\ forall x, In x (b_kids s P) -> b_par s x = Some P /\ b_get s x <> None
  }.

  Definition inr (lo hi x : N) : Prop := lo <= x /\ x < hi.
  (** Something was done with the nodes [D] below [P]: [X] are those that are there now. *)
  Record done (w : uw) (s : bdom) (P : N) (D : N -> Prop) (w' : uw) (s' : bdom) (X : list N) : Prop := {
    o_inv : Inv w' s';
    o_le : u_next w <= u_next w';
    o_out : ~ D P /\ P < u_next w;
    o_dec : forall x, D x \/ ~ D x;
    o_dom : forall x, D x -> x < u_next w;
    o_nodup : NoDup X;
    o_own : forall x, In x X -> D x \/ inr (u_next w) (u_next w') x;
    o_same : forall x, ~ D x -> x <> P -> x < u_next w -> same s s' x;
    o_P : b_node s' P = b_node s P /\ b_reg s' P = b_reg s P /\ b_par s' P = b_par s P;
    o_gone : forall x, D x \/ inr (u_next w) (u_next w') x -> b_reg s' x = true -> In x X
  }.

  Lemma done_seq w s P D1 w1 s1 X1 D2 w2 s2 X2 D : done w s P D1 w1 s1 X1 -> done w1 s1 P D2 w2 s2 X2 ->
    (forall x, D2 x -> ~ In x X1) -> (forall x, D x <-> D1 x \/ (D2 x /\ x < u_next w)) ->
    done w s P D w2 s2 (X1 ++ X2) /\ (forall x, In x X1 -> same s1 s2 x).
  Proof.
    intros T1 T2 N ED.
    assert (S1 : forall x, In x X1 -> same s1 s2 x).
    { intros x H. apply (o_same _ _ _ _ _ _ _ T2). intros Y. eapply N; eauto.
      intros ->. destruct (o_own _ _ _ _ _ _ _ T1 P H) as [Y|Y]. apply (o_out _ _ _ _ _ _ _ T1); auto. destruct Y, (o_out _ _ _ _ _ _ _ T1). lia.
      destruct (o_own _ _ _ _ _ _ _ T1 x H) as [Y|[_ Y]]; auto. pose proof (o_dom _ _ _ _ _ _ _ T1 x Y). pose proof (o_le _ _ _ _ _ _ _ T1). lia. }
    split; auto. destruct T1 as [A1 A2 A3 A0 A4 A5 A6 A7 A8 A9], T2 as [B1 B2 B3 B0 B4 B5 B6 B7 B8 B9]. constructor; auto; try lia.
    - split; [|tauto]. rewrite ED. intros [X|[X _]]. tauto. tauto.
    - intros x. rewrite ED. destruct (A0 x), (B0 x); try tauto. destruct (N.ltb_spec x (u_next w)); [tauto|]. right. intros [X|[_ X]]; [tauto|lia].
    - intros x. rewrite ED. intros [X|[_ X]]; auto.
    - apply (Permutation_NoDup (Permutation_app_comm X2 X1)). clear -A5 B5 N B6 A6 A4 A2 B2.
      induction X2 as [|y l IH]; cbn; auto. inversion B5; subst. constructor.
      + rewrite in_app_iff. intros [Y|Y]; auto. destruct (B6 y) as [Z|Z]; [left; auto| |]. eapply N; eauto.
        destruct (A6 y Y) as [Q|Q]. specialize (A4 y Q). destruct Z. lia. destruct Q, Z. lia.
      + apply IH; auto. intros x H. apply B6. right. auto.
    - intros x H. apply in_app_or in H. destruct H as [H|H].
      + destruct (A6 x H) as [Y|[Y Z]]; [left; apply ED; auto|right; split; auto; lia].
      + destruct (B6 x H) as [Y|[Y Z]].
        * destruct (N.ltb_spec x (u_next w)); [left; apply ED; auto|right; split; auto]. pose proof (B4 x Y). lia.
        * right. split; auto; lia.
    - intros x Nx NP Lx. eapply same_trans; [apply A7|apply B7]; auto; try lia; rewrite ED in Nx; tauto.
    - destruct A8 as (U1 & U2 & U3), B8 as (V1 & V2 & V3). repeat split; congruence.
    - intros x H Rx. apply in_or_app. rewrite ED in H.
      assert (Y : D1 x \/ inr (u_next w) (u_next w1) x \/ inr (u_next w1) (u_next w2) x \/ D2 x).
      { destruct H as [[Y|[Y _]]|[Y Z]]; auto. unfold inr. lia. }
      clear H. destruct Y as [Y|[Y|[Y|Y]]]; [| |right; apply B9; auto|right; apply B9; auto].
      all: destruct (B0 x) as [Q|Q]; [right; apply B9; auto|left].
      all: apply A9; auto; destruct A3 as [A31 A32]; destruct (B7 x Q) as (_ & Y1 & _); [intros ->; (contradiction || (destruct Y; lia))| |congruence].
      + specialize (A4 x Y). lia.
      + destruct Y. lia.
  Qed.

  Lemma done_set w s P D w' s' X X' D' : done w s P D w' s' X -> Permutation X X' -> (forall x, D x <-> D' x) -> done w s P D' w' s' X'.
  Proof.
    intros [A1 A2 A3 A0 A4 A5 A6 A7 A8 A9] Q E. constructor; auto.
    - rewrite <- E. auto.
    - intros x. rewrite <- E. auto.
    - intros x. rewrite <- E. auto.
    - eapply Permutation_NoDup; eauto.
    - intros x H. rewrite <- E. apply A6. eapply Permutation_in; [apply Permutation_sym|]; eauto.
    - intros x H. apply A7. rewrite E. auto.
    - intros x H H1. eapply Permutation_in; eauto. apply A9; auto. rewrite E. auto.
  Qed.
  Lemma done_id w s P : Inv w s -> P < u_next w -> done w s P (fun _ => False) w s [].
  Proof.
    intros H HP. constructor; auto; try lia; try (split; auto); try tauto.
    - constructor.
    - intros x [[]|[X Y]]; lia.
  Qed.
  (** More nodes that were left alone. *)
  Lemma done_keep w s P D w' s' X (Y : list N) : done w s P D w' s' X -> NoDup Y -> ~ In P Y -> (forall x, In x Y -> ~ D x /\ x < u_next w) ->
    done w s P (fun x => D x \/ In x Y) w' s' (X ++ Y) /\ (forall x, In x Y -> same s s' x).
  Proof.
    intros [A1 A2 A3 A0 A4 A5 A6 A7 A8 A9] NY NP HY. split; [constructor; auto|].
    - tauto.
    - intros x. destruct (A0 x); auto. destruct (in_dec N.eq_dec x Y); tauto.
    - intros x [H|H]; auto. apply HY; auto.
    - clear -A5 A6 NY HY. apply (Permutation_NoDup (Permutation_app_comm Y X)).
      induction Y as [|y l IH]; cbn; auto. inversion NY; subst. constructor.
      + rewrite in_app_iff. intros [Z|Z]; auto. destruct (HY y) as [U1 U2]; [left; auto|]. destruct (A6 y Z) as [Q|[Q _]]; auto. lia.
      + apply IH; auto. intros. apply HY. right; auto.
    - intros x H. apply in_app_or in H. destruct H as [H|H]; auto. destruct (A6 x H); auto.
    - intros x [[H|H]|H] Rx; apply in_or_app; auto.
    - intros x H. destruct (HY x H). apply A7; auto. intros ->. auto.
  Qed.
  (** What was done below [i] was done to [i]. *)
  Lemma done_up w s P i D w' s' X : done w s i D w' s' X -> ~ D P -> P <> i -> P < u_next w ->
    done w s P (fun x => D x \/ x = i) w' s' (i :: X) /\ same s s' P.
  Proof.
    intros [A1 A2 [A3 A3'] A0 A4 A5 A6 A7 A8 A9] NP Ni LP. pose proof (A7 P NP Ni LP) as SP. split; auto. constructor; auto.
    - split; auto. intros [H|H]; auto.
    - intros x. destruct (A0 x); auto. destruct (N.eq_dec x i); tauto.
    - intros x [H| ->]; auto.
    - constructor; auto. intros H. destruct (A6 i H) as [Y|[Y _]]; auto. lia.
    - intros x [<-|H]; auto. destruct (A6 x H); auto.
    - destruct SP as (U1 & U2 & U3 & U4). auto.
    - intros x [[H| ->]|H] Rx; [right; auto|left; auto|right; auto].
  Qed.

  (** *** Commands *)
  Lemma plain_legal t c : plain t c -> legal t c.
  Proof. destruct c; cbn; tauto. Qed.
  Lemma use_snoc (q : list (dcmd bytes)) c : no_use_after_removal (fun _ => False) q -> (forall d x, In d q -> removes d x -> ~ In x (mentions c)) ->
    no_use_after_removal (fun _ => False) (q ++ [c]).
  Proof.
    intros U H l d l' x e E Rd I M. destruct (exists_last (l := l')) as (l2 & z & ->). destruct l'; [contradiction|discriminate].
    rewrite app_comm_cons, app_assoc in E. apply app_inj_tail in E. destruct E as [-> ->]. apply in_app_or in I. destruct I as [I|[<-|[]]].
    - exact (U l d l2 x e eq_refl Rd I M).
    - apply (H d x); auto. apply in_or_app. right. left. auto.
  Qed.
  Lemma mention_reg s c s' y : plain s c \/ (exists x, removes c x) \/ (exists p k r, c = InsertBefore p k r) -> bstep s c = Some s' -> In y (mentions c) -> n0 <= y ->
    b_reg s y = true \/ b_reg s' y = true.
  Proof.
    assert (G : forall x n, b_get s x = Some n -> b_reg s x = true). { unfold b_get. intros x n. destruct (b_reg s x); auto. discriminate. }
    assert (Cr : forall x n, n0 <= x -> b_create DomMacroBuild.perm s x n = Some s' -> b_reg s' x = true).
    { intros x n Hx. unfold b_create. replace (DomMacroBuild.perm x) with false. destruct (b_node s x); [discriminate|]. intros E. injection E as <-. cbn. unfold nupd. rewrite N.eqb_refl. auto.
      symmetry. unfold DomMacroBuild.perm. repeat (rewrite (proj2 (N.eqb_neq _ _)); [|lia]). reflexivity. }
    assert (Rm : forall x, b_remove DomMacroBuild.perm s x = Some s' -> b_reg s x = true). { unfold b_remove. intros x. destruct (b_get s x) eqn:E; [eauto|discriminate]. }
    intros [Pl|[(x & Rx)|(p & k & r & ->)]] St M Hy.
    - destruct c; try contradiction; cbn [mentions] in M; try (destruct M as [<-|[]]); cbn [b_step] in St; eauto.
      + destruct (b_get s id) eqn:E; [eauto|discriminate].
      + destruct (b_get s id) eqn:E; [eauto|discriminate].
      + destruct (b_get s id) eqn:E; [eauto|discriminate].
    - left. destruct Rx as [->|[->| ->]]; cbn [mentions] in M; destruct M as [<-|[]]; cbn [b_step] in St; eauto.
    - cbn [b_step] in St. unfold b_insert in St. destruct (b_get s p) as [[]|] eqn:E1; try discriminate. destruct (b_get s k) eqn:E2; [|discriminate].
      cbn [mentions] in M. destruct M as [<-|[<-|M]]; eauto. destruct r as [r|]; [|contradiction]. destruct M as [<-|[]]. destruct (b_get s r) eqn:E3; [eauto|discriminate].
  Qed.
  Lemma tidy_snoc next next' q c s s' : tidy next q s -> (plain s c \/ (exists x, removes c x /\ n0 <= x /\ x < next /\ b_reg s' x = false) \/ (exists p k r, c = InsertBefore p k r /\ n0 <= k /\ p < k /\ mine p)) -> bstep s c = Some s' -> next <= next' ->
    (forall x, x < next -> b_reg s x = false -> b_reg s' x = false) -> tidy next' (q ++ [c]) s'.
  Proof.
    intros [U1 U2 U3] Kd St Le Kp. constructor.
    - apply use_snoc; auto. intros d x Id Rd M. destruct (U2 d x Id Rd) as (G1 & G2 & G3).
      destruct (mention_reg s c s' x) as [X|X]; auto; try congruence.
      + destruct Kd as [Kd|[(z & Z & _)|(p & k & r & -> & _)]]; eauto 6.
      + rewrite (Kp x G2 G3) in X. discriminate.
    - intros d x Id Rd. apply in_app_or in Id. destruct Id as [Id|[<-|[]]]. destruct (U2 d x Id Rd) as (G1 & G2 & G3). split; [auto|]. split; [lia|auto].
      destruct Kd as [Kd|[(z & Z & G1 & G2 & G3)|(p & k & r & -> & _)]].
      + destruct Rd as [->|[->| ->]]; contradiction.
      + assert (x = z) by (destruct Rd as [->|[->| ->]], Z as [Z|[Z|Z]]; congruence). subst z. split; [auto|]. split; [lia|auto].
      + destruct Rd as [Rd|[Rd|Rd]]; discriminate.
    - intros p k r Id. apply in_app_or in Id. destruct Id as [Id|[->|[]]]; eauto. destruct Kd as [[]|[(z & [Z|[Z|Z]] & _)|(p1 & k1 & r1 & E & F)]]; try discriminate. injection E as <- <- <-. auto.
  Qed.
  Lemma perm_no x : n0 <= x -> DomMacroBuild.perm x = false.
  Proof. intros H. unfold DomMacroBuild.perm. repeat (rewrite (proj2 (N.eqb_neq _ _)); [|lia]). reflexivity. Qed.
  Lemma under_bound w s P y : Inv w s -> mine P -> under s P y -> y <= P \/ y < n0.
  Proof.
    intros H HP U. assert (forall P y, under s P y -> (n0 <= P -> y <= P) /\ (P < n0 -> y < n0)) as G.
    { clear -H. intros P y U. induction U as [|x p y E U IH]. split; auto; lia. destruct (i_par _ _ H _ _ E). split; intros.
      - specialize (H0 H2). destruct (N.ltb_spec p n0); [|lia]. apply IH in H3. lia.
      - apply IH. auto. }
    destruct (G _ _ U). destruct (N.ltb_spec P n0); auto.
  Qed.

  (** A node is made. *)
  Lemma create_ok w s n c : Inv w s -> (forall t, bstep t (c (u_next w)) = b_create DomMacroBuild.perm t (u_next w) n) ->
    (forall t, plain t (c (u_next w))) ->
    exists s', Inv (snd (ufresh w c)) s' /\ b_get s' (u_next w) = Some n /\ b_par s' (u_next w) = None /\ b_kids s' (u_next w) = [] /\
      (forall x, x <> u_next w -> same s s' x).
  Proof.
    intros H St Lg. pose proof (i_next _ _ H) as Nx. destruct (i_abs _ _ H (u_next w)) as (U1 & U2 & U3 & U4); [lia|].
    assert (SS : forall x, x <> u_next w -> same s (BDom (nupd (b_node s) (u_next w) (Some n)) (nupd (b_reg s) (u_next w) true) (b_kids s) (b_par s)
                              (b_css s) (b_cbs s) (b_listen s)) x).
    { intros x Hx. unfold same, nupd. cbn. rewrite (proj2 (N.eqb_neq _ _) Hx). auto. }
    assert (G : b_get (BDom (nupd (b_node s) (u_next w) (Some n)) (nupd (b_reg s) (u_next w) true) (b_kids s) (b_par s)
                              (b_css s) (b_cbs s) (b_listen s)) (u_next w) = Some n).
    { unfold b_get, nupd. cbn. rewrite N.eqb_refl. reflexivity. }
    eexists. split; [|split; [exact G|]; split; [exact U4|]; split; [exact U3|exact SS]].
    constructor; cbn.
    - eapply tidy_snoc; [apply H|auto|rewrite St; unfold b_create; rewrite perm_no, U1; auto|lia|]. intros x Hx Rx. cbn. unfold nupd. rewrite (proj2 (N.eqb_neq x (u_next w))); auto. lia.
    - eapply DomMacroBuild.brep_snoc. apply H. apply plain_legal. auto. rewrite St. unfold b_create. rewrite perm_no, U1; auto.
    - intros x Hx. destruct (SS x) as (V1 & V2 & V3 & V4); [lia|]. destruct (i_abs _ _ H x) as (W1 & W2 & W3 & W4); [lia|].
      repeat split; congruence.
    - lia.
    - apply (i_par _ _ H).
    - intros P HP. destruct (i_site _ _ H P HP) as [N1 N2]. split; auto. intros x Hx. destruct (N2 x Hx) as [M1 M2]. split; auto.
      destruct (N.eq_dec x (u_next w)) as [->|Ne]. rewrite G. discriminate. rewrite (same_get _ _ _ (SS x Ne)). auto.
  Qed.

  (** The content of a node changes. *)
  Lemma update_ok w s i n c : Inv w s -> b_get s i <> None -> n0 <= i -> i < u_next w -> (forall t, plain t c) ->
    bstep s c = Some (set_node s i n) ->
    exists s', Inv (uemit w c) s' /\ b_get s' i = Some n /\ b_kids s' i = b_kids s i /\ b_par s' i = b_par s i /\ b_reg s' i = b_reg s i /\
      (forall x, x <> i -> same s s' x).
  Proof.
    intros H G Hi Hn Lg St.
    assert (SS : forall x, x <> i -> same s (set_node s i n) x).
    { intros x Hx. unfold same, set_node, nupd. cbn. rewrite (proj2 (N.eqb_neq _ _) Hx). auto. }
    assert (Gi : b_get (set_node s i n) i = Some n).
    { unfold b_get, set_node, nupd in *. cbn. rewrite N.eqb_refl. destruct (b_reg s i); congruence. }
    eexists. split; [|split; [exact Gi|]; repeat split; try apply SS; auto].
    constructor; cbn; try apply H.
    - eapply tidy_snoc; [apply H|auto|exact St|lia|]. auto.
    - eapply DomMacroBuild.brep_snoc; eauto. apply H. apply plain_legal. auto.
    - intros x Hx. destruct (SS x) as (V1 & V2 & V3 & V4); [lia|]. destruct (i_abs _ _ H x) as (W1 & W2 & W3 & W4); [lia|].
      repeat split; auto; congruence.
    - intros P HP. destruct (i_site _ _ H P HP) as [N1 N2]. split; auto. intros x Hx. destruct (N2 x Hx) as [M1 M2]. split; auto.
      destruct (N.eq_dec x i) as [->|Ne]. rewrite Gi. discriminate. rewrite (same_get _ _ _ (SS x Ne)). auto.
  Qed.

  Definition before (ref : option N) (tl : list N) : Prop := match ref with None => tl = [] | Some r => exists t, tl = r :: t end.
  Lemma in_out l x y : In y (out_of l x) <-> In y l /\ y <> x.
  Proof. unfold out_of. rewrite filter_In, negb_true_iff, N.eqb_neq. tauto. Qed.
  Lemma out_none l x : ~ In x l -> out_of l x = l.
  Proof.
    unfold out_of. induction l as [|y l IH]; cbn; auto. intros H. destruct (N.eqb_spec y x) as [->|Ne]. exfalso; auto. cbn. rewrite IH; auto.
  Qed.
  Lemma out_app a b x : out_of (a ++ b) x = out_of a x ++ out_of b x.
  Proof. apply filter_app. Qed.
  Lemma out_nodup l x : NoDup l -> NoDup (out_of l x).
  Proof. apply NoDup_filter. Qed.

  (** A node is put somewhere: a new one, or one that is already below [P]. *)
  Lemma insert_ok w s P A B ref c : Inv w s -> mine P -> (exists n a, b_get s P = Some (BElement n a)) -> b_get s c <> None -> n0 <= c -> P < c -> c < u_next w ->
    b_par s c = None \/ b_par s c = Some P -> out_of (b_kids s P) c = A ++ B -> before ref B ->
    exists s', Inv (uemit w (InsertBefore P c ref)) s' /\ b_kids s' P = A ++ c :: B /\
      b_par s' c = Some P /\ (b_node s' c = b_node s c /\ b_reg s' c = b_reg s c /\ b_kids s' c = b_kids s c) /\
      (b_node s' P = b_node s P /\ b_reg s' P = b_reg s P /\ b_par s' P = b_par s P) /\
      (forall x, x <> c -> x <> P -> same s s' x).
  Proof.
    intros H HP (pn & pa & GP) Gc Hc PC Hw Pr O Bf. destruct (b_get s c) as [cn|] eqn:Ec; [|congruence]. clear Gc.
    destruct (i_site _ _ H P HP) as [N1 N2].
    assert (Lg : ~ under s P c). { intros U. destruct (under_bound _ _ _ _ H HP U); lia. }
    assert (NC : ~ In c (A ++ B)) by (rewrite <- O, in_out; tauto).
    assert (NI : b_par s c = None -> b_kids s P = A ++ B).
    { intros E. rewrite <- O. symmetry. apply out_none. intros X. destruct (N2 c X). congruence. }
    assert (PP : P <> c) by lia.
    assert (Pl : forall f, f (A ++ B) = A ++ c :: B -> 
      (forall x, b_node (place s P c f) x = b_node s x) /\ (forall x, b_reg (place s P c f) x = b_reg s x) /\
      (forall x, b_kids (place s P c f) x = if x =? P then A ++ c :: B else b_kids s x) /\
      (forall x, b_par (place s P c f) x = if x =? c then Some P else b_par s x)).
    { intros f F. unfold place, detach. destruct Pr as [Pr|Pr]; rewrite Pr; cbn; unfold nupd; repeat split; intros x.
      - destruct (x =? P); auto. rewrite (NI Pr), F. reflexivity.
      - destruct (N.eqb_spec x P); auto. rewrite N.eqb_refl, O, F. reflexivity.
      - destruct (x =? c); auto. }
    assert (St : exists f, f (A ++ B) = A ++ c :: B /\ bstep s (InsertBefore P c ref) = Some (place s P c f)).
    { cbn [b_step]. unfold b_insert. rewrite GP, Ec. destruct ref as [r|]; cbn in Bf.
      - destruct Bf as [t ->]. assert (Ir : In r (out_of (b_kids s P) c)) by (rewrite O; apply in_or_app; right; left; reflexivity).
        apply in_out in Ir. destruct Ir as [Ir Nr]. destruct (N2 r Ir) as [R1 R2]. destruct (b_get s r); [|congruence]. rewrite R1, N.eqb_refl.
        rewrite (proj2 (N.eqb_neq _ _) Nr). eexists. split; [|reflexivity]. apply DomMacroBuild.put_before_split.
        assert (ND : NoDup (A ++ r :: t)) by (rewrite <- O; apply out_nodup; auto).
        apply NoDup_remove_2 in ND. intros X. apply ND, in_or_app. auto.
      - subst B. exists (fun l => l ++ [c]). split; auto. rewrite app_nil_r. reflexivity. }
    destruct St as (f & F & St). destruct (Pl f F) as (F1 & F2 & F3 & F4). clear Pl.
    exists (place s P c f).
    assert (SS : forall x, x <> c -> x <> P -> same s (place s P c f) x).
    { intros x X1 X2. unfold same. rewrite F1, F2, F3, F4. rewrite (proj2 (N.eqb_neq _ _) X1), (proj2 (N.eqb_neq _ _) X2). auto. }
    assert (GG : forall x, b_get (place s P c f) x = b_get s x).
    { intros x. unfold b_get. rewrite F1, F2. reflexivity. }
    split; [|split; [|split; [|split; [|split; [|exact SS]]]]]; try (repeat split; auto; fail).
    - constructor; cbn [u_next u_q uemit].
      + eapply tidy_snoc; [apply H|right; right; exists P, c, ref; auto|exact St|lia|]. intros x _ Rx. rewrite F2. auto.
      + eapply DomMacroBuild.brep_snoc; eauto. apply H. 
      + intros x Hx. destruct (SS x) as (V1 & V2 & V3 & V4); [lia|lia|]. destruct (i_abs _ _ H x) as (W1 & W2 & W3 & W4); [lia|].
        repeat split; congruence.
      + apply H.
      + intros x y. rewrite F4. destruct (N.eqb_spec x c) as [->|Ne].
        * intros E. injection E as <-. split; intros; lia.
        * apply (i_par _ _ H).
      + intros Q HQ. rewrite F3. destruct (N.eqb_spec Q P) as [->|Ne].
        * split.
          { assert (ND : NoDup (A ++ B)) by (rewrite <- O; apply out_nodup; auto). apply (Permutation_NoDup (Permutation_middle A B c)). constructor; auto. }
          intros x Hx. rewrite GG, F4. apply (Permutation_in _ (Permutation_sym (Permutation_middle A B c))) in Hx. destruct Hx as [<-|Hx].
          { rewrite N.eqb_refl, Ec. split; congruence. }
          destruct (N.eqb_spec x c) as [->|Nx]; [contradiction|]. apply N2. rewrite <- O in Hx. apply in_out in Hx. tauto.
        * destruct (i_site _ _ H Q HQ) as [M1 M2]. split; auto. intros x Hx. rewrite GG, F4. destruct (M2 x Hx) as [K1 K2].
          destruct (N.eqb_spec x c) as [->|Nx]; auto. destruct Pr; congruence.
    - rewrite F3, N.eqb_refl. auto.
    - rewrite F4, N.eqb_refl. auto.
    - repeat split; auto. rewrite F3. destruct (N.eqb_spec c P); congruence.
    - repeat split; auto. rewrite F4. destruct (N.eqb_spec P c); congruence.
  Qed.

  (** A node is removed. *)
  Lemma remove_ok w s P c cmd : Inv w s -> n0 <= c -> b_get s c <> None -> b_par s c = Some P -> c < u_next w ->
    removes cmd c ->
    exists s', Inv (uemit w cmd) s' /\ b_kids s' P = out_of (b_kids s P) c /\ b_reg s' c = false /\ b_kids s' c = b_kids s c /\
      (b_node s' P = b_node s P /\ b_reg s' P = b_reg s P /\ b_par s' P = b_par s P) /\
      (forall x, x <> c -> x <> P -> same s s' x).
  Proof.
    intros H Hc G Pr Hw Cm. destruct (i_par _ _ H _ _ Pr) as [PC _]. specialize (PC Hc).
    pose proof (fun t => removes_step beq DomMacroBuild.hook_name DomMacroBuild.perm t cmd c Cm) as St.
    assert (E : exists s', bstep s cmd = Some s' /\ (forall x, b_node s' x = b_node s x) /\ (forall x, b_reg s' x = if x =? c then false else b_reg s x) /\
      (forall x, b_kids s' x = if x =? P then out_of (b_kids s P) c else b_kids s x) /\ (forall x, b_par s' x = if x =? c then None else b_par s x)).
    { rewrite St. unfold b_remove. destruct (b_get s c); [|congruence]. rewrite perm_no; auto. unfold detach. cbn. rewrite Pr. eexists. split; [reflexivity|].
      cbn. unfold nupd. auto. }
    destruct E as (s' & E & F1 & F2 & F3 & F4). exists s'.
    assert (SS : forall x, x <> c -> x <> P -> same s s' x).
    { intros x X1 X2. unfold same. rewrite F1, F2, F3, F4. rewrite (proj2 (N.eqb_neq _ _) X1), (proj2 (N.eqb_neq _ _) X2). auto. }
    assert (GG : forall x, x <> c -> b_get s' x = b_get s x).
    { intros x X. unfold b_get. rewrite F1, F2. rewrite (proj2 (N.eqb_neq _ _) X). reflexivity. }
    split; [|split; [|split; [|split; [|split; [|exact SS]]]]]; try (repeat split; auto; fail).
    - constructor; cbn [u_next u_q uemit].
      + eapply tidy_snoc; [apply H| |exact E|lia|].
        * right. left. exists c. split; [auto|]. split; [auto|]. split; [auto|]. rewrite F2, N.eqb_refl. auto.
        * intros x _ Rx. rewrite F2. destruct (x =? c); auto.
      + eapply DomMacroBuild.brep_snoc; eauto. apply H. destruct Cm as [->|[->| ->]]; exact Logic.I.
      + intros x Hx. destruct (SS x) as (V1 & V2 & V3 & V4); [lia|lia|]. destruct (i_abs _ _ H x) as (W1 & W2 & W3 & W4); [lia|].
        repeat split; congruence.
      + apply H.
      + intros x y. rewrite F4. destruct (x =? c); [discriminate|]. apply (i_par _ _ H).
      + intros Q HQ. rewrite F3. destruct (i_site _ _ H Q HQ) as [M1 M2]. destruct (N.eqb_spec Q P) as [->|Ne].
        * split. apply out_nodup; auto. intros x Hx. apply in_out in Hx. destruct Hx as [Hx Nx]. rewrite GG, F4; auto. rewrite (proj2 (N.eqb_neq _ _) Nx). auto.
        * split; auto. intros x Hx. destruct (M2 x Hx) as [K1 K2]. rewrite F4. destruct (N.eqb_spec x c) as [->|Nx]. congruence. rewrite GG; auto.
    - rewrite F3, N.eqb_refl. auto.
    - rewrite F2, N.eqb_refl. auto.
    - rewrite F3. destruct (N.eqb_spec c P); auto. lia.
    - rewrite F2, F4. destruct (N.eqb_spec P c); auto. lia.
  Qed.

  (** *** The same as steps *)
  Lemma inr_none a x : ~ inr a a x.
  Proof. intros [X Y]. lia. Qed.
  Lemma insert_done w s P A B ref c : Inv w s -> mine P -> (exists n a, b_get s P = Some (BElement n a)) -> b_get s c <> None -> n0 <= c -> P < c -> c < u_next w ->
    b_par s c = None -> b_kids s P = A ++ B -> before ref B ->
    exists s', done w s P (fun x => x = c) (uemit w (InsertBefore P c ref)) s' [c] /\ b_kids s' P = A ++ c :: B /\
      b_par s' c = Some P /\ b_get s' c = b_get s c /\ b_kids s' c = b_kids s c.
  Proof.
    intros H HP G Gc Hc PC Hw Pr O Bf.
    assert (NI : ~ In c (b_kids s P)). { intros X. destruct (i_site _ _ H P HP) as [_ N2]. destruct (N2 c X). congruence. }
    destruct (insert_ok w s P A B ref c) as (s' & I1 & K1 & P1 & (C1 & C2 & C3) & PP & SS); auto.
    { rewrite out_none; auto. }
    exists s'. split; [|repeat split; auto].
    2:{ unfold b_get. rewrite C1, C2. auto. }
    constructor; auto; cbn [u_next uemit]; try lia.
    - repeat constructor. intros [].
    - intros x [<-|[]]; auto.
    - intros x [->|X]; cbn; auto. exfalso. eapply inr_none; eauto.
  Qed.
  Lemma move_done w s P A B ref c : Inv w s -> mine P -> (exists n a, b_get s P = Some (BElement n a)) -> b_get s c <> None -> n0 <= c -> P < c -> c < u_next w ->
    b_par s c = Some P -> out_of (b_kids s P) c = A ++ B -> before ref B ->
    exists s', done w s P (fun _ => False) (uemit w (InsertBefore P c ref)) s' [] /\ b_kids s' P = A ++ c :: B.
  Proof.
    intros H HP G Gc Hc PC Hw Pr O Bf.
    destruct (insert_ok w s P A B ref c) as (s' & I1 & K1 & P1 & (C1 & C2 & C3) & PP & SS); auto.
    exists s'. split; auto. constructor; auto; cbn [u_next uemit]; try lia.
    - constructor.
    - intros x _ N1 _. destruct (N.eq_dec x c) as [->|Ne]; auto. repeat split; auto. congruence.
    - intros x [[]|X]. exfalso. eapply inr_none; eauto.
  Qed.
  Lemma remove_done w s P c cmd : Inv w s -> n0 <= c -> b_get s c <> None -> b_par s c = Some P -> c < u_next w ->
    removes cmd c ->
    exists s', done w s P (fun x => x = c) (uemit w cmd) s' [] /\ b_kids s' P = out_of (b_kids s P) c /\ b_reg s' c = false /\ b_kids s' c = b_kids s c.
  Proof.
    intros H Hc G Pr Hw Cm. destruct (i_par _ _ H _ _ Pr) as [PC _]. specialize (PC Hc).
    destruct (remove_ok w s P c cmd) as (s' & I1 & K1 & R1 & KC & PP & SS); auto.
    exists s'. split; auto. constructor; auto; cbn [u_next uemit]; try lia.
    - constructor.
    - intros x [].
    - intros x [->|X]; [congruence|]. exfalso. eapply inr_none; eauto.
  Qed.
  Lemma update_done w s P i n c : Inv w s -> b_get s i <> None -> n0 <= i -> i < u_next w -> P <> i -> P < u_next w -> (forall t, plain t c) ->
    bstep s c = Some (set_node s i n) ->
    exists s', done w s P (fun x => x = i) (uemit w c) s' [i] /\ b_get s' i = Some n /\ b_kids s' i = b_kids s i /\ b_par s' i = b_par s i /\
      same s s' P.
  Proof.
    intros H G Hi Hn PI HP Lg St. destruct (update_ok w s i n c) as (s' & I1 & G1 & K1 & P1 & R1 & SS); auto.
    exists s'. split; [|repeat split; auto; apply SS; auto]. constructor; auto; cbn [u_next uemit]; try lia.
    - repeat constructor. intros [].
    - intros x [<-|[]]; auto.
    - destruct (SS P PI) as (X1 & X2 & X3 & X4). auto.
    - intros x [->|X]; cbn; auto. exfalso. eapply inr_none; eauto.
  Qed.
  (** The node above what was done is itself gone. *)
  Lemma done_up_gone w s P i D w' s' X : done w s i D w' s' X -> ~ D P -> P <> i -> P < u_next w -> b_reg s i = false ->
    done w s P (fun x => D x \/ x = i) w' s' X /\ same s s' P.
  Proof.
    intros [A1 A2 [A3 A3'] A0 A4 A5 A6 A7 A8 A9] NP Ni LP Rg. pose proof (A7 P NP Ni LP) as SP. split; auto. constructor; auto.
    - split; auto. intros [H|H]; auto.
    - intros x. destruct (A0 x); auto. destruct (N.eq_dec x i); tauto.
    - intros x [H| ->]; auto.
    - intros x H. destruct (A6 x H); auto.
    - destruct SP as (U1 & U2 & U3 & U4). auto.
    - intros x [[H| ->]|H] Rx; auto. destruct A8 as (_ & Y & _). congruence.
  Qed.

  (** *** Lists of ids *)
  Definition outs (l X : list N) : list N := filter (fun y => negb (existsb (N.eqb y) X)) l.
  Lemma existsb_in y X : existsb (N.eqb y) X = true <-> In y X.
  Proof. rewrite existsb_exists. split. intros (x & H & E). apply N.eqb_eq in E. subst. auto. intros H. exists y. split; auto. apply N.eqb_refl. Qed.
  Lemma outs_ext l X Y : (forall x, In x X <-> In x Y) -> outs l X = outs l Y.
  Proof.
    intros H. apply filter_ext. intros y. f_equal. destruct (existsb (N.eqb y) X) eqn:E1, (existsb (N.eqb y) Y) eqn:E2; auto.
    - apply existsb_in, H, existsb_in in E1. congruence.
    - apply existsb_in, H, existsb_in in E2. congruence.
  Qed.
  Lemma outs_app l X Y : outs l (X ++ Y) = outs (outs l X) Y.
  Proof.
    unfold outs. induction l as [|y l IH]; cbn; auto. rewrite existsb_app. destruct (existsb (N.eqb y) X) eqn:E1; cbn; auto.
    rewrite IH. reflexivity.
  Qed.
  Lemma outs_one l x : outs l [x] = out_of l x.
  Proof. apply filter_ext. intros y. cbn. rewrite orb_false_r. reflexivity. Qed.
  Lemma outs_nil l : outs l [] = l.
  Proof. unfold outs. cbn. induction l; cbn; congruence. Qed.
  Lemma outs_mid A X B : NoDup (A ++ X ++ B) -> outs (A ++ X ++ B) X = A ++ B.
  Proof.
    intros ND. unfold outs. rewrite !filter_app.
    assert (F : forall l, (forall x, In x l -> ~ In x X) -> filter (fun y => negb (existsb (N.eqb y) X)) l = l).
    { induction l as [|y l IH]; cbn; auto. intros H. destruct (existsb (N.eqb y) X) eqn:E; cbn. apply existsb_in in E. exfalso. eapply H; eauto. rewrite IH; auto. }
    rewrite (F A), (F B).
    - replace (filter _ X) with (@nil N); auto. symmetry. clear.
      assert (G : forall l, incl l X -> filter (fun y => negb (existsb (N.eqb y) X)) l = []).
      { induction l as [|y l IH]; cbn; auto. intros H. rewrite (proj2 (existsb_in y X)); cbn. apply IH. intros z Z. apply H. right; auto. apply H. left; auto. }
      apply G. intros x. auto.
    - intros x H1 H2. clear F. induction A as [|a A IH]; cbn in *.
      + clear -ND H1 H2. induction X as [|y X IH]; cbn in *; [tauto|]. inversion ND; subst. destruct H2 as [->|H2]. apply H3, in_or_app. auto. auto.
      + inversion ND; subst. auto.
    - intros x H1 H2. clear F. induction A as [|a A IH]; cbn in *; [tauto|]. inversion ND; subst. destruct H1 as [->|H1]; auto.
      apply H3, in_or_app. right. apply in_or_app. auto.
  Qed.

  (** Ids that belong to the application, apart from [P]. *)
  Definition own (w : uw) (P : N) (X : list N) : Prop := NoDup X /\ (forall x, In x X -> n0 <= x /\ x < u_next w /\ x <> P) /\ P < u_next w.
  Lemma NoDup_app_inv {A} (X Y : list A) : NoDup (X ++ Y) -> NoDup X /\ NoDup Y /\ (forall x, In x X -> ~ In x Y).
  Proof.
    induction X as [|a X IH]; cbn; intros H. repeat split; auto. constructor. inversion H; subst. destruct (IH H3) as (U1 & U2 & U3).
    split; [|split; auto].
    - constructor; auto. intros Z. apply H2, in_or_app. auto.
    - intros x [<-|Z]; auto. intros Q. apply H2, in_or_app. auto.
  Qed.
  Lemma NoDup_app_intro {A} (X Y : list A) : NoDup X -> NoDup Y -> (forall x, In x X -> ~ In x Y) -> NoDup (X ++ Y).
  Proof.
    induction X as [|a X IH]; cbn; intros H1 H2 H3; auto. inversion H1; subst. constructor.
    - rewrite in_app_iff. intros [Z|Z]; auto. eapply H3; eauto.
    - apply IH; auto.
  Qed.
  Lemma own_app w P X Y : own w P (X ++ Y) <-> own w P X /\ own w P Y /\ (forall x, In x X -> ~ In x Y).
  Proof.
    split.
    - intros (A & B & C). apply NoDup_app_inv in A. destruct A as (A1 & A2 & A3).
      assert (forall x, In x X -> n0 <= x /\ x < u_next w /\ x <> P) by (intros; apply B, in_or_app; auto).
      assert (forall x, In x Y -> n0 <= x /\ x < u_next w /\ x <> P) by (intros; apply B, in_or_app; auto). unfold own; auto 8.
    - intros ((A1 & A2 & A3) & (B1 & B2 & B3) & D). split; [|split; auto].
      + apply NoDup_app_intro; auto.
      + intros x Hx. apply in_app_or in Hx. destruct Hx; auto.
  Qed.
  Lemma own_perm w P X Y : Permutation X Y -> own w P X -> own w P Y.
  Proof.
    intros H (A & B & C). split; [|split; auto]. eapply Permutation_NoDup; eauto.
    intros x Hx. apply B. eapply Permutation_in; [apply Permutation_sym|]; eauto.
  Qed.
  Lemma own_le w w' P X : own w P X -> u_next w <= u_next w' -> own w' P X.
  Proof. intros (A & B & C) H. split; [|split; auto]; auto; try lia. intros x Hx. destruct (B x Hx) as (B1 & B2 & B3). repeat split; auto. lia. Qed.
  Lemma own_done w s P D w' s' X : done w s P D w' s' X -> n0 <= u_next w -> (forall x, D x -> n0 <= x) -> own w' P X.
  Proof.
    intros T N0 H. destruct (o_out _ _ _ _ _ _ _ T) as [O1 O2]. pose proof (o_le _ _ _ _ _ _ _ T). split; [|split].
    - apply (o_nodup _ _ _ _ _ _ _ T).
    - intros x Hx. pose proof (i_next _ _ (o_inv _ _ _ _ _ _ _ T)). destruct (o_own _ _ _ _ _ _ _ T x Hx) as [Y|[Y1 Y2]].
      + pose proof (o_dom _ _ _ _ _ _ _ T x Y). repeat split; auto. lia. intros ->. auto.
      + repeat split; try lia. 
    - lia.
  Qed.

  (** Some of the nodes are gone afterwards. *)
  Lemma done_minus w s P D w1 s1 Xa X Z w2 s2 : done w s P D w1 s1 Xa -> Permutation Xa (X ++ Z) -> done w1 s1 P (fun x => In x Z) w2 s2 [] ->
    done w s P D w2 s2 X /\ (forall x, In x X -> same s1 s2 x).
  Proof.
    intros [A1 A2 A3 A0 A4 A5 A6 A7 A8 A9] Pm [B1 B2 B3 B0 B4 B5 B6 B7 B8 B9].
    pose proof (Permutation_NoDup Pm A5) as ND. destruct (NoDup_app_inv _ _ ND) as (N1 & N2 & N3).
    assert (IX : forall x, In x X -> In x Xa). { intros x H. eapply Permutation_in; [apply Permutation_sym; eauto|]. apply in_or_app; auto. }
    assert (IZ : forall x, In x Z -> In x Xa). { intros x H. eapply Permutation_in; [apply Permutation_sym; eauto|]. apply in_or_app; auto. }
    assert (LX : forall x, In x Xa -> x <> P /\ x < u_next w1).
    { intros x H. destruct (A6 x H) as [Y|[Y1 Y2]]; split; auto; try lia. 2: specialize (A4 x Y); lia. intros ->. tauto. }
    assert (SX : forall x, In x X -> same s1 s2 x).
    { intros x H. destruct (LX x (IX x H)). apply B7; auto. }
    split; auto. constructor; auto; try lia.
    - intros x H. destruct (A6 x (IX x H)) as [Y|[Y1 Y2]]; auto. right. split; lia.
    - intros x H1 H2 H3. eapply same_trans; [apply A7; auto|]. apply B7; auto; try lia. intros Y. destruct (A6 x (IZ x Y)) as [Q|[Q1 Q2]]; auto. lia.
    - destruct A8 as (U1 & U2 & U3), B8 as (V1 & V2 & V3). repeat split; congruence.
    - intros x H Rx. destruct (in_dec N.eq_dec x Z) as [Y|Y]; [destruct (B9 x (or_introl Y) Rx)|].
      destruct (N.ltb_spec x (u_next w1)) as [C|C].
      + assert (XP : x <> P). { intros ->. destruct H as [H|[H1 H2]]. tauto. lia. }
        destruct (B7 x Y XP C) as (_ & S2 & _). assert (In x Xa) as Ia. { apply A9. destruct H as [H|[H1 H2]]; auto. right. split; auto. congruence. }
        apply (Permutation_in _ Pm) in Ia. apply in_app_or in Ia. tauto.
      + destruct (B9 x); auto. right. split; auto. destruct H as [H|[_ H]]; auto. specialize (A4 x H). lia.
  Qed.
  (** The nodes spoken of may be more. *)
  Lemma done_more w s P D w' s' X (D' : N -> Prop) : done w s P D w' s' X -> (forall x, D x -> D' x) -> (forall x, D' x \/ ~ D' x) -> ~ D' P ->
    (forall x, D' x -> x < u_next w /\ (~ D x -> b_reg s' x = true -> In x X)) -> done w s P D' w' s' X.
  Proof.
    intros [A1 A2 A3 A0 A4 A5 A6 A7 A8 A9] H1 H2 H3 H4. constructor; auto.
    - tauto.
    - intros x H. apply H4; auto.
    - intros x H. destruct (A6 x H); auto.
    - intros x [H|H] Rx; auto. destruct (A0 x). apply A9; auto. destruct (H4 x H). auto.
  Qed.
End Steps.
Arguments i_run {s0 R n0 w s}.
Arguments i_abs {s0 R n0 w s}.
Arguments i_next {s0 R n0 w s}.
Arguments i_tidy {s0 R n0 w s}.
Arguments i_par {s0 R n0 w s}.
Arguments i_site {s0 R n0 w s}.
Arguments o_inv {s0 R n0 w s P D w' s' X}.
Arguments o_le {s0 R n0 w s P D w' s' X}.
Arguments o_out {s0 R n0 w s P D w' s' X}.
Arguments o_dec {s0 R n0 w s P D w' s' X}.
Arguments o_dom {s0 R n0 w s P D w' s' X}.
Arguments o_nodup {s0 R n0 w s P D w' s' X}.
Arguments o_own {s0 R n0 w s P D w' s' X}.
Arguments o_same {s0 R n0 w s P D w' s' X}.
Arguments o_P {s0 R n0 w s P D w' s' X}.
Arguments o_gone {s0 R n0 w s P D w' s' X}.
Arguments done_seq {s0 R n0} n0_ok R_ok {w s P D1 w1 s1 X1 D2 w2 s2 X2} D.
Arguments done_set {s0 R n0 w s P D w' s' X X' D'}.
Arguments done_up {s0 R n0} n0_ok R_ok {w s} P {i D w' s' X}.
Arguments done_up_gone {s0 R n0 w s} P {i D w' s' X}.
Arguments done_keep {s0 R n0 w s P D w' s' X} Y.
Arguments own_done {s0 R n0} n0_ok R_ok {w s P D w' s' X}.
Arguments done_minus {s0 R n0} n0_ok R_ok {w s P D w1 s1 Xa} X Z {w2 s2}.
Arguments done_more {s0 R n0 w s P D w' s' X} D'.
