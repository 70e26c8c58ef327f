(** Properties C20, C21 and C22 of the JSON traits. *)

From Coq Require Import List NArith ZArith Bool Lia.
From Verif Require Import CodecModel CodecSpec CodecProofs FloatModel JsonModel JsonSpec JsonProofs JsonErr.
Import ListNotations.
Local Open Scope nat_scope.

(** ** Decoding ends *)

Section Fuel.
  Variable env : N -> tydef.
  Hypothesis FT : finite_types env.
  Notation from_json := (from_json env).

  Definition ends (t : ty) (j : json) : Prop := exists f0, forall f ctx, f0 <= f -> from_json f t ctx j <> JFuel.

  (** A uniform bound for finitely many types and documents. *)
  Lemma ends_all (ts : list ty) (js : list json) : (forall t j, In t ts -> In j js -> ends t j) ->
    exists f0, forall t j f ctx, In t ts -> In j js -> f0 <= f -> from_json f t ctx j <> JFuel.
  Proof.
    intros H. induction ts as [|t ts IH]; [exists 0; simpl; contradiction|].
    destruct IH as (f1 & H1); [intros; apply H; simpl; auto|].
    assert (X : exists f2, forall j f ctx, In j js -> f2 <= f -> from_json f t ctx j <> JFuel).
    { clear H1. induction js as [|j js IH]; [exists 0; simpl; contradiction|].
      destruct IH as (f2 & H2); [intros; apply H; simpl in *; auto|].
      destruct (H t j) as (f3 & H3); simpl; auto.
      exists (f2 + f3). intros j' f ctx [<-|I] L; [apply H3; lia|apply H2; auto; lia]. }
    destruct X as (f2 & H2). exists (f1 + f2). intros t' j f ctx [<-|I] J L; [apply H2; auto; lia|apply H1; auto; lia].
  Qed.

  Lemma bind_nofuel {A B} (r : jres A) (k : A -> jres B) : r <> JFuel -> (forall a, k a <> JFuel) -> jbind r k <> JFuel.
  Proof. destruct r; simpl; auto; congruence. Qed.

  Lemma list_nofuel item l : (forall i x, In x l -> item i x <> JFuel) -> forall i, dec_list item i l <> JFuel.
  Proof.
    induction l; simpl; intros H i; [discriminate|]. apply bind_nofuel; auto. intros. apply bind_nofuel; [auto|discriminate].
  Qed.
  Lemma map_nofuel item m : (forall k x, In (k, x) m -> item k x <> JFuel) -> forall acc, dec_map item acc m <> JFuel.
  Proof.
    induction m as [|[k x] m IH]; simpl; intros H acc; [discriminate|]. apply bind_nofuel; auto.
  Qed.
  Lemma tuple_nofuel item ts : forall l, (forall t x, In t ts -> In x l -> item t x <> JFuel) -> dec_tuple item ts l <> JFuel.
  Proof.
    induction ts; simpl; intros l H; [discriminate|]. destruct l as [|x l]; [discriminate|].
    apply bind_nofuel; [apply H; simpl; auto|]. intros. apply bind_nofuel; [|discriminate]. apply IHts. intros; apply H; simpl; auto.
  Qed.
  Lemma struct_nofuel item fs : forall ctx j, (forall g c m k x, j = JObject m -> In g fs -> In (k, x) m -> item (f_ty g) c x <> JFuel) ->
    dec_struct item ctx fs j <> JFuel.
  Proof.
    induction fs as [|g fs IH]; simpl; intros ctx j H; [discriminate|].
    unfold get_property. destruct j; simpl;
      try (destruct (f_default g); simpl; [|discriminate]; apply bind_nofuel; [apply IH; discriminate|discriminate]).
    destruct (aget m (f_name g)) as [x|] eqn:E.
    - apply bind_nofuel.
      + pose proof (H g (ctx ++ [CField (f_name g)]) m (f_name g) x eq_refl (or_introl eq_refl) (aget_some _ _ _ E)).
        destruct (item _ _ _); try congruence. destruct (f_default g); discriminate.
      + intros. apply bind_nofuel; [|discriminate]. apply IH. intros g' c m' k y [= <-] I J. apply (H g' c m k); auto.
        unfold adel in J. apply filter_In in J. tauto.
    - destruct (f_default g); simpl; [|discriminate]. apply bind_nofuel; [|discriminate]. apply IH.
      intros g' c m' k x [= <-] I J. eapply H; eauto.
  Qed.

  Definition variant_types (v : variant) : list ty :=
    match v with VtUnit => [] | VtTuple ts => ts | VtNamed fs => map snd fs end.

  Lemma variants_nofuel item ctx vs m :
    (forall t c x, (exists e, In e vs /\ In t (variant_types (snd e))) ->
       (exists k, In (k, x) m) \/ (exists k k' l m', In (k, JList l) m /\ In x l \/ In (k, JObject m') m /\ In (k', x) m') -> item t c x <> JFuel) ->
    dec_variants item ctx vs m <> JFuel.
  Proof.
    induction vs as [|[name vt] vs IH]; simpl; intros H; [discriminate|].
    assert (IH' : dec_variants item ctx vs m <> JFuel).
    { apply IH. intros t c x (e & I & J) X. apply H; auto. exists e. simpl; auto. }
    destruct vt as [|ts|fs]; auto.
    - destruct (aget m name) as [x|] eqn:E; auto. apply aget_some in E.
      assert (MANY : match x with
             | JList l => if Nat.eqb (length l) (length ts)
                          then jbind (dec_tuple (fun t => item t ctx) ts l) (fun vs => JOk (WVar name vs))
                          else JErr (ctx ++ [CMsg])
             | _ => JErr (ctx ++ [CMsg])
             end <> JFuel).
      { destruct x; try discriminate. destruct (Nat.eqb _ _); [|discriminate]. apply bind_nofuel; [|discriminate].
        apply tuple_nofuel. intros t x I J. apply H; [exists (name, VtTuple ts); simpl; auto|]. right. exists name, name, l, []. auto. }
      destruct ts as [|t1 [|t2 ts]]; auto. apply bind_nofuel; [|discriminate]. apply H; [exists (name, VtTuple [t1]); simpl; auto|eauto].
    - destruct (aget m name) as [x|] eqn:E; auto. apply aget_some in E. apply bind_nofuel; [|discriminate].
      apply struct_nofuel. intros g c m' k y -> I J. apply H.
      + exists (name, VtNamed fs). simpl. split; auto. unfold plain_fields in I. apply in_map_iff in I.
        destruct I as (u & <- & I). simpl; apply in_map; auto.
      + right. exists name, k, [], m'. auto.
  Qed.

  Fixpoint jdepth (j : json) : nat :=
    match j with
    | JList l => S (fold_right (fun x n => Nat.max (jdepth x) n) 0 l)
    | JObject m => S (fold_right (fun e n => Nat.max (jdepth (snd e)) n) 0 m)
    | _ => 0
    end.
  Lemma jdepth_list l x : In x l -> jdepth x < jdepth (JList l).
  Proof. simpl. induction l; simpl; intros []; subst; [lia|]. apply IHl in H. lia. Qed.
  Lemma jdepth_map m k x : In (k, x) m -> jdepth x < jdepth (JObject m).
  Proof. simpl. induction m as [|[k' x'] m IH]; simpl; [contradiction|]; intros [E|H]; [inversion E; subst; lia|]. apply IH in H. lia. Qed.

  Lemma all_end : forall d j, jdepth j < d -> forall t, ends t j.
  Proof.
    destruct FT as (rank & R). induction d as [|d IHd]; [lia|]. intros j D.
    assert (SUBL : forall l, j = JList l -> forall ts, exists f0, forall t x f ctx, In t ts -> In x l -> f0 <= f -> from_json f t ctx x <> JFuel).
    { intros l -> ts. apply ends_all. intros t x _ I. apply IHd. apply jdepth_list in I. lia. }
    assert (SUBM : forall m, j = JObject m -> forall ts, exists f0, forall t k x f ctx, In t ts -> In (k, x) m -> f0 <= f -> from_json f t ctx x <> JFuel).
    { intros m -> ts. destruct (ends_all ts (map snd m)) as (f0 & H).
      - intros t x _ I. apply IHd. apply in_map_iff in I. destruct I as ([k y] & <- & I). apply jdepth_map in I. simpl. lia.
      - exists f0. intros t k x f ctx I J. apply H; auto. apply in_map_iff. exists (k, x). auto. }
    assert (MAIN : forall r t, (forall n, head t = Some n -> rank n < r) -> ends t j).
    { induction r as [|r IHr].
      - intros t. induction t; intros Hr; try (exists 1; intros [|f] ctx L; [lia|]; simpl; destruct j; discriminate);
          try (exfalso; specialize (Hr _ eq_refl); lia).
        + exists 1; intros [|f] ctx L; [lia|]; simpl. destruct j as [| | | | | |[|]]; discriminate.
        + destruct j as [| | | | |l|]; try (exists 1; intros [|f] ctx L; [lia|]; simpl; discriminate).
          destruct (SUBL l eq_refl [t]) as (f0 & H). exists (S f0). intros [|f] ctx L; [lia|]. simpl.
          apply bind_nofuel; [|discriminate]. apply list_nofuel. intros. apply H; simpl; auto. lia.
        + destruct IHt as (f0 & H); auto. exists (S f0). intros [|f] ctx L; [lia|]. simpl.
          destruct j; try discriminate; (apply bind_nofuel; [apply H; lia|discriminate]).
        + destruct j as [| | | | | |m]; try (exists 1; intros [|f] ctx L; [lia|]; simpl; discriminate).
          destruct (SUBM m eq_refl [t]) as (f0 & H). exists (S f0). intros [|f] ctx L; [lia|]. simpl.
          apply bind_nofuel; [|discriminate]. apply map_nofuel. intros. eapply H; simpl; eauto. lia.
      - intros t. induction t; intros Hr; try (exists 1; intros [|f] ctx L; [lia|]; simpl; destruct j; discriminate).
        + exists 1; intros [|f] ctx L; [lia|]; simpl. destruct j as [| | | | | |[|]]; discriminate.
        + apply IHr. discriminate.
        + destruct IHt as (f0 & H); auto. exists (S f0). intros [|f] ctx L; [lia|]. simpl.
          destruct j; try discriminate; (apply bind_nofuel; [apply H; lia|discriminate]).
        + apply IHr. discriminate.
        + specialize (Hr n eq_refl). destruct (env n) as [fs|ts|vs] eqn:E.
          * assert (OB : (exists m, j = JObject m) \/ forall m, j <> JObject m).
            { destruct j; try (right; intros ? ?; discriminate). eauto. }
            destruct OB as [(m & EQ)|OB].
            -- destruct (SUBM m EQ (map f_ty fs)) as (f0 & H). exists (S f0). intros [|f] ctx L; [lia|]. simpl. rewrite E.
               apply bind_nofuel; [|discriminate]. apply struct_nofuel. intros g c m' k x EQ' I J.
               assert (m' = m) by congruence. subst m'. eapply H; eauto using in_map. lia.
            -- exists 1. intros [|f] ctx L; [lia|]. simpl. rewrite E. apply bind_nofuel; [|discriminate].
               apply struct_nofuel. intros g c m k x EQ. destruct (OB _ EQ).
          * assert (MANY : exists f0, forall f ctx, f0 <= f -> match j with
               | JList l => if Nat.eqb (length l) (length ts)
                          then jbind (dec_tuple (fun t => from_json f t ctx) ts l) (fun vs => JOk (WRec vs))
                          else JErr (ctx ++ [CMsg])
               | _ => JErr (ctx ++ [CMsg])
               end <> JFuel).
            { destruct j as [| | | | |l|]; try (exists 0; discriminate). destruct (SUBL l eq_refl ts) as (f0 & H). exists f0.
              intros f ctx L. destruct (Nat.eqb _ _); [|discriminate]. apply bind_nofuel; [|discriminate].
              apply tuple_nofuel. intros. apply H; auto. }
            destruct MANY as (f0 & H).
            destruct ts as [|t1 [|t2 ts]].
            -- exists (S f0). intros [|f] ctx L; [lia|]. simpl. rewrite E. apply H. lia.
            -- clear f0 H. destruct (IHr t1) as (f0 & H).
               { intros n' Hn. specialize (R n t1 n' E Hn). lia. }
               exists (S f0). intros [|f] ctx L; [lia|]. simpl. rewrite E. apply bind_nofuel; [apply H; lia|discriminate].
            -- exists (S f0). intros [|f] ctx L; [lia|]. cbn [JsonModel.from_json]. rewrite E. apply H. lia.
          * destruct j as [| | |s| | |m]; try (exists 1; intros [|f] ctx L; [lia|]; simpl; rewrite E; discriminate).
            -- exists 1; intros [|f] ctx L; [lia|]; simpl; rewrite E. clear. induction vs as [|[nm []] vs IH]; simpl; try discriminate; auto.
               destruct (bytes_eqb s nm); [discriminate|auto].
            -- set (tys := flat_map (fun e => variant_types (snd e)) vs).
               set (subs := map snd m ++ flat_map (fun e => match snd e with JList l => l | JObject m' => map snd m' | _ => [] end) m).
               destruct (ends_all tys subs) as (f0 & H).
               { intros t x _ I. apply IHd. unfold subs in I. rewrite in_app_iff in I. destruct I as [I|I].
                 - apply in_map_iff in I. destruct I as ([k y] & <- & I). apply jdepth_map in I. simpl. lia.
                 - apply in_flat_map in I. destruct I as ([k y] & I & J). apply jdepth_map in I. simpl in J.
                   destruct y; simpl in J; try contradiction.
                   + apply jdepth_list in J. lia.
                   + apply in_map_iff in J. destruct J as ([k' z] & <- & J). apply jdepth_map in J. simpl. lia. }
               exists (S f0). intros [|f] ctx L; [lia|]. simpl. rewrite E. apply variants_nofuel.
               intros t c x (e & I & J) X. apply H; [|unfold subs; rewrite in_app_iff|lia].
               { unfold tys. apply in_flat_map. eauto. }
               destruct X as [(k & I')|(k & k' & l & m' & [[I' J']|[I' J']])].
               ++ left. apply in_map_iff. exists (k, x); auto.
               ++ right. apply in_flat_map. exists (k, JList l). auto.
               ++ right. apply in_flat_map. exists (k, JObject m'). split; auto. simpl. apply in_map_iff. exists (k', x). auto. }
    intros t. destruct (head t) as [n|] eqn:Hd.
    - apply (MAIN (S (rank n))). intros n' E. assert (n' = n) by congruence. subst. auto.
    - apply (MAIN 0). congruence.
  Qed.
End Fuel.

(** ** A wrong document is no document *)

Scheme wrong_mind := Induction for wrong Sort Prop
with wrong_items_mind := Induction for wrong_items Sort Prop
with wrong_fields_mind := Induction for wrong_fields Sort Prop.
Combined Scheme wrong_mutind from wrong_mind, wrong_items_mind, wrong_fields_mind.

Section Exclusive.
  Variable env : N -> tydef.
  Hypothesis EOK : env_ok env.
  Variable num : Z -> Z -> N -> Z -> Prop.
  Variable lax : bool.
  Notation reads := (reads env num lax).

  Lemma selects_fun vs m n1 v1 x1 n2 v2 x2 : selects vs m n1 v1 x1 -> selects vs m n2 v2 x2 -> n1 = n2 /\ v1 = v2 /\ x1 = x2.
  Proof.
    intros (p1 & q1 & E1 & U1 & G1 & B1) (p2 & q2 & E2 & U2 & G2 & B2). rewrite E1 in E2. clear E1.
    revert p2 E2 B2. induction p1 as [|e p1 IH]; intros [|e2 p2] E2 B2; simpl in E2.
    - inversion E2; subst. split; auto. split; auto. congruence.
    - inversion E2; subst. rewrite (B2 n1 v1) in G1; simpl; auto. discriminate.
    - inversion E2; subst. rewrite (B1 n2 v2) in G2; simpl; auto. discriminate.
    - inversion E2; subst. apply (IH ltac:(intros; eapply B1; simpl; eauto) p2); auto. intros; eapply B2; simpl; eauto.
  Qed.

  Lemma items_nth ts l vs : reads_items env num lax ts l vs -> length l = length ts /\
    forall i t x, nth_error ts i = Some t -> nth_error l i = Some x -> exists v, reads t x v.
  Proof.
    revert l vs. induction ts as [|t ts IH]; intros l vs H; inversion H; subst.
    - split; auto. intros [|i]; discriminate.
    - match goal with Q : reads_items _ _ _ ts _ _ |- _ => destruct (IH _ _ Q) as [L N] end. split; [simpl; auto|]. intros [|i] t' x; simpl; [intros [= <-] [= <-]; eauto|apply N].
  Qed.
  Lemma fields_nth ks : forall ts m vs, reads_fields env num lax ks ts m vs -> forall i k, nth_error ks i = Some k ->
    exists x, aget m k = Some x /\ forall t, nth_error ts i = Some t -> exists v, reads t x v.
  Proof.
    induction ks as [|k ks IH]; intros ts m vs H; inversion H; subst; intros [|i] k'; simpl; try discriminate.
    - intros [= <-]. exists x. split; auto. intros t' [= <-]. eauto.
    - match goal with Q : reads_fields _ _ _ ks _ _ _ |- _ => apply (IH _ _ _ Q) end.
  Qed.

  Lemma exclusive : 
    (forall t j q, wrong env t j q -> forall v, ~ reads t j v) /\
    (forall ts j q, wrong_items env ts j q -> forall l vs, j = JList l -> ~ reads_items env num lax ts l vs) /\
    (forall ks ts j q, wrong_fields env ks ts j q -> ks <> [] /\ forall m vs, j = JObject m -> ~ reads_fields env num lax ks ts m vs).
  Proof.
    apply wrong_mutind.
    - intros j H v R. inversion R; subst. eapply H; eauto.
    - intros t j I H v R. simpl in I. destruct I as [<-|[<-|[<-|[<-|[]]]]]; inversion R; subst; eapply H; eauto.
    - intros j A B v R. inversion R; subst; congruence.
    - intros j A v R. inversion R; subst; congruence.
    - intros t j H v R. inversion R; subst. eapply H; eauto.
    - intros t l i x q E W IH v R. inversion R as [| | | | | | | |? ? vs F| | | | | | | | | | | |]; subst. clear R W.
      revert i E. induction F; intros [|i] E; simpl in E; try discriminate; [inversion E; subst; eapply IH; eauto|eauto].
    - intros t j q NN W IH v R. inversion R; subst; [congruence|eapply IH; eauto].
    - intros t j H v R. inversion R; subst. eapply H; eauto.
    - intros t m k x q I W IH v R. inversion R as [| | | | | | | | | | |? ? w F| | | | | | | | |]; subst. clear R W.
      induction F as [|e u m w [_ X] F IHF]; [contradiction|]. destruct I as [->|I]; [simpl in X; eapply IH; eauto|auto].
    - intros n fs j q E W [NE IH] v R. inversion R; subst; try congruence.
      + assert (fs = []) by congruence. subst. apply NE. auto.
      + assert (fs0 = fs) by congruence. subst. eapply IH; eauto.
    - intros n t j q E W IH v R. inversion R; subst; try congruence.
      + assert (t0 = t) by congruence. subst. eapply IH; eauto.
      + assert (ts = [t]) by congruence. subst. simpl in *. congruence.
    - intros n ts j q E L W IH v R. inversion R; subst; try congruence.
      + assert (ts = [t]) by congruence. subst. simpl in *. congruence.
      + assert (ts0 = ts) by congruence. subst. eapply IH; eauto.
    - intros n vs j E A B v R. inversion R; subst; try congruence;
        match goal with H : env n = DEnum ?w |- _ => assert (w = vs) by congruence; subst w end.
      + eapply A; eauto.
      + eapply B; eauto.
      + eapply B; eauto.
      + eapply B; eauto.
      + eapply B; eauto.
    - intros n vs m name t x q E S W IH v R. inversion R; subst; try congruence;
        match goal with H : env n = DEnum ?w |- _ => assert (w = vs) by congruence; subst w end;
        match goal with H : selects vs m _ _ _ |- _ => destruct (selects_fun _ _ _ _ _ _ _ _ S H) as (X1 & X2 & X3) end;
        try discriminate; inversion X2; subst; auto.
      + eapply IH; eauto.
    - intros n vs m name ts x q E S L W IH v R. inversion R; subst; try congruence;
        match goal with H : env n = DEnum ?w |- _ => assert (w = vs) by congruence; subst w end;
        match goal with H : selects vs m _ _ _ |- _ => destruct (selects_fun _ _ _ _ _ _ _ _ S H) as (X1 & X2 & X3) end;
        try discriminate; inversion X2; subst; auto.
      + eapply IH; eauto.
    - intros n vs m name fs x q E S W [NE IH] v R. inversion R; subst; try congruence;
        match goal with H : env n = DEnum ?w |- _ => assert (w = vs) by congruence; subst w end;
        match goal with H : selects vs m _ _ _ |- _ => destruct (selects_fun _ _ _ _ _ _ _ _ S H) as (X1 & X2 & X3) end;
        try discriminate; inversion X2; subst; auto.
      + eapply IH; eauto.
    - intros ts j H l vs -> R. apply items_nth in R. destruct R as [R _]. eapply H; eauto.
    - intros ts l i t x q L E1 E2 W IH l' vs [= <-] R. apply items_nth in R. destruct R as [_ R].
      destruct (R _ _ _ E1 E2) as (v & X). eapply IH; eauto.
    - intros ks ts j NE H. split; auto. intros m vs -> _. eapply H; eauto.
    - intros ks ts m k I G. split; [intros ->; contradiction|]. intros m' vs [= <-] R.
      apply In_nth_error in I. destruct I as (i & I). destruct (fields_nth _ _ _ _ R _ _ I) as (x & A & _). congruence.
    - intros ks ts m i k t x q E1 E2 G W IH. split; [intros ->; destruct i; discriminate|]. intros m' vs [= <-] R.
      destruct (fields_nth _ _ _ _ R _ _ E1) as (x' & A & B). assert (x' = x) by congruence. subst.
      destruct (B _ E2) as (v & X). eapply IH; eauto.
  Qed.
End Exclusive.

(** ** A concrete set of types *)

(** [struct Point { x: i32, y: i32 }], [struct Id(u64)], [enum Shape { Empty, Circle(u32), Segment(Point, Point),
    Group { name: String, items: Vec<Shape> } }], [struct Doc { id: Id, title: Option<String>, shapes:
    HashMap<Shape> }], [struct Nothing {}]. *)
Definition demo (n : N) : tydef :=
  match n with
  | 0%N => DStruct [Field [120%N] TI32 None; Field [121%N] TI32 None]
  | 1%N => DTuple [TU64]
  | 2%N => DEnum [([69%N], VtUnit); ([67%N], VtTuple [TU32]); ([83%N], VtTuple [TName 0; TName 0]);
                  ([71%N], VtNamed [([110%N], TString); ([105%N], TVec (TName 2))])]
  | 3%N => DStruct [Field [105%N] (TName 1) None; Field [116%N] (TOption TString) None; Field [115%N] (TMap (TName 2)) None]
  | _ => DStruct []
  end.

Ltac nodup := repeat (constructor; [simpl; intuition discriminate|]); constructor.

Lemma demo_ok : env_ok demo.
Proof.
  intros n. destruct n as [|[[[]|[]|]|[[]|[]|]|]]; cbn; auto; try (nodup; fail).
  split; [nodup|]. intros name fs [E|[E|[E|[E|[]]]]]; inversion E; subst. nodup.
Qed.
Lemma demo_no_defaults : no_defaults demo.
Proof.
  intros n fs f. destruct n as [|[[[]|[]|]|[[]|[]|]|]]; cbn; intros E I; inversion E; subst; simpl in I; intuition (subst; auto).
Qed.
Lemma demo_finite : finite_types demo.
Proof.
  exists (fun _ => 0). intros n t n'. destruct n as [|[[[]|[]|]|[[]|[]|]|]]; cbn; intros E H; inversion E; subst; discriminate.
Qed.

Definition demo_point (x y : Z) : val := WRec [WInt x; WInt y].
Definition demo_doc : val :=
  WRec [WRec [WNat 9007199254740992]; WSome (WStr [72%N; 105%N]);
        WMap [([97%N], WVar [69%N] []);
              ([98%N], WVar [71%N] [WStr []; WVec [WVar [67%N] [WNat 4294967295]; WVar [83%N] [demo_point (-1) 2; demo_point 0 3]]])]].

(** ** C20 *)

Definition C20_statement : Prop := forall env v t, env_ok env -> has_ty env v t ->
  exists f0, forall f ctx, f0 <= f -> from_json env f t ctx (to_json env v t) = JOk v.

(** Proved: what is written can always be read; the value comes back iff no 64-bit integer in it exceeds
    the precision of an f64 and no [Some] in it holds a value written as null.  Missing for the full
    statement: those values (it is false for them). *)
Theorem C20_roundtrip_partial : forall env v t, env_ok env -> has_ty env v t ->
  exists v' f0, (forall f ctx, f0 <= f -> from_json env f t ctx (to_json env v t) = JOk v') /\
    (v' = v <-> lossless env v t).
Proof.
  intros env v t EOK T.
  destruct (rt_all env EOK v t (depth v) ltac:(auto) T) as (v' & A & B).
  exists v', (depth v). split; auto. intros f ctx L.
  destruct (rt_all env EOK v t f L T) as (v2 & A2 & B2). rewrite A2. f_equal.
  (* the decoded value does not depend on the fuel *)
  clear B B2. specialize (A ctx). specialize (A2 ctx).
  enough (M : forall f1 f2 t c j w1, f1 <= f2 -> from_json env f1 t c j = JOk w1 -> from_json env f2 t c j = JOk w1).
  { rewrite (M _ _ _ _ _ _ L A) in A2. congruence. }
  clear. assert (NF : forall f1 f2 t c j, f1 <= f2 -> from_json env f1 t c j <> JFuel -> from_json env f2 t c j = from_json env f1 t c j).
  2:{ intros. rewrite <- H0. apply NF; auto. congruence. }
  assert (BI : forall A B (r1 r2 : jres A) (k1 k2 : A -> jres B), (r1 <> JFuel -> r2 = r1) ->
     (forall a, r1 = JOk a -> k1 a <> JFuel -> k2 a = k1 a) -> jbind r1 k1 <> JFuel -> jbind r2 k2 = jbind r1 k1).
  { intros A B r1 r2 k1 k2 H1 H2 H. destruct r1; simpl in *; try rewrite H1 by discriminate; simpl; auto. congruence. }
  induction f1 as [|f1 IH]; intros f2 t c j L; [simpl; congruence|]. destruct f2 as [|f2]; [lia|].
  assert (IH' : forall t c j, from_json env f1 t c j <> JFuel -> from_json env f2 t c j = from_json env f1 t c j) by (intros; apply IH; [lia|auto]).
  assert (TU : forall ts l c, dec_tuple (fun t => from_json env f1 t c) ts l <> JFuel ->
     dec_tuple (fun t => from_json env f2 t c) ts l = dec_tuple (fun t => from_json env f1 t c) ts l).
  { induction ts as [|t0 ts IHt]; simpl; intros l c0 H; auto. destruct l; auto. }
  assert (ST : forall fs c j, dec_struct (from_json env f1) c fs j <> JFuel ->
     dec_struct (from_json env f2) c fs j = dec_struct (from_json env f1) c fs j).
  { induction fs as [|g fs IHs]; simpl; intros c0 j0 H; auto. revert H. unfold get_property. destruct j0; simpl;
      try (destruct (f_default g); simpl; auto; apply BI; auto).
    destruct (aget m (f_name g)) as [x|].
    - apply BI; [|intros v _; apply BI; auto]. intros H. rewrite IH'; auto. intros E. rewrite E in H. congruence.
    - destruct (f_default g); simpl; auto. }
  destruct t; simpl; auto.
  - destruct j; auto. apply BI; auto. generalize 0. induction l; simpl; auto.
  - destruct j; auto; apply BI; auto.
  - destruct j; auto. apply BI; auto. generalize (@nil (bytes * val)). induction m as [|[k x] m IHm]; simpl; auto.
  - destruct (env n) as [fs|ts|vs].
    + apply BI; auto.
    + destruct ts as [|t1 [|t2 ts]]; [|apply BI; auto|]; (destruct j; auto; destruct (Nat.eqb _ _); auto; apply BI; auto).
    + destruct j; auto. induction vs as [|[name vt] vs IHv]; simpl; auto. destruct vt as [|ts|fs]; auto.
      * destruct (aget m name) as [x|]; auto.
        destruct ts as [|t1 [|t2 ts]]; [|apply BI; auto|]; (destruct x; auto; destruct (Nat.eqb _ _); auto; apply BI; auto).
      * destruct (aget m name) as [x|]; auto.
Qed.

(** The main positive reading. *)
Corollary C20_lossless_partial : forall env v t, env_ok env -> has_ty env v t -> lossless env v t ->
  exists f0, forall f ctx, f0 <= f -> from_json env f t ctx (to_json env v t) = JOk v.
Proof.
  intros env v t EOK T L. destruct (C20_roundtrip_partial env v t EOK T) as (v' & f0 & A & B).
  apply B in L. subst. eauto.
Qed.

(** [Option<Option<bool>>]: [Some(None)] comes back as [None]. *)
Theorem C20_option_refuted : exists env v t, env_ok env /\ has_ty env v t /\
  forall f ctx, 1 <= f -> from_json env f t ctx (to_json env v t) = JOk WNone /\ v <> WNone.
Proof.
  exists demo, (WSome WNone), (TOption (TOption TBool)). split; [apply demo_ok|]. split; [simpl; auto|].
  intros [|f] ctx L; [lia|]. split; [reflexivity|discriminate].
Qed.

Theorem C20_statement_refuted : ~ C20_statement.
Proof.
  intros H. destruct (H demo (WSome WNone) (TOption (TOption TBool)) demo_ok ltac:(simpl; auto)) as (f0 & X).
  specialize (X (S f0) [] ltac:(lia)). discriminate.
Qed.

Lemma demo_doc_ty : has_ty demo demo_doc (TName 3).
Proof.
  unfold demo_doc, demo_point. rewrite has_ty_rec. cbn [demo ty_fields map f_ty].
  split; [rewrite has_ty_rec; cbn; split; [reflexivity|exact I]|]. split; [exact I|]. split; [|exact I].
  rewrite has_ty_map. split; [cbn; nodup|].
  constructor; [|constructor; [|constructor]]; cbn [snd]; rewrite has_ty_var; cbn [demo].
  - exists VtUnit. split; simpl; auto.
  - exists (VtNamed [([110%N], TString); ([105%N], TVec (TName 2))]). split; [simpl; auto 6|].
    cbn [map snd ty_fields]. split; [exact I|]. split; [|exact I]. rewrite has_ty_vec.
    constructor; [|constructor; [|constructor]]; rewrite has_ty_var; cbn [demo].
    + exists (VtTuple [TU32]). split; [simpl; auto|]. cbn. split; [reflexivity|exact I].
    + exists (VtTuple [TName 0; TName 0]). split; [simpl; auto|]. cbn. repeat split; discriminate.
Qed.

Example C20_example : has_ty demo demo_doc (TName 3) /\ lossless demo demo_doc (TName 3).
Proof.
  split; [apply demo_doc_ty|].
  destruct (C20_roundtrip_partial demo demo_doc (TName 3) demo_ok demo_doc_ty) as (v' & f0 & A & B).
  apply B. specialize (A (f0 + 10) [] ltac:(lia)).
  assert (X : from_json demo 10 (TName 3) [] (to_json demo demo_doc (TName 3)) = JOk demo_doc) by (vm_compute; reflexivity).
  destruct (rt_all demo demo_ok demo_doc (TName 3) 10 ltac:(vm_compute; lia) demo_doc_ty) as (v2 & A2 & B2).
  rewrite A2 in X. inversion X; subst. apply B. apply B2. auto.
Qed.

(** ** C21 *)

Theorem C21_32bit : forall env f ctx,
  (forall n, (n < 4294967296)%N -> from_json env (S f) TU32 ctx (to_json env (WNat n) TU32) = JOk (WNat n)) /\
  (forall z, (-2147483648 <= z <= 2147483647)%Z -> from_json env (S f) TI32 ctx (to_json env (WInt z) TI32) = JOk (WInt z)).
Proof.
  intros env f ctx. split; intros n H; simpl; [rewrite u32_roundtrip|rewrite i32_roundtrip]; auto.
Qed.

(** Exactly the 64-bit integers that survive: at most 53 significant bits, or the largest value of the type.
    Missing for the full statement: all other values (it is false for them). *)
Theorem C21_64bit_partial : forall env f ctx,
  (forall n, (n < 18446744073709551616)%N ->
     (from_json env (S f) TU64 ctx (to_json env (WNat n) TU64) = JOk (WNat n) <-> representable n \/ n = 18446744073709551615%N)) /\
  (forall z, (-9223372036854775808 <= z <= 9223372036854775807)%Z ->
     (from_json env (S f) TI64 ctx (to_json env (WInt z) TI64) = JOk (WInt z) <->
      representable (Z.to_N (Z.abs z)) \/ z = 9223372036854775807%Z)).
Proof.
  intros env f ctx. split.
  - intros n H. pose proof (u64_roundtrip n H) as R. change (p64 - 1)%N with 18446744073709551615%N in R. rewrite <- R.
    simpl. change (p64 - 1)%N with 18446744073709551615%N. split; [intros [= X]; auto|intros ->; auto].
  - intros z H. rewrite <- (i64_roundtrip z H). simpl. split; [intros [= X]; auto|intros ->; auto].
Qed.

Theorem C21_64bit_refuted : exists n, (n < 18446744073709551616)%N /\ forall env f ctx,
  from_json env (S f) TU64 ctx (to_json env (WNat n) TU64) = JOk (WNat (n - 1)%N) /\ (n - 1 <> n)%N.
Proof.
  exists 9007199254740993%N. split; [reflexivity|]. intros. split; [|discriminate]. reflexivity.
Qed.

Example C21_example : representable 18014398509481984 /\ ~ representable 9007199254740993.
Proof.
  split; [exists 1%N, 54%N; split; [vm_compute; congruence|reflexivity]|].
  intros R. pose proof (C21_64bit_partial demo 0 []) as [A _].
  assert (X : from_json demo 1 TU64 [] (to_json demo (WNat 9007199254740993) TU64) = JOk (WNat 9007199254740993)).
  { apply A; auto. reflexivity. }
  vm_compute in X. discriminate.
Qed.

(** ** C22 *)

(** The full statement: [Ok] only with exactly what the document says. *)
Definition C22_statement : Prop := forall env f t ctx j, env_ok env -> no_defaults env -> json_ok j ->
  match from_json env f t ctx j with
  | JOk v => reads env exactly false t j v
  | JErr p => exists q, p = ctx ++ q ++ [CMsg] /\ wrong env t j q
  | JPanic => False
  | JFuel => True
  end.

(** Proved: no panic; an error names the path to a place of the wrong shape; an [Ok] is what the document
    says, except that numbers are truncated and saturated ([roughly]), and that a struct without fields is
    read from any document ([true]).  Missing: those two cases (the full statement is false for them). *)
Theorem C22_decode_partial : forall env f t ctx j, env_ok env -> no_defaults env -> json_ok j ->
  match from_json env f t ctx j with
  | JOk v => reads env roughly true t j v
  | JErr p => exists q, p = ctx ++ q ++ [CMsg] /\ wrong env t j q
  | JPanic => False
  | JFuel => True
  end.
Proof. intros env f t ctx j A B C. exact (decode_ok env A B f t j C ctx). Qed.

(** Decoding always ends. *)
Theorem C22_ends : forall env t j, finite_types env ->
  exists f0, forall f ctx, f0 <= f -> from_json env f t ctx j <> JFuel.
Proof. intros env t j F. exact (all_end env F (S (jdepth j)) j ltac:(lia) t). Qed.

(** A document with a place of the wrong shape is not a document for any value, so it is never accepted. *)
Theorem C22_exclusive : forall env num lax t j q v, wrong env t j q -> ~ reads env num lax t j v.
Proof. intros env num lax t j q v W. eapply exclusive; eauto. Qed.

(** -1 and 3.7 are accepted as u32 (0 and 3), and anything as a struct without fields. *)
Theorem C22_statement_refuted : ~ C22_statement /\
  (forall f ctx, from_json demo (S f) TU32 ctx (JNumber 0xBFF0000000000000) = JOk (WNat 0)) /\
  (forall f ctx, from_json demo (S f) TU32 ctx (JNumber 0x400D99999999999A) = JOk (WNat 3)) /\
  (forall f ctx j, from_json demo (S f) (TName 7) ctx j = JOk (WRec [])).
Proof.
  split; [|split; [|split]]; try (intros; reflexivity).
  intros H. specialize (H demo 1 TU32 [] (JNumber 0xBFF0000000000000) demo_ok demo_no_defaults ltac:(vm_compute; auto)).
  cbn in H. inversion H as [| |? ? E| | | | | | | | | | | | | | | | | |]; subst. unfold exactly in E. vm_compute in E. discriminate.
Qed.

(** A document with a mistake three levels down. *)
Example C22_example :
  env_ok demo /\ no_defaults demo /\ finite_types demo /\
  from_json demo 10 (TVec (TName 0)) [] (JList [JObject [([121%N], JNumber 0); ([120%N], JNumber 0)]; JObject [([120%N], JNumber 0); ([121%N], JTrue)]])
  = JErr [CIndex 1; CField [121%N]; CMsg] /\
  wrong demo (TVec (TName 0)) (JList [JObject [([121%N], JNumber 0); ([120%N], JNumber 0)]; JObject [([120%N], JNumber 0); ([121%N], JTrue)]])
    [CIndex 1; CField [121%N]].
Proof.
  split; [apply demo_ok|]. split; [apply demo_no_defaults|]. split; [apply demo_finite|]. split; [reflexivity|].
  eapply wr_item; [reflexivity|]. eapply wr_struct; [reflexivity|]. eapply wf_field with (i := 1); try reflexivity.
  apply wr_num; simpl; auto. discriminate.
Qed.
