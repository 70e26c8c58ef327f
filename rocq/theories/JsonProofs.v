(** Round trip of the JSON traits (properties C20, C21). *)

From Coq Require Import List NArith ZArith Bool Lia.
From Verif Require Import CodecModel CodecJsModel CodecSpec CodecProofs FloatModel JsonModel JsonSpec.
Import ListNotations.
Local Open Scope nat_scope.

(** ** Induction on values *)

Section ValInd.
  Variable P : val -> Prop.
  Hypothesis Hstr : forall s, P (WStr s).
  Hypothesis Hnat : forall n, P (WNat n).
  Hypothesis Hint : forall z, P (WInt z).
  Hypothesis Hbool : forall b, P (WBool b).
  Hypothesis Hunit : P WUnit.
  Hypothesis Hvec : forall l, Forall P l -> P (WVec l).
  Hypothesis Hnone : P WNone.
  Hypothesis Hsome : forall v, P v -> P (WSome v).
  Hypothesis Hmap : forall m, Forall (fun e => P (snd e)) m -> P (WMap m).
  Hypothesis Hrec : forall l, Forall P l -> P (WRec l).
  Hypothesis Hvar : forall n l, Forall P l -> P (WVar n l).
  Fixpoint val_ind2 (v : val) : P v :=
    let lst := fix lst (l : list val) : Forall P l :=
      match l with [] => Forall_nil _ | x :: r => Forall_cons _ (val_ind2 x) (lst r) end in
    match v with
    | WStr s => Hstr s | WNat n => Hnat n | WInt z => Hint z | WBool b => Hbool b | WUnit => Hunit
    | WVec l => Hvec l (lst l)
    | WNone => Hnone
    | WSome x => Hsome x (val_ind2 x)
    | WMap m => Hmap m ((fix lm m : Forall (fun e => P (snd e)) m :=
                           match m with [] => Forall_nil _ | e :: r => Forall_cons _ (val_ind2 (snd e)) (lm r) end) m)
    | WRec l => Hrec l (lst l)
    | WVar n l => Hvar n l (lst l)
    end.
End ValInd.

Fixpoint depth (v : val) : nat :=
  match v with
  | WVec l | WRec l | WVar _ l => S (fold_right (fun x n => Nat.max (depth x) n) 0 l)
  | WSome x => S (depth x)
  | WMap m => S (fold_right (fun e n => Nat.max (depth (snd e)) n) 0 m)
  | _ => 1
  end.

Lemma depth_in l x : In x l -> depth x <= fold_right (fun x n => Nat.max (depth x) n) 0 l.
Proof. induction l; simpl; intros []; subst; [lia|]. apply IHl in H. lia. Qed.
Lemma depth_in_map (m : list (bytes * val)) e : In e m -> depth (snd e) <= fold_right (fun e n => Nat.max (depth (snd e)) n) 0 m.
Proof. induction m; simpl; intros []; subst; [lia|]. apply IHm in H. lia. Qed.

(** ** Maps *)

Lemma bytes_eqb_same k : bytes_eqb k k = true.
Proof. destruct (bytes_eqb_spec k k); congruence. Qed.
Lemma bytes_eqb_diff a b : a <> b -> bytes_eqb a b = false.
Proof. intros. destruct (bytes_eqb_spec a b); congruence. Qed.

Lemma hash_from_acc {A} (l : list (bytes * A)) : forall acc,
  NoDup (map fst (acc ++ l)) -> fold_left (fun m e => assoc_insert (fst e) (snd e) m) l acc = acc ++ l.
Proof.
  induction l as [|[k v] l IH]; simpl; intros acc N; [rewrite app_nil_r; auto|].
  rewrite assoc_insert_fresh.
  - rewrite IH; rewrite <- app_assoc; auto.
  - rewrite map_app in N. simpl in N. apply NoDup_remove_2 in N. intros I. apply N. apply in_or_app; auto.
Qed.

Lemma hash_from_id {A} (l : list (bytes * A)) : NoDup (map fst l) -> hash_from l = l.
Proof. intros. unfold hash_from. rewrite hash_from_acc; auto. Qed.

Lemma aget_in {A} (m : list (bytes * A)) k v : NoDup (map fst m) -> In (k, v) m -> aget m k = Some v.
Proof.
  induction m as [|[k' v'] m IH]; simpl; intros N I; [contradiction|]. apply NoDup_cons_iff in N. destruct N as [N1 N2].
  destruct I as [E|I]; [inversion E; subst; rewrite bytes_eqb_same; auto|].
  rewrite bytes_eqb_diff; auto. intros ->. apply N1. apply in_map_iff. exists (k', v). auto.
Qed.

Lemma aget_some {A} (m : list (bytes * A)) k v : aget m k = Some v -> In (k, v) m.
Proof.
  induction m as [|[k' v'] m IH]; simpl; [discriminate|]. destruct (bytes_eqb_spec k k'); [intros [= <-]; subst; auto|auto].
Qed.

Lemma adel_notin {A} (m : list (bytes * A)) k : ~ In k (map fst m) -> adel m k = m.
Proof.
  unfold adel. induction m as [|[k' v'] m IH]; simpl; intros H; auto. rewrite bytes_eqb_diff by (intros ->; auto).
  simpl. f_equal. apply IH. auto.
Qed.

Section Proofs.
  Variable env : N -> tydef.
  Hypothesis EOK : env_ok env.
  Notation to_json := (to_json env).
  Notation from_json := (from_json env).
  Notation has_ty := (has_ty env).
  Notation lossless := (lossless env).
  Notation part := (part env).

  (** The nested recursions by name. *)
  Fixpoint enc_fields (l : list val) (ts : list ty) : list json :=
    match l, ts with v :: l', t :: ts' => to_json v t :: enc_fields l' ts' | _, _ => [] end.
  Fixpoint ty_fields (l : list val) (ts : list ty) : Prop :=
    match l, ts with [], [] => True | v :: l', t :: ts' => has_ty v t /\ ty_fields l' ts' | _, _ => False end.

  Lemma to_json_rec l n : to_json (WRec l) (TName n) =
    match env n with
    | DStruct fs => JObject (hash_from (combine (map f_name fs) (enc_fields l (map f_ty fs))))
    | DTuple ts => match l, ts with [x], [t'] => to_json x t' | _, _ => JList (enc_fields l ts) end
    | DEnum _ => JNull
    end.
  Proof. reflexivity. Qed.
  Lemma to_json_var name l n : to_json (WVar name l) (TName n) =
    match env n with
    | DEnum vs =>
        match aget vs name with
        | None => JNull
        | Some VtUnit => JString name
        | Some (VtTuple ts) =>
            JObject [(name, match l, ts with [x], [t'] => to_json x t' | _, _ => JList (enc_fields l ts) end)]
        | Some (VtNamed fs) =>
            JObject [(name, JObject (hash_from (combine (map fst fs) (enc_fields l (map snd fs)))))]
        end
    | _ => JNull
    end.
  Proof. reflexivity. Qed.
  Lemma has_ty_rec l n : has_ty (WRec l) (TName n) =
    match env n with DStruct fs => ty_fields l (map f_ty fs) | DTuple ts => ty_fields l ts | DEnum _ => False end.
  Proof. reflexivity. Qed.
  Lemma has_ty_var name l n : has_ty (WVar name l) (TName n) =
    match env n with
    | DEnum vs => exists vt, In (name, vt) vs /\
            match vt with VtUnit => l = [] | VtTuple ts => ty_fields l ts | VtNamed fs => ty_fields l (map snd fs) end
    | _ => False
    end.
  Proof. reflexivity. Qed.
  Lemma has_ty_vec l t : has_ty (WVec l) (TVec t) <-> Forall (fun x => has_ty x t) l.
  Proof.
    simpl. split.
    - induction l; intros; constructor; tauto.
    - induction 1; simpl; auto.
  Qed.
  Lemma has_ty_map m t : has_ty (WMap m) (TMap t) <-> NoDup (map fst m) /\ Forall (fun e => has_ty (snd e) t) m.
  Proof.
    simpl. split; intros [A B]; split; auto.
    - clear A. induction m; constructor; tauto.
    - clear A. induction B; simpl; auto.
  Qed.

  Lemma ty_fields_length l : forall ts, ty_fields l ts -> length l = length ts.
  Proof. induction l; destruct ts; simpl; try tauto. intros [_ H]. f_equal; auto. Qed.
  Lemma enc_fields_length l : forall ts, length l = length ts -> length (enc_fields l ts) = length ts.
  Proof. induction l; destruct ts; simpl; intros; auto; try discriminate. Qed.

  (** ** Losslessness by components *)

  Lemma lossless_iff v t : lossless v t <-> survives env v t /\ forall v' t', part v t v' t' -> lossless v' t'.
  Proof.
    split.
    - intros H. split; [apply H; constructor|]. intros v' t' P v2 t2 Q. apply H. econstructor; eauto.
    - intros [A B] v2 t2 Q. inversion Q; subst; auto. eapply B; eauto.
  Qed.

  (** Componentwise over fields. *)
  Definition ll_fields (l : list val) (ts : list ty) : Prop :=
    forall i x t, nth_error l i = Some x -> nth_error ts i = Some t -> lossless x t.

  Lemma ll_fields_cons x l t ts : ll_fields (x :: l) (t :: ts) <-> lossless x t /\ ll_fields l ts.
  Proof.
    split.
    - intros H. split; [apply (H 0); auto|]. intros i. apply (H (S i)).
    - intros [A B] [|i] y u; simpl; [intros [= <-] [= <-]; auto|apply B].
  Qed.

  (** ** Null *)

  Lemma null_enc v : forall t, has_ty v t -> (to_json v t = JNull <-> null_like env v t).
  Proof.
    induction v using val_ind2; intros t T; try (destruct t; simpl in T; try contradiction; simpl; (split; [intros Q; try discriminate Q|intros N; inversion N]); fail).
    - destruct t; simpl in T; try contradiction. simpl. split; [destruct b; discriminate|intros N; inversion N].
    - destruct t; simpl in T; try contradiction. simpl. split; [constructor|auto].
    - destruct t; simpl in T; try contradiction. simpl. rewrite IHv by auto. split; [constructor; auto|].
      intros N; inversion N; auto.
    - destruct t; try (simpl in T; contradiction). rewrite has_ty_rec in T. rewrite to_json_rec.
      destruct (env n) eqn:E; try contradiction.
      + split; [discriminate|]. intros N. inversion N; congruence.
      + destruct l as [|x [|y l]], ts as [|t1 [|t2 ts]]; simpl in T; try tauto;
          try (split; [discriminate|]; intros N; inversion N; congruence).
        destruct T as [T _]. inversion H; subst. rewrite (H2 t1) by auto. split; [econstructor; eauto|].
        intros N. inversion N. congruence.
    - destruct t; try (simpl in T; contradiction). rewrite has_ty_var in T. rewrite to_json_var.
      destruct (env n0) eqn:E; try contradiction. destruct T as (vt & I & T).
      assert (ND : NoDup (map fst vs)) by (specialize (EOK n0); rewrite E in EOK; tauto).
      rewrite (aget_in _ _ _ ND I). split; [destruct vt; discriminate|intros N; inversion N].
  Qed.

  (** ** Decoding what was encoded *)

  (** At type [t], [v] is encoded to something that decodes, and decodes to [v] iff it is lossless. *)
  Definition rt (f : nat) (v : val) (t : ty) : Prop :=
    exists v', (forall ctx, from_json f t ctx (to_json v t) = JOk v') /\ (v' = v <-> lossless v t).

  Lemma rt_tuple f l : forall ts, length l = length ts ->
    (forall i x t, nth_error l i = Some x -> nth_error ts i = Some t -> rt f x t) ->
    exists l', (forall ctx, dec_tuple (fun t => from_json f t ctx) ts (enc_fields l ts) = JOk l') /\
      (l' = l <-> ll_fields l ts).
  Proof.
    induction l as [|x l IH]; destruct ts as [|t ts]; simpl; intros L H; try discriminate.
    - exists []. split; auto. split; auto. intros _ i x t E. destruct i; discriminate.
    - destruct (H 0 x t eq_refl eq_refl) as (x' & A & B).
      destruct (IH ts) as (l' & A' & B'); [lia|intros i; apply (H (S i))|].
      exists (x' :: l'). split.
      + intros ctx. rewrite A. simpl. rewrite A'. auto.
      + rewrite ll_fields_cons, <- B, <- B'. split; [intros [= -> ->]; auto|intros [-> ->]; auto].
  Qed.

  Lemma combine_fst {A B} (ks : list A) : forall (js : list B), length js = length ks -> map fst (combine ks js) = ks.
  Proof. induction ks; destruct js; simpl; intros; try discriminate; f_equal; auto. Qed.

  Lemma rt_struct f l : forall fs, length l = length fs -> NoDup (map f_name fs) ->
    (forall i x g, nth_error l i = Some x -> nth_error fs i = Some g -> rt f x (f_ty g)) ->
    exists l', (forall ctx, dec_struct (from_json f) ctx fs (JObject (combine (map f_name fs) (enc_fields l (map f_ty fs)))) = JOk l') /\
      (l' = l <-> ll_fields l (map f_ty fs)).
  Proof.
    induction l as [|x l IH]; destruct fs as [|g fs]; simpl; intros L ND H; try discriminate.
    - exists []. split; auto. split; auto. intros _ i x t E. destruct i; discriminate.
    - apply NoDup_cons_iff in ND. destruct ND as [ND1 ND2].
      destruct (H 0 x g eq_refl eq_refl) as (x' & A & B).
      destruct (IH fs) as (l' & A' & B'); auto; [intros i; apply (H (S i))|].
      assert (LE : length (enc_fields l (map f_ty fs)) = length (map f_name fs)).
      { rewrite enc_fields_length; rewrite !map_length; auto. }
      exists (x' :: l'). split.
      + intros ctx. rewrite bytes_eqb_same, A. simpl.
        fold (adel (combine (map f_name fs) (enc_fields l (map f_ty fs))) (f_name g)).
        rewrite adel_notin by (rewrite combine_fst; auto).
        rewrite A'. auto.
      + rewrite ll_fields_cons, <- B, <- B'. split; [intros [= -> ->]; auto|intros [-> ->]; auto].
  Qed.

  Lemma rt_list f l t : (forall x, In x l -> rt f x t) ->
    exists l', (forall ctx i, dec_list (fun i => from_json f t (ctx ++ [CIndex i])) i (map (fun x => to_json x t) l) = JOk l') /\
      (l' = l <-> forall x, In x l -> lossless x t).
  Proof.
    induction l as [|x l IH]; simpl; intros H.
    - exists []. split; auto. tauto.
    - destruct (H x (or_introl eq_refl)) as (x' & A & B). destruct IH as (l' & A' & B'); auto.
      exists (x' :: l'). split.
      + intros ctx i. rewrite A. simpl. rewrite A'. auto.
      + split.
        * intros [= -> ->] y [<-|I]; [apply B; auto|]. apply B'; auto.
        * intros K. f_equal; [apply B|apply B']; auto.
  Qed.

  Lemma rt_map f m t : NoDup (map fst m) -> (forall e, In e m -> rt f (snd e) t) ->
    exists m', (forall ctx acc, (forall k, In k (map fst m) -> ~ In k (map fst acc)) ->
         dec_map (fun k => from_json f t (ctx ++ [CField k])) acc (map (fun e => (fst e, to_json (snd e) t)) m) = JOk (acc ++ m')) /\
      (m' = m <-> forall e, In e m -> lossless (snd e) t).
  Proof.
    induction m as [|[k x] m IH]; simpl; intros ND H.
    - exists []. split; [intros; rewrite app_nil_r; auto|tauto].
    - apply NoDup_cons_iff in ND. destruct ND as [ND1 ND2].
      destruct (H (k, x) (or_introl eq_refl)) as (x' & A & B). destruct IH as (m' & A' & B'); auto.
      exists ((k, x') :: m'). split.
      + intros ctx acc D. simpl in A. rewrite A. simpl. rewrite assoc_insert_fresh by (apply D; auto).
        rewrite A'; [rewrite <- app_assoc; auto|]. intros k' I. rewrite map_app, in_app_iff. simpl.
        intros [J|[->|[]]]; [eapply D; eauto|auto].
      + simpl in B. split.
        * intros [= -> ->] e [<-|I]; [apply B; auto|]. apply B'; auto.
        * intros K. f_equal; [f_equal; apply B; apply (K (k, x)); auto|apply B'; auto].
  Qed.

  Lemma dec_variants_single item ctx vs name j vt : NoDup (map fst vs) -> In (name, vt) vs -> vt <> VtUnit ->
    dec_variants item ctx vs [(name, j)] = dec_variants item ctx [(name, vt)] [(name, j)].
  Proof.
    induction vs as [|[nm v] vs IH]; simpl; intros ND I NU; [contradiction|].
    apply NoDup_cons_iff in ND. destruct ND as [ND1 ND2].
    destruct I as [E|I]; [inversion E; subst; rewrite bytes_eqb_same; destruct vt; [congruence|auto|auto]|].
    assert (NE : nm <> name) by (intros ->; apply ND1; apply in_map_iff; exists (name, vt); auto).
    rewrite (bytes_eqb_diff nm name NE).
    assert (R := IH ND2 I NU). simpl in R. destruct v; rewrite R; auto.
  Qed.

  Lemma dec_simple_in ctx vs name : NoDup (map fst vs) -> In (name, VtUnit) vs -> dec_simple ctx vs name = JOk (WVar name []).
  Proof.
    induction vs as [|[nm v] vs IH]; simpl; intros ND I; [contradiction|].
    apply NoDup_cons_iff in ND. destruct ND as [ND1 ND2].
    destruct I as [E|I]; [inversion E; subst; rewrite bytes_eqb_same; auto|].
    assert (NE : name <> nm) by (intros ->; apply ND1; apply in_map_iff; exists (nm, VtUnit); auto).
    rewrite (bytes_eqb_diff _ _ NE). destruct v; auto.
  Qed.

  Lemma ty_fields_nth l : forall ts i x t, ty_fields l ts -> nth_error l i = Some x -> nth_error ts i = Some t -> has_ty x t.
  Proof.
    induction l; destruct ts; simpl; intros i x t0 H; try contradiction; destruct i; simpl; try discriminate.
    - intros [= <-] [= <-]. tauto.
    - apply IHl. tauto.
  Qed.

  Lemma lossless_leaf v t : survives env v t -> (forall v' t', ~ part v t v' t') -> lossless v t.
  Proof. intros A B. apply lossless_iff. split; auto. intros v' t' P. destruct (B _ _ P). Qed.

  Ltac leaf := apply lossless_leaf; [simpl; auto|intros ? ? P; inversion P].

  Lemma rt_all v : forall t f, depth v <= f -> has_ty v t -> rt f v t.
  Proof.
    induction v using val_ind2; intros t [|f] D T; try (simpl in D; lia).
    - destruct t; simpl in T; try contradiction. exists (WStr s). split; auto. split; auto. intros _. leaf.
    - destruct t; simpl in T; try contradiction; simpl.
      + exists (WNat (f64_to_N (p64 - 1) (f64_of_N n))). split; auto.
        pose proof (u64_roundtrip n T) as R. rewrite lossless_iff. simpl. change (p64 - 1)%N with 18446744073709551615%N in *.
        split.
        * intros [= E]. split; [apply R; auto|]. intros ? ? P; inversion P.
        * intros [S _]. f_equal. apply R; auto.
      + exists (WNat n). split; [intros ctx; simpl; rewrite u32_roundtrip by auto; auto|]. split; auto. intros _. leaf.
    - destruct t; simpl in T; try contradiction; simpl.
      + eexists. split; [reflexivity|].
        pose proof (i64_roundtrip z T) as R. rewrite lossless_iff. simpl.
        split.
        * intros [= E]. split; [apply R; auto|]. intros ? ? P; inversion P.
        * intros [S _]. f_equal. apply R; auto.
      + exists (WInt z). split; [intros; simpl; rewrite i32_roundtrip by auto; auto|]. split; auto. intros _. leaf.
    - destruct t; simpl in T; try contradiction. exists (WBool b). split; [destruct b; auto|]. split; auto. intros _. leaf.
    - destruct t; simpl in T; try contradiction. exists WUnit. split; auto. split; auto. intros _. leaf.
    - destruct t; try (simpl in T; contradiction). rewrite has_ty_vec in T.
      rewrite Forall_forall in H, T.
      destruct (rt_list f l t) as (l' & A & B).
      { intros x I. apply H; auto. simpl in D. pose proof (depth_in l x I). lia. }
      exists (WVec l'). split; [intros ctx; simpl; rewrite A; auto|].
      rewrite lossless_iff. split.
      + intros [= ->]. split; [simpl; auto|]. intros v' t' P. inversion P; subst. apply B; auto.
      + intros [_ K]. f_equal. apply B. intros x I. apply K. constructor; auto.
    - destruct t; simpl in T; try contradiction. exists WNone. split; auto. split; auto. intros _. leaf.
    - destruct t; simpl in T; try contradiction. simpl in D.
      destruct (IHv t f) as (v' & A & B); [lia|auto|].
      pose proof (null_enc v t T) as N.
      destruct (to_json v t) eqn:E.
      all: try (exists (WSome v'); split; [intros ctx; specialize (A ctx); simpl; rewrite E; simpl; rewrite A; auto|];
         rewrite lossless_iff; split;
         [intros [= ->]; split; [simpl; intros X; apply N in X; discriminate|intros v2 t2 P; inversion P; subst; apply B; auto]
         |intros [_ K]; f_equal; apply B; apply K; constructor]).
      exists WNone. split; [intros ctx; simpl; rewrite E; auto|]. split; [discriminate|].
      rewrite lossless_iff. intros [S _]. exfalso. apply S. apply N. auto.
    - destruct t; try (simpl in T; contradiction). rewrite has_ty_map in T. destruct T as [ND T].
      rewrite Forall_forall in H, T.
      destruct (rt_map f m t ND) as (m' & A & B).
      { intros e I. apply H; auto. simpl in D. pose proof (depth_in_map m e I). lia. }
      exists (WMap m'). split.
      { intros ctx. simpl. rewrite hash_from_id by (rewrite map_map; simpl; auto).
        rewrite (A ctx []) by auto. auto. }
      rewrite lossless_iff. split.
      + intros [= ->]. split; [simpl; auto|]. intros v' t' P.
        assert (X : forall e, In e m -> lossless (snd e) t) by (apply B; auto). inversion P; subst. apply (X (k, v')); auto.
      + intros [_ K]. f_equal. apply B. intros [k x] I. apply K. econstructor; eauto.
    - destruct t; try (simpl in T; contradiction). rewrite has_ty_rec in T.
      assert (DI : forall i x, nth_error l i = Some x -> depth x <= f).
      { intros i x I. apply nth_error_In in I. apply depth_in in I. simpl in D. lia. }
      assert (IH : forall i x t, nth_error l i = Some x -> has_ty x t -> rt f x t).
      { intros i x t I X. rewrite Forall_forall in H. apply H; eauto using nth_error_In. }
      destruct (env n) as [fs|ts|] eqn:E; try contradiction.
      + pose proof (EOK n) as ND. rewrite E in ND.
        pose proof (ty_fields_length _ _ T) as LE. rewrite map_length in LE.
        destruct (rt_struct f l fs LE ND) as (l' & A & B).
        { intros i x g I G. eapply IH; eauto. eapply ty_fields_nth; eauto. rewrite nth_error_map, G. auto. }
        exists (WRec l'). split.
        { intros ctx. rewrite to_json_rec, E. simpl. rewrite E.
          rewrite hash_from_id by (rewrite combine_fst; auto; rewrite enc_fields_length; rewrite ?map_length; auto).
          rewrite A. auto. }
        rewrite lossless_iff. split.
        * intros [= ->]. split; [simpl; auto|]. intros v' t' P. inversion P; subst; try congruence.
          assert (fs0 = fs) by congruence. subst fs0.
          assert (X : ll_fields l (map f_ty fs)) by (apply B; auto). apply (X i); auto. match goal with Q : nth_error fs _ = Some _ |- _ => rewrite nth_error_map, Q end. auto.
        * intros [_ K]. f_equal. apply B. intros i x t I G. rewrite nth_error_map in G.
          destruct (nth_error fs i) eqn:F; [|discriminate]. inversion G; subst. apply K. eapply pt_struct; eauto.
      + pose proof (ty_fields_length _ _ T) as LE.
        assert (PT : forall x t, part (WRec l) (TName n) x t <-> exists i, nth_error l i = Some x /\ nth_error ts i = Some t).
        { intros x t. split; [|intros (i & I & G); eapply pt_tuple; eauto]. intros P; inversion P; subst; try congruence.
          assert (ts0 = ts) by congruence. subst ts0. eauto. }
        destruct (rt_tuple f l ts LE) as (l' & A & B).
        { intros i x t I G. eapply IH; eauto. eapply ty_fields_nth; eauto. }
        assert (LL : l' = l <-> lossless (WRec l) (TName n)).
        { rewrite B, lossless_iff. split.
          - intros K. split; [simpl; auto|]. intros x t P. apply PT in P. destruct P as (i & I & G). eapply K; eauto.
          - intros [_ K] i x t I G. apply K. apply PT. eauto. }
        exists (WRec l'). split.
        { intros ctx. rewrite to_json_rec, E. simpl. rewrite E.
          pose proof (A ctx) as A0.
          destruct ts as [|t1 [|t2 ts]], l as [|x [|y l]]; simpl in LE; try lia.
          - simpl in A0 |- *. inversion A0; auto.
          - simpl in A0. destruct (from_json f t1 ctx (to_json x t1)); simpl in A0; try discriminate. simpl. inversion A0; auto.
          - cbn [enc_fields length] in *. rewrite enc_fields_length by lia.
            replace (Nat.eqb _ _) with true by (symmetry; apply PeanoNat.Nat.eqb_eq; auto). rewrite A0. auto. }
        rewrite <- LL. split; [intros [= ->]; auto|intros ->; auto].
    - destruct t; try (simpl in T; contradiction). rewrite has_ty_var in T.
      assert (DI : forall i x, nth_error l i = Some x -> depth x <= f).
      { intros i x I. apply nth_error_In in I. apply depth_in in I. simpl in D. lia. }
      assert (IH : forall i x t, nth_error l i = Some x -> has_ty x t -> rt f x t).
      { intros i x t I X. rewrite Forall_forall in H. apply H; eauto using nth_error_In. }
      destruct (env n0) as [| |vs] eqn:E; try contradiction. destruct T as (vt & I & T).
      pose proof (EOK n0) as ND. rewrite E in ND. destruct ND as [ND NDF].
      assert (UNI : forall vt', In (n, vt') vs -> vt' = vt).
      { intros vt' I'. pose proof (aget_in _ _ _ ND I). pose proof (aget_in _ _ _ ND I'). congruence. }
      destruct vt as [|ts|fs].
      + subst l. exists (WVar n []). split.
        { intros ctx. rewrite to_json_var, E, (aget_in _ _ _ ND I). simpl. rewrite E. apply dec_simple_in; auto. }
        split; auto. intros _. apply lossless_leaf; [simpl; auto|]. intros v' t' P. inversion P; subst; destruct i; discriminate.
      + pose proof (ty_fields_length _ _ T) as LE.
        assert (PT : forall x t, part (WVar n l) (TName n0) x t <-> exists i, nth_error l i = Some x /\ nth_error ts i = Some t).
        { intros x t. split; [|intros (i & J & G); eapply pt_vtuple; eauto]. intros P; inversion P; subst.
          - assert (vs0 = vs) by congruence. subst vs0. match goal with Q : In (n, _) vs |- _ => apply UNI in Q; inversion Q; subst end. eauto.
          - assert (vs0 = vs) by congruence. subst vs0. match goal with Q : In (n, _) vs |- _ => apply UNI in Q; discriminate Q end. }
        destruct (rt_tuple f l ts LE) as (l' & A & B).
        { intros i x t J G. eapply IH; eauto. eapply ty_fields_nth; eauto. }
        assert (LL : l' = l <-> lossless (WVar n l) (TName n0)).
        { rewrite B, lossless_iff. split.
          - intros K. split; [simpl; auto|]. intros x t P. apply PT in P. destruct P as (i & J & G). eapply K; eauto.
          - intros [_ K] i x t J G. apply K. apply PT. eauto. }
        exists (WVar n l'). split.
        { intros ctx. rewrite to_json_var, E, (aget_in _ _ _ ND I). simpl. rewrite E.
          rewrite (dec_variants_single _ _ _ _ _ _ ND I) by discriminate. simpl. rewrite bytes_eqb_same.
          pose proof (A ctx) as A0.
          destruct ts as [|t1 [|t2 ts]], l as [|x [|y l]]; simpl in LE; try lia.
          - simpl in A0 |- *. inversion A0; auto.
          - simpl in A0. destruct (from_json f t1 ctx (to_json x t1)); simpl in A0; try discriminate. simpl. inversion A0; auto.
          - cbn [enc_fields length] in *. rewrite enc_fields_length by lia.
            replace (Nat.eqb _ _) with true by (symmetry; apply PeanoNat.Nat.eqb_eq; auto). rewrite A0. auto. }
        rewrite <- LL. split; [intros [= ->]; auto|intros ->; auto].
      + pose proof (ty_fields_length _ _ T) as LE. rewrite map_length in LE.
        pose proof (NDF _ _ I) as NF.
        assert (PT : forall x t, part (WVar n l) (TName n0) x t <-> exists i, nth_error l i = Some x /\ nth_error (map snd fs) i = Some t).
        { intros x t. split.
          - intros P; inversion P; subst.
            + assert (vs0 = vs) by congruence. subst vs0. match goal with Q : In (n, _) vs |- _ => apply UNI in Q; discriminate Q end.
            + assert (vs0 = vs) by congruence. subst vs0. match goal with Q : In (n, _) vs |- _ => apply UNI in Q; inversion Q; subst end. exists i. split; auto.
              match goal with Q : nth_error fs i = Some _ |- _ => rewrite nth_error_map, Q end. auto.
          - intros (i & J & G). rewrite nth_error_map in G. destruct (nth_error fs i) as [[k t']|] eqn:F; [|discriminate].
            inversion G; subst. eapply pt_vnamed; eauto. }
        assert (M1 : map f_name (plain_fields fs) = map fst fs) by (unfold plain_fields; rewrite map_map; auto).
        assert (M2 : map f_ty (plain_fields fs) = map snd fs) by (unfold plain_fields; rewrite map_map; auto).
        destruct (rt_struct f l (plain_fields fs)) as (l' & A & B).
        { unfold plain_fields. rewrite map_length. auto. }
        { rewrite M1. auto. }
        { intros i x g J G. eapply IH; eauto. eapply ty_fields_nth; eauto. rewrite <- M2, nth_error_map, G. auto. }
        rewrite M1, M2 in *.
        assert (LL : l' = l <-> lossless (WVar n l) (TName n0)).
        { rewrite B, lossless_iff. split.
          - intros K. split; [simpl; auto|]. intros x t P. apply PT in P. destruct P as (i & J & G). eapply K; eauto.
          - intros [_ K] i x t J G. apply K. apply PT. eauto. }
        exists (WVar n l'). split.
        { intros ctx. rewrite to_json_var, E, (aget_in _ _ _ ND I). simpl. rewrite E.
          rewrite (dec_variants_single _ _ _ _ _ _ ND I) by discriminate. simpl. rewrite bytes_eqb_same.
          rewrite hash_from_id by (rewrite combine_fst; auto; rewrite enc_fields_length; rewrite ?map_length; auto).
          rewrite A. auto. }
        rewrite <- LL. split; [intros [= ->]; auto|intros ->; auto].
  Qed.
End Proofs.
