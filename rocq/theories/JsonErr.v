(** Decoding documents of any shape (property C22). *)

From Coq Require Import List NArith ZArith Bool Lia.
From Verif Require Import CodecModel CodecSpec CodecProofs FloatModel JsonModel JsonSpec JsonProofs.
Import ListNotations.
Local Open Scope nat_scope.

(** ** Numbers *)

Lemma scaled_trunc b : (b < two64)%N ->
  match f64_scaled b with
  | Some s => exists neg mag, f64_trunc b = FInt neg mag /\
      Z.quot s (2 ^ 1074) = (if neg then - Z.of_N mag else Z.of_N mag)%Z
  | None => f64_trunc b = if (b mod 4503599627370496 =? 0)%N then FInf (negb (b / 9223372036854775808 =? 0)%N) else FNan
  end.
Proof.
  intros B. unfold f64_scaled, f64_trunc. change p52 with 4503599627370496%N. change p63 with 9223372036854775808%N.
  assert (NEG : N.leb 9223372036854775808 b = negb (b / 9223372036854775808 =? 0)%N).
  { destruct (N.leb_spec 9223372036854775808 b) as [L|L].
    - destruct (N.eqb_spec (b / 9223372036854775808) 0) as [E|E]; auto. apply N.div_small_iff in E; lia.
    - rewrite N.div_small by auto. auto. }
  rewrite NEG.
  set (e := ((b / 4503599627370496) mod 2048)%N). set (m := (b mod 4503599627370496)%N).
  assert (He : (e < 2048)%N) by (apply N.mod_lt; discriminate).
  assert (Hm : (m < 4503599627370496)%N) by (apply N.mod_lt; discriminate).
  destruct (N.eqb_spec e 2047) as [E|E].
  { destruct (N.eqb_spec m 0); auto. }
  set (mag := if (e =? 0)%N then m else ((4503599627370496 + m) * 2 ^ (e - 1))%N).
  set (tr := if (e <? 1023)%N then 0%N else if (e - 1023 <=? 52)%N then ((4503599627370496 + m) / 2 ^ (52 - (e - 1023)))%N else ((4503599627370496 + m) * 2 ^ (e - 1023 - 52))%N).
  exists (negb (b / 9223372036854775808 =? 0)%N), tr. split.
  { unfold tr. destruct (N.ltb_spec e 1023); auto. }
  assert (Q : (mag / 2 ^ 1074 = tr)%N).
  { unfold mag, tr. destruct (N.ltb_spec e 1023) as [L|L].
    - apply N.div_small. destruct (N.eqb_spec e 0) as [Z|Z].
      + apply N.lt_le_trans with (1 := Hm). change 4503599627370496%N with (2 ^ 52)%N. apply N.pow_le_mono_r; lia.
      + apply N.lt_le_trans with (2 ^ 53 * 2 ^ (e - 1))%N.
        * apply N.mul_lt_mono_pos_r; [apply N.neq_0_lt_0, N.pow_nonzero; lia|]. change (2 ^ 53)%N with 9007199254740992%N. lia.
        * rewrite <- N.pow_add_r. apply N.pow_le_mono_r; lia.
    - destruct (N.eqb_spec e 0) as [Z|Z]; [lia|].
      destruct (N.leb_spec (e - 1023) 52) as [K|K].
      + replace 1074%N with ((e - 1) + (52 - (e - 1023)))%N at 1 by lia. rewrite N.pow_add_r.
        rewrite N.mul_comm. rewrite N.div_mul_cancel_l; auto; apply N.pow_nonzero; lia.
      + replace (e - 1)%N with (e - 1023 - 52 + 1074)%N by lia. rewrite N.pow_add_r, N.mul_assoc.
        apply N.div_mul. apply N.pow_nonzero; lia. }
  assert (ZP : (2 ^ 1074)%Z = Z.of_N (2 ^ 1074)) by (rewrite N2Z.inj_pow; auto).
  assert (QZ : Z.quot (Z.of_N mag) (2 ^ 1074) = Z.of_N tr).
  { rewrite ZP, <- N2Z.inj_quot, Q. auto. }
  destruct (b / 9223372036854775808 =? 0)%N; simpl negb; cbv iota; auto.
  rewrite Z.quot_opp_l, QZ; auto. rewrite ZP. intros X. assert ((2 ^ 1074)%N <> 0%N) by (apply N.pow_nonzero; lia). lia.
Qed.

Lemma roughly_N max b : (b < two64)%N -> roughly 0 (Z.of_N max) b (Z.of_N (f64_to_N max b)).
Proof.
  intros B. pose proof (scaled_trunc b B) as S. unfold roughly, f64_to_N. destruct (f64_scaled b) as [s|].
  - destruct S as (neg & mag & T & Q). rewrite T, Q. destruct neg; lia.
  - rewrite S. destruct (b mod _ =? 0)%N; auto. destruct (b / _ =? 0)%N; auto.
Qed.

Lemma roughly_Z lo hi b : (b < two64)%N -> (lo <= 0 <= hi)%Z -> roughly lo hi b (f64_to_Z lo hi b).
Proof.
  intros B LH. pose proof (scaled_trunc b B) as S. unfold roughly, f64_to_Z. destruct (f64_scaled b) as [s|].
  - destruct S as (neg & mag & T & Q). rewrite T, Q. destruct neg; lia.
  - rewrite S. destruct (b mod _ =? 0)%N; auto. destruct (b / _ =? 0)%N; auto.
Qed.

(** ** Outcomes *)

Section Err.
  Variable env : N -> tydef.
  Hypothesis EOK : env_ok env.
  Hypothesis ND : no_defaults env.
  Notation from_json := (from_json env).
  Notation reads := (reads env roughly true).
  Notation reads_items := (reads_items env roughly true).
  Notation reads_fields := (reads_fields env roughly true).
  Notation wrong := (wrong env).
  Notation wrong_items := (wrong_items env).
  Notation wrong_fields := (wrong_fields env).

  Definition outcome {A} (good : A -> Prop) (bad : list citem -> Prop) (ctx : list citem) (r : jres A) : Prop :=
    match r with
    | JOk v => good v
    | JErr p => exists q, p = ctx ++ q ++ [CMsg] /\ bad q
    | JPanic => False
    | JFuel => True
    end.

  Lemma outcome_bind {A B} (r : jres A) (k : A -> jres B) (good : A -> Prop) (bad : list citem -> Prop) (good' : B -> Prop) (bad' : list citem -> Prop) ctx :
    outcome good bad ctx r -> (forall q, bad q -> bad' q) -> (forall v, good v -> outcome good' bad' ctx (k v)) ->
    outcome good' bad' ctx (jbind r k).
  Proof. destruct r; simpl; auto. intros (q & E & H) X _. eauto. Qed.

  Lemma outcome_step {A} (r : jres A) (good : A -> Prop) (bad : list citem -> Prop) ctx c (bad' : list citem -> Prop) :
    outcome good bad (ctx ++ [c]) r -> (forall q, bad q -> bad' (c :: q)) -> outcome good bad' ctx r.
  Proof. destruct r; simpl; auto. intros (q & E & H) X. exists (c :: q). rewrite <- app_assoc in E. auto. Qed.

  Definition dec_ok (f : nat) (t : ty) (j : json) : Prop :=
    forall ctx, outcome (reads t j) (wrong t j) ctx (from_json f t ctx j).

  Lemma list_ok f t l : (forall x, In x l -> dec_ok f t x) -> forall ctx i,
    outcome (Forall2 (reads t) l) (fun q => exists k x q', nth_error l k = Some x /\ wrong t x q' /\ q = CIndex (i + k) :: q') ctx
      (dec_list (fun i => from_json f t (ctx ++ [CIndex i])) i l).
  Proof.
    induction l as [|x l IH]; simpl; intros H ctx i; auto.
    eapply outcome_bind.
    - eapply outcome_step; [apply H; auto|]. intros q W. exact (conj (eq_refl (CIndex i)) W : (fun p => match p with c :: q => c = CIndex i /\ wrong t x q | _ => False end) (CIndex i :: q)).
    - intros [|c q]; [contradiction|]. intros [-> W]. exists 0, x, q. rewrite Nat.add_0_r. auto.
    - intros v R. eapply outcome_bind; [apply IH; auto| |].
      + intros q (k & y & q' & E & W & ->). exists (S k), y, q'. rewrite Nat.add_succ_r. auto.
      + intros vs F. simpl. constructor; auto.
  Qed.

  Lemma map_ok f t m : (forall e, In e m -> dec_ok f t (snd e)) -> forall ctx acc, NoDup (map fst acc ++ map fst m) ->
    outcome (fun w => exists s, w = acc ++ s /\ Forall2 (fun e u => fst e = fst u /\ reads t (snd e) (snd u)) m s)
      (fun q => exists k x q', In (k, x) m /\ wrong t x q' /\ q = CField k :: q') ctx
      (dec_map (fun k => from_json f t (ctx ++ [CField k])) acc m).
  Proof.
    induction m as [|[k j] m IH]; simpl; intros H ctx acc N; [exists []; rewrite app_nil_r; auto|].
    eapply outcome_bind.
    - eapply outcome_step; [apply (H (k, j)); auto|]. intros q W. exact (conj (eq_refl (CField k)) W : (fun p => match p with c :: q => c = CField k /\ wrong t j q | _ => False end) (CField k :: q)).
    - intros [|c q]; [contradiction|]. intros [-> W]. exists k, j, q. auto.
    - intros v R. simpl in R. rewrite assoc_insert_fresh.
      2:{ apply NoDup_remove_2 in N. intros I. apply N, in_or_app; auto. }
      specialize (IH ltac:(auto) ctx (acc ++ [(k, v)])). rewrite map_app, <- app_assoc in IH. specialize (IH N).
      destruct (dec_map _ _ m); simpl in *; auto.
      + destruct IH as (s & -> & F). exists ((k, v) :: s). rewrite <- app_assoc. split; auto.
      + destruct IH as (q & E & k' & x & q' & I & W & ->). eauto 10.
  Qed.

  Lemma tuple_ok f ts : forall l, length l = length ts -> (forall x t, In x l -> In t ts -> dec_ok f t x) -> forall ctx,
    outcome (reads_items ts l) (fun q => exists i t x, nth_error ts i = Some t /\ nth_error l i = Some x /\ wrong t x q) ctx
      (dec_tuple (fun t => from_json f t ctx) ts l).
  Proof.
    induction ts as [|t ts IH]; destruct l as [|x l]; simpl; intros L H ctx; try discriminate; [constructor|].
    eapply outcome_bind; [apply H; auto| |].
    - intros q W. exists 0, t, x. auto.
    - intros v R. eapply outcome_bind; [apply IH; auto| |].
      + intros q (i & t' & x' & A & B & W). exists (S i), t', x'. auto.
      + intros vs F. simpl. constructor; auto.
  Qed.

  Lemma aget_adel {A} (m : list (bytes * A)) k k' : k' <> k -> aget (adel m k) k' = aget m k'.
  Proof.
    intros NE. unfold adel. induction m as [|[k1 v] m IH]; simpl; auto. destruct (bytes_eqb_spec k k1); simpl.
    - subst. rewrite (bytes_eqb_diff k' k1) by auto. auto.
    - rewrite IH. auto.
  Qed.

  Lemma struct_ok f (m : list (bytes * json)) fs : NoDup (map f_name fs) -> (forall g, In g fs -> f_default g = None) ->
    (forall g k x, In g fs -> aget m k = Some x -> dec_ok f (f_ty g) x) ->
    forall m1, (forall g, In g fs -> aget m1 (f_name g) = aget m (f_name g)) -> forall ctx,
    outcome (reads_fields (map f_name fs) (map f_ty fs) m) (wrong_fields (map f_name fs) (map f_ty fs) (JObject m)) ctx
      (dec_struct (from_json f) ctx fs (JObject m1)).
  Proof.
    induction fs as [|g fs IH]; cbn [dec_struct map]; intros N D H m1 S ctx; [simpl; constructor|].
    apply NoDup_cons_iff in N. destruct N as [N1 N2]. unfold get_property. rewrite (S g) by (simpl; auto).
    rewrite D by (simpl; auto).
    destruct (aget m (f_name g)) as [x|] eqn:E.
    - assert (X : forall r : jres val, match r with JErr _ => r | _ => r end = r) by (destruct r; auto). rewrite X.
      apply outcome_bind with (good := reads (f_ty g) x) (bad := wrong_fields (f_name g :: map f_name fs) (f_ty g :: map f_ty fs) (JObject m)).
      + eapply outcome_step; [apply (H g _ _ (or_introl eq_refl) E)|]. intros q W.
        eapply wf_field with (i := 0); simpl; eauto.
      + auto.
      + intros v R. eapply outcome_bind; [apply IH; auto|..].
        * intros g' I. apply D. simpl; auto.
        * intros g' k x' I. apply H. simpl; auto.
        * intros g' I. rewrite aget_adel; [apply S; simpl; auto|]. intros X'. apply N1. rewrite <- X'. apply in_map; auto.
        * intros q W. inversion W; subst.
          -- congruence.
          -- apply wf_missing; simpl; auto.
          -- eapply wf_field with (i := Datatypes.S i); simpl; eauto.
        * intros vs F. simpl. econstructor; eauto.
    - simpl. exists [CField (f_name g)]. split; auto. apply wf_missing; simpl; auto.
  Qed.

  Lemma struct_other f j fs ctx : (forall m, j <> JObject m) -> (forall g, In g fs -> f_default g = None) -> fs <> [] ->
    outcome (fun _ => False) (wrong_fields (map f_name fs) (map f_ty fs) j) ctx (dec_struct (from_json f) ctx fs j).
  Proof.
    intros H D NE. destruct fs as [|g fs]; [congruence|]. simpl.
    rewrite D by (simpl; auto).
    destruct j; try (exfalso; eapply H; eauto; fail); simpl; exists []; split; auto; apply wf_object; auto; discriminate.
  Qed.

  Lemma fields_ok f j fs (big : forall m k x, j = JObject m -> aget m k = Some x -> forall g, In g fs -> dec_ok f (f_ty g) x) ctx :
    NoDup (map f_name fs) -> (forall g, In g fs -> f_default g = None) ->
    outcome (fun l => (exists m, j = JObject m /\ reads_fields (map f_name fs) (map f_ty fs) m l) \/ (fs = [] /\ l = []))
      (wrong_fields (map f_name fs) (map f_ty fs) j) ctx (dec_struct (from_json f) ctx fs j).
  Proof.
    intros N D.
    assert (OB : (exists m, j = JObject m) \/ forall m, j <> JObject m).
    { destruct j; try (right; intros ? ?; discriminate). eauto. }
    destruct OB as [(m & ->)|OB].
    - assert (O := struct_ok f m fs N D). assert (O' := O ltac:(intros; eapply big; eauto) m ltac:(auto) ctx).
      destruct (dec_struct _ _ _ _); simpl in *; auto. left. eauto.
    - destruct fs as [|g fs]; [simpl; auto|].
      assert (O := struct_other f j (g :: fs) ctx OB D ltac:(discriminate)).
      destruct (dec_struct _ _ _ _); cbn [outcome] in *; auto. contradiction.
  Qed.

  Lemma plain_names fs : map f_name (plain_fields fs) = map fst fs.
  Proof. unfold plain_fields. rewrite map_map. auto. Qed.
  Lemma plain_types fs : map f_ty (plain_fields fs) = map snd fs.
  Proof. unfold plain_fields. rewrite map_map. auto. Qed.
  Lemma plain_none fs g : In g (plain_fields fs) -> f_default g = None.
  Proof. unfold plain_fields. rewrite in_map_iff. intros (x & <- & _). auto. Qed.

  Lemma json_items l x : json_ok (JList l) -> In x l -> json_ok x.
  Proof. simpl. rewrite all_Forall, Forall_forall. auto. Qed.
  Lemma json_entries m k x : json_ok (JObject m) -> In (k, x) m -> json_ok x.
  Proof. simpl. rewrite all_Forall, Forall_forall. intros [_ H] I. apply (H (k, x)); auto. Qed.

  (** One variant after the other. *)
  Lemma variants_ok f n vs m : env n = DEnum vs -> (forall t x, json_ok x -> dec_ok f t x) -> json_ok (JObject m) ->
    forall pre post, vs = pre ++ post -> (forall n' vt', In (n', vt') pre -> vt' <> VtUnit -> aget m n' = None) -> forall ctx,
    outcome (reads (TName n) (JObject m)) (wrong (TName n) (JObject m)) ctx (dec_variants (from_json f) ctx post m).
  Proof.
    intros E IH OK pre post. revert pre. induction post as [|[name vt] post IHp]; cbn [dec_variants]; intros pre V P ctx.
    - simpl. exists []. split; auto. eapply wr_enum; eauto; [intros; discriminate|].
      intros m' name vt x [= <-] (pre' & post' & V' & NU & G & _). rewrite app_nil_r in V. subst pre.
      rewrite (P name vt) in G; [discriminate| |auto]. rewrite V'. apply in_or_app. simpl; auto.
    - assert (NEXT : (vt <> VtUnit -> aget m name = None) ->
         outcome (reads (TName n) (JObject m)) (wrong (TName n) (JObject m)) ctx (dec_variants (from_json f) ctx post m)).
      { intros Q. apply (IHp (pre ++ [(name, vt)])); [rewrite <- app_assoc; auto|]. intros n' vt'. rewrite in_app_iff. simpl.
        intros [I|[[= <- <-]|[]]] NU; eauto. }
      assert (SEL : forall x, vt <> VtUnit -> aget m name = Some x -> selects vs m name vt x).
      { intros x NU G. exists pre, post. repeat split; auto. }
      assert (SUB : forall x, aget m name = Some x -> json_ok x).
      { intros x G. apply aget_some in G. eapply json_entries; eauto. }
      pose proof (EOK n) as K. rewrite E in K. destruct K as [K1 K2].
      destruct vt as [|ts|fs].
      + apply NEXT. congruence.
      + destruct (aget m name) as [x|] eqn:G; [|apply NEXT; auto].
        specialize (SEL x ltac:(discriminate) eq_refl). specialize (SUB x eq_refl).
        assert (MANY : length ts <> 1 -> outcome (reads (TName n) (JObject m)) (wrong (TName n) (JObject m)) ctx
             match x with
             | JList l => if Nat.eqb (length l) (length ts)
                          then jbind (dec_tuple (fun t => from_json f t ctx) ts l) (fun vs => JOk (WVar name vs))
                          else JErr (ctx ++ [CMsg])
             | _ => JErr (ctx ++ [CMsg])
             end).
        { intros L1. destruct x as [| | | | |l|]; try (exists []; split; auto; eapply wr_vart; eauto; apply wi_list; intros; discriminate).
          destruct (PeanoNat.Nat.eqb_spec (length l) (length ts)) as [L|L].
          - eapply outcome_bind; [apply tuple_ok; auto| |].
            + intros x t I _. apply IH. eapply json_items; eauto.
            + intros q (i & t & x & A & B & W). eapply wr_vart; eauto. eapply wi_item; eauto.
            + intros us F. simpl. eapply rd_vart; eauto.
          - exists []. split; auto. eapply wr_vart; eauto. apply wi_list. intros l' [= <-]. auto. }
        destruct ts as [|t1 [|t2 ts]]; try (apply MANY; discriminate).
        eapply outcome_bind; [apply IH; auto| |].
        * intros q W. eapply wr_var1; eauto.
        * intros v R. simpl. eapply rd_var1; eauto.
      + destruct (aget m name) as [x|] eqn:G; [|apply NEXT; auto].
        specialize (SEL x ltac:(discriminate) eq_refl). specialize (SUB x eq_refl).
        eapply outcome_bind.
        * apply fields_ok.
          -- intros m' k y -> G' g I. apply IH. eapply json_entries; eauto. apply aget_some; eauto.
          -- rewrite plain_names. eapply K2. rewrite V. apply in_or_app. simpl; auto.
          -- apply plain_none.
        * intros q W. rewrite plain_names, plain_types in W. eapply wr_varn; eauto.
        * rewrite plain_names, plain_types. intros us [(m' & -> & R)|[F ->]]; simpl.
          -- eapply rd_varn; eauto.
          -- destruct fs; [|discriminate]. eapply rd_vare; eauto.
  Qed.

  Lemma simple_ok n vs s : env n = DEnum vs -> forall pre post, vs = pre ++ post -> ~ In (s, VtUnit) pre -> forall ctx,
    outcome (reads (TName n) (JString s)) (wrong (TName n) (JString s)) ctx (dec_simple ctx post s).
  Proof.
    intros E pre post. revert pre. induction post as [|[name vt] post IH]; cbn [dec_simple]; intros pre V P ctx.
    - exists []. split; auto. rewrite app_nil_r in V. subst pre. eapply wr_enum; eauto; [|intros; discriminate].
      intros s' [= <-]. auto.
    - assert (NEXT : (name, vt) <> (s, VtUnit) -> outcome (reads (TName n) (JString s)) (wrong (TName n) (JString s)) ctx (dec_simple ctx post s)).
      { intros NE. apply (IH (pre ++ [(name, vt)])); [rewrite <- app_assoc; auto|]. rewrite in_app_iff. simpl. tauto. }
      destruct vt; try (apply NEXT; discriminate). destruct (bytes_eqb_spec s name) as [->|NE].
      + simpl. eapply rd_name; eauto. rewrite V. apply in_or_app; simpl; auto.
      + apply NEXT. congruence.
  Qed.

  Ltac here := exists []; split; [reflexivity|].

  Lemma decode_ok : forall f t j, json_ok j -> dec_ok f t j.
  Proof.
    induction f as [|f IH]; intros t j OK ctx; [simpl; auto|].
    destruct t; cbn [JsonModel.from_json].
    - destruct j; try (here; constructor; congruence). constructor.
    - destruct j; try (here; apply wr_num; simpl; auto; congruence). simpl. constructor. apply (roughly_N (p64 - 1)). auto.
    - destruct j; try (here; apply wr_num; simpl; auto; congruence). simpl. constructor. apply roughly_Z; auto. lia.
    - destruct j; try (here; apply wr_num; simpl; auto; congruence). simpl. constructor. apply (roughly_N 4294967295). auto.
    - destruct j; try (here; apply wr_num; simpl; auto; congruence). simpl. constructor. apply roughly_Z; auto. lia.
    - destruct j; try (here; constructor; congruence); constructor.
    - destruct j as [| | | | | |[|e m]]; try (here; constructor; congruence). constructor.
    - destruct j as [| | | | |l|]; try (here; constructor; congruence).
      eapply outcome_bind; [apply list_ok| |].
      + intros x I. apply IH. eapply json_items; eauto.
      + intros q (k & x & q' & E & W & ->). simpl. eapply wr_item; eauto.
      + intros vs F. simpl. constructor; auto.
    - assert (S : j <> JNull -> outcome (reads (TOption t) j) (wrong (TOption t) j) ctx (jbind (from_json f t ctx j) (fun v => JOk (WSome v)))).
      { intros NN. eapply outcome_bind; [apply IH; auto| |].
        - intros q W. constructor; auto.
        - intros v R. simpl. constructor; auto. }
      destruct j; try (apply S; discriminate). simpl. constructor.
    - destruct j as [| | | | | |m]; try (here; constructor; congruence).
      eapply outcome_bind; [apply map_ok| |].
      + intros [k x] I. apply IH. eapply json_entries; eauto.
      + simpl. simpl in OK. tauto.
      + intros q (k & x & q' & E & W & ->). eapply wr_key; eauto.
      + intros w (s & -> & F). simpl. constructor; auto.
    - destruct (env n) as [fs|ts|vs] eqn:E.
      + pose proof (EOK n) as K. rewrite E in K.
        eapply outcome_bind; [apply fields_ok; auto| |].
        * intros m k x -> G g I. apply IH. apply aget_some in G. eapply json_entries; eauto.
        * intros g I. eapply ND; eauto.
        * intros q W. eapply wr_struct; eauto.
        * intros us [(m' & -> & R)|[F ->]]; simpl; [eapply rd_struct; eauto|]. subst fs. apply rd_empty; auto.
      + assert (MANY : length ts <> 1 -> outcome (reads (TName n) j) (wrong (TName n) j) ctx
             match j with
             | JList l => if Nat.eqb (length l) (length ts)
                          then jbind (dec_tuple (fun t => from_json f t ctx) ts l) (fun vs => JOk (WRec vs))
                          else JErr (ctx ++ [CMsg])
             | _ => JErr (ctx ++ [CMsg])
             end).
        { intros L1. destruct j as [| | | | |l|]; try (here; eapply wr_tuple; eauto; apply wi_list; intros; discriminate).
          destruct (PeanoNat.Nat.eqb_spec (length l) (length ts)) as [L|L].
          - eapply outcome_bind; [apply tuple_ok; auto| |].
            + intros x t I _. apply IH. eapply json_items; eauto.
            + intros q (i & t & x & A & B & W). eapply wr_tuple; eauto. eapply wi_item; eauto.
            + intros us F. simpl. eapply rd_tuple; eauto.
          - here. eapply wr_tuple; eauto. apply wi_list. intros l' [= <-]. auto. }
        destruct ts as [|t1 [|t2 ts]]; try (apply MANY; discriminate).
        eapply outcome_bind; [apply IH; auto| |].
        * intros q W. eapply wr_newtype; eauto.
        * intros v R. simpl. eapply rd_newtype; eauto.
      + destruct j as [| | |s| | |m]; try (here; eapply wr_enum; eauto; intros; discriminate).
        * eapply (simple_ok n vs s E []); auto.
        * eapply (variants_ok f n vs m E); [intros; apply IH; auto|auto|exact (eq_refl : vs = [] ++ vs)|intros ? ? []].
  Qed.
End Err.
