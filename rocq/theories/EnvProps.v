(** C93: a setting is read the same on the server and in the browser. *)
From Coq Require Import String List NArith Bool Lia Permutation.
From Verif Require Import CodecModel DomWire SmallModel SmallProps SsrModel HtmlModel HtmlProps EnvModel.
Import ListNotations.
Local Open Scope string_scope.
Local Open Scope list_scope.

(** ** Specification *)
(** The HTML standard, 13.2.3.5: newlines are normalised before the text is read. *)
Fixpoint newlines (s : bytes) : bytes :=
  match s with
  | [] => []
  | c :: t => if (c =? 13)%N then match t with d :: t' => if (d =? 10)%N then 10%N :: newlines t' else 10%N :: newlines t | [] => [10%N] end else c :: newlines t
  end.
(** The attributes of the root element: those of the first tag that is opened. *)
Fixpoint root_attrs (l : list tok) : list (bytes * bytes) :=
  match l with [] => [] | TOpen _ a _ :: _ => a | _ :: t => root_attrs t end.
(** [getAttribute] of an element of an HTML document: the names in the document and the name asked for are brought to lower case (13.2.5.33; DOM 4.9), of attributes with
    the same name the first is kept. *)
Fixpoint get_attribute (a : list (bytes * bytes)) (name : bytes) : option bytes :=
  match a with [] => None | (n, v) :: t => if beqb (lower n) (lower name) then Some v else get_attribute t name end.
(** What the browser knows of a response. *)
Definition browser (out : bytes) : bytes -> option bytes := get_attribute (root_attrs (read (newlines out))).
(** What was set: the last setting of the name. *)
Definition setting (l : list (bytes * bytes)) (name : bytes) : option bytes := option_map snd (find (fun e => beqb (fst e) name) (rev l)).

(** ** Proofs *)
Lemma beqb_true a b : beqb a b = true <-> a = b.
Proof. destruct (beqb_spec a b); split; congruence. Qed.
Lemma beqb_refl a : beqb a a = true.
Proof. apply beqb_true. auto. Qed.
Lemma parse_spec s k v : parse_key_val s = Some (k, v) <-> s = k ++ 61%N :: v /\ ~ In 61%N k.
Proof.
  revert k v. induction s as [|c t IH]; intros k v; cbn.
  - split; [discriminate|]. intros [H _]. destruct k; discriminate.
  - destruct (N.eqb_spec c 61) as [->|Ne].
    + split. intros H. injection H as <- <-. split; auto. intros [H N]. destruct k as [|d k]; cbn in H. injection H as <-. auto. injection H as <- _. destruct N. left. auto.
    + destruct (parse_key_val t) as [[k1 v1]|]; split.
      * intros H. injection H as <- <-. destruct (proj1 (IH k1 v1) eq_refl) as [-> N]. split; auto. intros [->|X]; auto.
      * intros [H N]. destruct k as [|d k]; cbn in H; injection H as E H; [congruence|subst d]. assert (Q : Some (k1, v1) = Some (k, v)). apply IH. split; auto. intros X. apply N. right. auto. injection Q as -> ->. auto.
      * discriminate.
      * intros [H N]. destruct k as [|d k]; cbn in H; injection H as E H; [congruence|subst d]. assert (X : None = Some (k, v)). apply IH. split; auto. intros X. apply N. right. auto. discriminate.
Qed.
Lemma insert_get k v m n : map_get (map_insert k v m) n = if beqb n k then Some v else map_get m n.
Proof.
  induction m as [|[k' v'] m IH]; cbn; auto. destruct (beqb_spec k k') as [->|Ne]; cbn.
  - destruct (beqb n k'); auto.
  - rewrite IH. destruct (beqb_spec n k') as [->|]; auto. destruct (beqb_spec k' k); congruence.
Qed.
Lemma insert_keys k v m : NoDup (map fst m) -> NoDup (map fst (map_insert k v m)) /\ forall x, In x (map fst (map_insert k v m)) <-> x = k \/ In x (map fst m).
Proof.
  induction m as [|[k' v'] m IH]; cbn; intros ND.
  - split. repeat constructor. intros []. intros x. intuition auto.
  - inversion ND; subst. destruct (beqb_spec k k') as [->|Ne]; cbn. split; auto. intros x. intuition auto. destruct (IH H2) as [A B]. split.
    + constructor; auto. rewrite B. intros [X|X]; congruence.
    + intros x. rewrite B. intuition auto.
Qed.
Lemma collect_gen l : forall m, NoDup (map fst m) -> let c := fold_left (fun m e => map_insert (fst e) (snd e) m) l m in NoDup (map fst c) /\
  (forall n, map_get c n = match setting l n with Some v => Some v | None => map_get m n end).
Proof.
  induction l as [|[k v] l IH]; intros m ND; cbn [fold_left fst snd]. split; auto.
  destruct (insert_keys k v m ND) as [A _]. destruct (IH _ A) as [B1 B2]. split; auto. intros n. rewrite B2, insert_get. unfold setting. cbn [rev].
  assert (F : forall (p : bytes * bytes -> bool) a b, find p (a ++ b) = match find p a with Some x => Some x | None => find p b end).
  { intros p a b. induction a as [|x a IHa]; cbn; auto. destruct (p x); auto. }
  rewrite F. destruct (find (fun e => beqb (fst e) n) (rev l)); cbn [find option_map fst snd]; auto. destruct (beqb_spec k n) as [->|Ne]. rewrite beqb_refl. auto. destruct (beqb_spec n k). congruence. auto.
Qed.
Lemma collect_nodup l : NoDup (map fst (collect l)).
Proof. apply (collect_gen l []). constructor. Qed.
Lemma collect_get l n : map_get (collect l) n = setting l n.
Proof. unfold collect. destruct (collect_gen l [] (NoDup_nil _)) as [_ B]. rewrite B. cbn. destruct (setting l n); auto. Qed.
Lemma get_in m n v : NoDup (map fst m) -> (map_get m n = Some v <-> In (n, v) m).
Proof.
  induction m as [|[k w] m IH]; cbn; intros ND. split; [discriminate|tauto]. inversion ND; subst. destruct (beqb_spec n k) as [->|Ne].
  - split. intros H. injection H as ->. auto. intros [H|H]. congruence. destruct H1. apply in_map_iff. exists (k, v). auto.
  - rewrite IH; auto. split; auto. intros [H|H]; congruence.
Qed.
Lemma get_none m n : (forall v, ~ In (n, v) m) -> map_get m n = None.
Proof. induction m as [|[k w] m IH]; cbn; intros H; auto. destruct (beqb_spec n k) as [->|Ne]. destruct (H w); auto. apply IH. intros v X. apply (H v). auto. Qed.

Lemma add_attr_in l k v n x : In (n, x) (add_attr l k v) <-> (n, x) = (k, v) \/ (In (n, x) l /\ n <> k).
Proof.
  unfold add_attr. rewrite in_app_iff, filter_In. cbn. destruct (beqb_spec k n) as [->|Ne]; cbn; split; intuition congruence.
Qed.
Definition pre : bytes := str "data-env-".
Lemma pre_inj a b : pre ++ a = pre ++ b -> a = b.
Proof. apply app_inv_head. Qed.
Lemma with_env_in it : forall attr n x, NoDup (map fst it) ->
  (In (n, x) (with_env attr it) <-> (exists k, n = pre ++ k /\ In (k, x) it) \/ (In (n, x) attr /\ forall k, In k (map fst it) -> n <> pre ++ k)).
Proof.
  induction it as [|[k v] it IH]; intros attr n x ND; cbn [with_env].
  - split; [intros H; right; split; auto|intros [(k & _ & [])|[H _]]; auto].
  - cbn in ND. inversion ND as [|? ? N1 N2]; subst. rewrite IH, add_attr_in; auto. fold pre. split.
    + intros [(k1 & -> & H)|[[H|[H Ne]] F]].
      * left. exists k1. split; auto. right. auto.
      * left. injection H as -> ->. exists k. split; auto. left. auto.
      * right. split; auto. intros k1 [<-|I]; auto.
    + intros [(k1 & -> & [H|H])|[H F]].
      * injection H as -> ->. right. split; auto. intros k2 I X. apply pre_inj in X. subst. contradiction.
      * left. exists k1. auto.
      * right. split. right. split; auto. apply F. left. auto. intros k1 I. apply F. right. auto.
Qed.
Lemma get_attribute_some a q n v : In (n, v) a -> lower n = lower q -> (forall n' v', In (n', v') a -> lower n' = lower q -> v' = v) -> get_attribute a q = Some v.
Proof.
  induction a as [|[m w] a IH]; cbn; intros I E U; [tauto|]. destruct (beqb_spec (lower m) (lower q)) as [X|X].
  - f_equal. apply (U m w); auto.
  - apply IH; auto. destruct I as [I|I]; auto. congruence. intros n' v' I' E'. apply (U n' v'); auto.
Qed.
Lemma get_attribute_none a q : (forall n v, In (n, v) a -> lower n <> lower q) -> get_attribute a q = None.
Proof. induction a as [|[m w] a IH]; cbn; intros H; auto. destruct (beqb_spec (lower m) (lower q)) as [X|X]. destruct (H m w); auto. apply IH. intros. apply (H n v). auto. Qed.
Lemma newlines_id s : ~ In 13%N s -> newlines s = s.
Proof.
  induction s as [|c t IH]; cbn [newlines]; intros H; auto. destruct (N.eqb_spec c 13) as [->|Ne]. destruct H. left. auto. rewrite IH; auto. intros X. apply H. right. auto.
Qed.
Lemma root_keep2 l d n a t r : filter keep l = TDecl d :: TOpen n a t :: r -> root_attrs l = a.
Proof.
  assert (G : forall l r, filter keep l = TOpen n a t :: r -> root_attrs l = a).
  { induction l0 as [|x l0 IH]; cbn; intros r0 H; [discriminate|]. destruct (keep x) eqn:Kx. injection H as -> _. auto. destruct x; try discriminate. eauto. }
  induction l as [|x l IH]; cbn; intros H; [discriminate|]. destruct (keep x) eqn:Kx. injection H as -> H. cbn. eauto. destruct x; try discriminate. eauto.
Qed.

Lemma lower_app a b : lower (a ++ b) = lower a ++ lower b.
Proof. apply map_app. Qed.
Lemma lower_pre a b : lower (pre ++ a) = lower (pre ++ b) <-> lower a = lower b.
Proof. rewrite !lower_app. split. apply app_inv_head. intros ->. auto. Qed.
Lemma setting_in l n v : setting l n = Some v -> In (n, v) l.
Proof.
  unfold setting. destruct (find _ (rev l)) as [[k w]|] eqn:F; [|discriminate]. cbn. intros H. injection H as ->. apply List.find_some in F. destruct F as [F1 F2]. apply in_rev in F1.
  cbn in F2. apply beqb_true in F2. subst. auto.
Qed.
Lemma collect_keys l k v : In (k, v) (collect l) -> setting l k = Some v.
Proof. intros H. apply get_in in H; [|apply collect_nodup]. rewrite collect_get in H. auto. Qed.

(** The server, for all settings and all names: the last setting of exactly that name. *)
Theorem C93_server : forall l name, get_env (server_answer (collect l) name) = setting l name.
Proof. intros l name. unfold server_answer. rewrite collect_get. destruct (setting l name); auto. Qed.

(** An argument: refused without '='; the name ends at the first one, so the value may have more of them. *)
Theorem C93_argument : forall s, match parse_key_val s with Some (k, v) => s = k ++ str "=" ++ v /\ ~ In 61%N k | None => ~ In 61%N s end.
Proof.
  intros s. destruct (parse_key_val s) as [[k v]|] eqn:E. apply (parse_spec s k v) in E. auto.
  intros I. apply in_split in I. induction s as [|c t IH]. destruct I as ([|] & ? & ?); discriminate. cbn in E. destruct (N.eqb_spec c 61); [discriminate|].
  destruct I as ([|d a] & b & H); cbn in H; injection H as -> H. congruence. apply IH. destruct (parse_key_val t) as [[]|]; [discriminate|auto]. eauto.
Qed.

(** The browser and the server agree, whatever the order in which the map of settings gives its entries. *)
Theorem C93_same_partial : forall l env wasm js css attr pre' battr kids post name,
  Permutation (collect l) env ->
  (forall n a k, In (HElement n a k) pre' -> n <> str "body") ->
  let shown := html_tree (with_env attr env) pre' battr (map style_of css ++ kids ++ [starter wasm js]) post in
  renderable shown -> plain shown ->
  (* a setting whose name differs from the one asked for at most in upper and lower case is the one asked for *)
  (forall k, In k (map fst l) -> lower k = lower name -> k = name) ->
  (* and the application has not put an attribute of this name on html itself *)
  (forall n v, In (n, v) attr -> lower n <> lower (str "data-env-" ++ name)) ->
  exists out, build_response wasm js env (html_tree attr pre' battr kids post) css = Some out /\
    (~ In 13%N out -> get_env (browser_answer (browser out) name) = get_env (server_answer (collect l) name)).
Proof.
  intros l env wasm js css attr pre' battr kids post name Pm NB shown R P Cs At.
  destruct (C30_response_partial wasm js env css attr pre' battr kids post NB R P) as (out & E & T). exists out. split; auto. intros NC.
  rewrite C93_server. unfold browser_answer, browser. rewrite newlines_id by auto. unfold html_tree in T. cbn [toks] in T.
  change (void (str "html")) with false in T. cbv iota in T. cbn [filter keep] in T. rewrite (root_keep2 _ _ _ _ _ _ T). fold pre in *.
  assert (ND : NoDup (map fst env)). { eapply Permutation_NoDup. apply Permutation_map. exact Pm. apply collect_nodup. }
  assert (Own : forall k v, In (k, v) env -> lower k = lower name -> setting l name = Some v).
  { intros k v I L. assert (X : setting l k = Some v). apply collect_keys. eapply Permutation_in. apply Permutation_sym. exact Pm. auto.
    rewrite <- (Cs k); auto. apply in_map_iff. exists (k, v). split; auto. apply setting_in. auto. }
  assert (All : forall n v, In (n, v) (with_env attr env) -> lower n = lower (pre ++ name) -> setting l name = Some v).
  { intros n v I L. apply with_env_in in I; auto. destruct I as [(k & -> & I)|[I _]]. apply (Own k); auto. apply lower_pre. auto. destruct (At _ _ I L). }
  destruct (setting l name) as [v|] eqn:S.
  - rewrite (get_attribute_some _ _ (pre ++ name) v); auto. apply with_env_in; auto. left. exists name. split; auto. eapply Permutation_in. exact Pm.
    apply get_in. apply collect_nodup. rewrite collect_get. auto. intros n' v' I L. specialize (All _ _ I L). congruence.
  - rewrite get_attribute_none; auto. intros n v I L. specialize (All _ _ I L). discriminate.
Qed.

(** ** Where they differ *)
(** A page of html with an empty body, and what the browser is given for a setting. *)
Definition page : hnode := html_tree [(str "lang", str "en")] [] [] [] [].
Definition in_browser (env : list (bytes * bytes)) (name : bytes) : option bytes :=
  match build_response (str "/a.wasm") (str "/a.js") env page [] with Some out => get_env (browser_answer (browser out) name) | None => None end.

(** The name asked for in capitals: nothing on the server, the value in the browser. *)
Theorem C93_case_refuted : exists l name, get_env (server_answer (collect l) name) = None /\ in_browser (collect l) name = Some (str "1").
Proof. exists [(str "api", str "1")], (str "API"). split; vm_compute; reflexivity. Qed.
(** Two settings that differ in case: what the browser is given depends on the order of the map, which changes from one start of the server to the next. *)
Theorem C93_order_refuted : exists l env name, Permutation (collect l) env /\ in_browser (collect l) name <> in_browser env name /\
  in_browser env name <> get_env (server_answer (collect l) name).
Proof.
  exists [(str "api", str "1"); (str "API", str "2")], [(str "API", str "2"); (str "api", str "1")], (str "api").
  split; [apply perm_swap|]. split; vm_compute; discriminate.
Qed.
(** A value with a carriage return reaches the browser with a newline. *)
Theorem C93_newline_refuted : exists l name, get_env (server_answer (collect l) name) = Some [97; 13; 98]%N /\ in_browser (collect l) name = Some [97; 10; 98]%N.
Proof. exists [(str "t", [97; 13; 98]%N)], (str "t"). split; vm_compute; reflexivity. Qed.
(** A name with a space is not an attribute name: the browser has no such setting. *)
Theorem C93_name_refuted : exists l name, get_env (server_answer (collect l) name) = Some (str "1") /\ in_browser (collect l) name = None.
Proof. exists [(str "my key", str "1")], (str "my key"). split; vm_compute; reflexivity. Qed.

(** ** Cases *)
Example C93_argument_example : parse_key_val (str "url=http://h/?a=1&b=") = Some (str "url", str "http://h/?a=1&b=") /\ parse_key_val (str "url") = None.
Proof. vm_compute. auto. Qed.
Example C93_server_example : let l := [(str "api", str "1"); (str "mode", str "dev"); (str "api", str "2")] in
  get_env (server_answer (collect l) (str "api")) = Some (str "2") /\ get_env (server_answer (collect l) (str "other")) = None.
Proof. vm_compute. auto. Qed.
(** The premises of the theorem are met by a value with quotes and markup, in the other order of the map. *)
Example C93_same_example : let l := [(str "Api", str "old"); (str "mode", str """><script>&amp;"); (str "Api", str "a""b<c")] in
  let env := rev (collect l) in let name := str "Api" in
  let shown := html_tree (with_env [(str "lang", str "en")] env) [] [] (map style_of [] ++ [] ++ [starter (str "/a.wasm") (str "/a.js")]) [] in
  Permutation (collect l) env /\ renderable shown /\ plain shown /\ (forall k, In k (map fst l) -> lower k = lower name -> k = name) /\
  (forall n v, In (n, v) [(str "lang", str "en")] -> lower n <> lower (str "data-env-" ++ name)) /\
  in_browser env name = Some (str "a""b<c") /\ get_env (server_answer (collect l) name) = Some (str "a""b<c") /\ in_browser env (str "mode") = Some (str """><script>&amp;").
Proof.
  split; [apply Permutation_rev|]. split; [|split; [|split; [|split; [|split; [|split]]]]].
  - cbn. repeat split; try (intros; discriminate); auto; repeat constructor; try discriminate; try (left; reflexivity); try (right; reflexivity).
  - cbn. repeat split; try (intros; discriminate); auto.
  - intros k [<-|[<-|[<-|[]]]]; auto. vm_compute. discriminate.
  - intros n v [H|[]]. injection H as <- <-. vm_compute. discriminate.
  - vm_compute. reflexivity.
  - vm_compute. reflexivity.
  - vm_compute. reflexivity.
Qed.
