(** The proxies of the server: specification and theorems (C95). *)
From Coq Require Import String List NArith Bool Lia Permutation.
From Verif Require Import CodecModel CodecUtf8 CodecSpec CodecProofs JsonModel DomWire BridgeModel JsonTextModel JsonTextSpec JsonTextProofs JsonTextProps ProxyModel.
Import ListNotations.
Local Open Scope string_scope.
Local Open Scope list_scope.
Local Open Scope N_scope.

(** ** Specification *)

(** The path [p] is [path] or below it. *)
Definition below (path p rest : bytes) : Prop := p = path ++ rest /\ (rest = [] \/ exists t, rest = 47 :: t).
(** The server can start: no path is given twice. *)
Definition distinct (mount : bytes) (proxies : list (bytes * bytes)) : Prop := NoDup (mount :: map fst proxies).
(** [p] belongs to the proxy for [target]: it is below its path, and below no longer path. *)
Definition belongs (mount : bytes) (proxies : list (bytes * bytes)) (p target rest : bytes) : Prop :=
  exists path, In (path, target) proxies /\ below path p rest /\
    forall path' rest', In path' (mount :: map fst proxies) -> below path' p rest' -> (length path' <= length path)%nat.
(** The URL at the target: the rest of the path, which begins with `/`, and the query are appended. *)
Definition url_at (target rest : bytes) (query : option bytes) : bytes :=
  target ++ match rest with [] => [47] | _ => rest end ++ match query with Some q => 63 :: q | None => [] end.
(** The answer of the target comes back as it is; that there is none is told with status 500. *)
Definition relayed (a : answer) (r : response) : Prop :=
  match a with Answer r' => r = r' | SendError _ | BodyError _ => p_status r = 500 end.

(** The request says that its body is JSON: the first content-type is application/json, perhaps with parameters. *)
Definition says_json (hs : list (bytes * bytes)) : Prop :=
  exists l1 v l2 r, hs = l1 ++ (str "content-type", v) :: l2 /\ ~ In (str "content-type") (map fst l1) /\
    v = str "application/json" ++ r /\ (r = [] \/ exists t, r = 59 :: t).
(** The largest body axum takes (2 MB). *)
Definition fits (body : bytes) : Prop := N.of_nat (length body) <= 2097152.

Lemma find_type l1 v l2 : ~ In (str "content-type") (map fst l1) ->
  find (fun e : bytes * bytes => bytes_eqb (fst e) (str "content-type")) (l1 ++ (str "content-type", v) :: l2) = Some (str "content-type", v).
Proof.
  induction l1 as [|[k x] l1 IH]; intros H; [reflexivity|]. cbn [app find fst map] in *.
  destruct (bytes_eqb_spec k (str "content-type")) as [->|E]; [exfalso; apply H; left; auto|]. apply IH. intros X. apply H. right; auto.
Qed.
Lemma says_type hs : says_json hs -> json_type hs = true.
Proof.
  intros (l1 & v & l2 & r & -> & Hn & -> & R). unfold json_type. rewrite find_type by auto.
  assert (E : essence (str "application/json" ++ r) = str "application/json") by (destruct R as [->|[t ->]]; reflexivity).
  rewrite E. reflexivity.
Qed.
Lemma no_type hs : ~ In (str "content-type") (map fst hs) -> json_type hs = false.
Proof.
  intros H. unfold json_type. destruct (find _ hs) as [[k v]|] eqn:E; auto. apply List.find_some in E. destruct E as [I E]. cbn [fst] in E.
  destruct (bytes_eqb_spec k (str "content-type")) as [->|X]; [|discriminate]. exfalso. apply H. apply (in_map fst) in I. exact I.
Qed.
Lemma fits_limit b : fits b -> (length b <= limit)%nat.
Proof. unfold fits, limit. lia. Qed.

(** ** Routing *)
Lemma without_iff a : forall p r, without a p = Some r <-> p = a ++ r.
Proof.
  induction a as [|x a IH]; intros p r; cbn.
  - split; [intros [= ->]|intros ->]; auto.
  - destruct p as [|y p]; [split; discriminate|]. destruct (N.eqb_spec x y) as [->|Ne].
    + rewrite IH. split; [intros ->|intros [= ->]]; auto.
    + split; [discriminate|intros [= -> _]; contradiction].
Qed.
Lemma nested_iff path p r : nested path p = Some r <-> exists rest, below path p rest /\ r = match rest with [] => [47] | _ => rest end.
Proof.
  unfold nested, below. destruct (without path p) as [rest|] eqn:W.
  - apply without_iff in W. subst. split.
    + intros H. exists rest. destruct rest as [|c t]. injection H as <-. auto. destruct (N.eqb_spec c 47) as [->|Nc].
      * injection H as <-. split; [split; [auto|right; eauto]|auto].
      * exfalso. revert H. destruct c as [|c]; [discriminate|]. repeat (destruct c as [c|c|]; try discriminate). contradiction.
    + intros (rest' & (E & H) & ->). apply app_inv_head in E. subst rest'. destruct H as [->|[t ->]]; auto.
  - split; [discriminate|]. intros (rest & (-> & _) & _). rewrite (proj2 (without_iff _ _ _) eq_refl) in W. discriminate.
Qed.
Lemma pick_keep {A} (routes : list (bytes * A)) p : forall n (a : A) r, (forall q b, In (q, b) routes -> nested q p <> None -> (length q <= n)%nat) ->
  pick routes p (Some (n, a, r)) = Some (n, a, r).
Proof.
  induction routes as [|[q b] routes IH]; intros n a r H; cbn [pick]; auto. destruct (nested q p) as [rest|] eqn:Nq.
  - assert (L : (length q <= n)%nat). { apply (H q b). left; auto. rewrite Nq. discriminate. }
    replace (Nat.ltb n (length q)) with false by (symmetry; apply PeanoNat.Nat.ltb_ge; auto). apply IH. intros q' b' X. apply (H q' b'). right; auto.
  - apply IH. intros q' b' X. apply (H q' b'). right; auto.
Qed.
Lemma pick_best {A} (routes : list (bytes * A)) p path a r : nested path p = Some r -> NoDup (map fst routes) -> In (path, a) routes ->
  (forall q b, In (q, b) routes -> nested q p <> None -> (length q <= length path)%nat) ->
  forall best, match best with None => True | Some (n, _, _) => (n < length path)%nat end -> pick routes p best = Some (length path, a, r).
Proof.
  intros Np. induction routes as [|[q b] routes IH]; intros ND H M best B; [destruct H|]. cbn [map fst] in ND. inversion ND as [|? ? N1 N2]; subst. cbn [pick].
  assert (M1 : forall q b, In (q, b) routes -> nested q p <> None -> (length q <= length path)%nat). { intros q' b' X. apply (M q' b'). right; auto. }
  destruct H as [H|H].
  - injection H as -> ->. rewrite Np. assert (E : match best with Some (n, _, _) => if Nat.ltb n (length path) then Some (length path, a, r) else best | None => Some (length path, a, r) end =
      Some (length path, a, r)). { destruct best as [[[n ?] ?]|]; auto. rewrite (proj2 (PeanoNat.Nat.ltb_lt _ _) B). auto. }
    rewrite E. apply pick_keep. auto.
  - apply IH; auto. destruct (nested q p) as [rest|] eqn:Nq; auto.
    assert (Lq : (length q < length path)%nat).
    { assert (L : (length q <= length path)%nat). { apply (M q b). left; auto. rewrite Nq. discriminate. }
      apply nested_iff in Nq. destruct Nq as (r1 & (E1 & _) & _). apply nested_iff in Np. destruct Np as (r2 & (E2 & _) & _).
      assert (Nl : length q <> length path). { intros El. assert (q = path). { rewrite E1 in E2. clear -E2 El. revert path r1 r2 E2 El. induction q as [|x q IH]; intros [|y path] r1 r2 E2 El; cbn in *; try lia; auto.
        injection E2 as -> E2. f_equal. eapply IH; eauto. }
        subst q. apply N1. apply (in_map fst) in H. auto. }
      lia. }
    destruct best as [[[n x] y]|]; auto. destruct (Nat.ltb n (length q)); auto.
Qed.
Lemma pick_none {A} (routes : list (bytes * A)) p : (forall q b, In (q, b) routes -> nested q p = None) -> forall best, pick routes p best = best.
Proof.
  induction routes as [|[q b] routes IH]; intros H best; cbn [pick]; auto. rewrite (H q b) by (left; auto). apply IH. intros q' b' X. apply (H q' b'). right; auto.
Qed.
Lemma route_proxy mount proxies p target rest : distinct mount proxies -> belongs mount proxies p target rest ->
  route mount proxies p = Proxy target (match rest with [] => [47] | _ => rest end).
Proof.
  intros ND (path & I1 & B & M). unfold route.
  rewrite (pick_best ((mount, None) :: map (fun e => (fst e, Some (snd e))) proxies) p path (Some target) (match rest with [] => [47] | _ => rest end)); auto.
  - apply nested_iff. eauto.
  - cbn [map fst]. rewrite map_map. exact ND.
  - right. apply in_map_iff. exists (path, target). auto.
  - intros q b X Nq. destruct (nested q p) as [r|] eqn:E; [|contradiction]. apply nested_iff in E. destruct E as (rest' & E & _). apply (M q rest'); auto.
    destruct X as [X|X]; [injection X as -> _; left; auto|right]. apply in_map_iff in X. destruct X as (e & Ee & X). injection Ee as <- _. apply in_map. auto.
Qed.

(** ** JSON bodies *)
Section Bodies.
  Variable num : bytes -> N -> Prop.
  Local Notation Q := (fun n => exists x, a_number x /\ num x n).
  Lemma assoc_in {A} (k : bytes) (j : A) m : forall e, In e (assoc_insert k j m) -> e = (k, j) \/ In e m.
  Proof.
    induction m as [|[k1 j1] m IH]; intros e H; cbn in *; [intuition|]. destruct (bytes_eqb k k1); cbn in *. intuition.
    destruct H as [H|H]; auto. apply IH in H. tauto.
  Qed.
  Lemma assoc_distinct {A} (k : bytes) (j : A) m : NoDup (map fst m) -> NoDup (map fst (assoc_insert k j m)).
  Proof.
    induction m as [|[k1 j1] m IH]; intros ND; cbn; [repeat constructor; auto|]. cbn in ND. inversion ND as [|? ? N1 N2]; subst.
    destruct (CodecProofs.bytes_eqb_spec k k1) as [->|Nk]; cbn; [constructor; auto|]. constructor; auto. intros X. apply in_map_iff in X. destruct X as (e & Ee & X).
    apply assoc_in in X. destruct X as [->|X]; [cbn in Ee; congruence|]. apply N1. rewrite <- Ee. apply in_map. auto.
  Qed.
  Lemma hash_ok {A} (l : list (bytes * A)) : NoDup (map fst (hash_from l)) /\ incl (hash_from l) l.
  Proof.
    unfold hash_from. assert (G : forall (l : list (bytes * A)) acc, NoDup (map fst acc) -> NoDup (map fst (fold_left (fun m e => assoc_insert (fst e) (snd e) m) l acc)) /\
      incl (fold_left (fun m e => assoc_insert (fst e) (snd e) m) l acc) (acc ++ l)).
    { clear l. induction l as [|[k v] l IH]; intros acc ND; cbn [fold_left]. rewrite app_nil_r. split; [auto|apply incl_refl].
      destruct (IH _ (assoc_distinct k v acc ND)) as [U1 U2]. split; auto. intros e He. apply U2 in He. apply in_app_or in He. apply in_or_app. cbn.
      destruct He as [He|He]; auto. apply assoc_in in He. destruct He as [->|He]; auto. }
    destruct (G l [] ltac:(constructor)) as [U1 U2]. auto.
  Qed.
  Lemma depth_le_list l n : Forall (fun x => (depth x <= n)%nat) l -> (fold_right (fun x n => Nat.max (depth x) n) O l <= n)%nat.
  Proof. induction 1; cbn; lia. Qed.
  Lemma depth_le_map (l : list (bytes * json)) n : Forall (fun x => (depth (snd x) <= n)%nat) l -> (fold_right (fun x n => Nat.max (depth (snd x)) n) O l <= n)%nat.
  Proof. induction 1; cbn; lia. Qed.
  (** What is read is well formed. *)
  Lemma den_parts :
    (forall d t j, den false utf8 num d t j -> parts utf8 Q j /\ within d j) /\
    (forall d t l, elems false utf8 num d t l -> Forall (fun j => parts utf8 Q j /\ within d j) l) /\
    (forall d t l, membs false utf8 num d t l -> Forall (fun e => utf8 (fst e) /\ parts utf8 Q (snd e) /\ within d (snd e)) l).
  Proof.
    assert (LO : forall d d' : option nat, deeper d d' -> within d (JList []) /\ within d (JObject [])). { intros d d' [|n]; cbn; split; auto; lia. }
    apply (den_all false utf8 num (fun d t j => parts utf8 Q j /\ within d j) (fun d t l => Forall (fun j => parts utf8 Q j /\ within d j) l)
      (fun d t l => Forall (fun e => utf8 (fst e) /\ parts utf8 Q (snd e) /\ within d (snd e)) l)).
    - intros [d|]; cbn; split; auto; lia.
    - intros [d|]; cbn; split; auto; lia.
    - intros [d|]; cbn; split; auto; lia.
    - intros [d|] x s _ U; cbn; split; auto; lia.
    - intros [d|] x n A1 A2; cbn; split; eauto; lia.
    - intros d d' w D _. split; [cbn; auto|apply (LO d d' D)].
    - intros d d' w t l D _ _ F. split.
      + cbn [parts]. apply all_Forall. eapply Forall_impl; [|exact F]. cbn. tauto.
      + destruct D as [|n]; cbn [within]; auto. cbn [depth]. apply le_n_S, depth_le_list. eapply Forall_impl; [|exact F]. cbn. tauto.
    - intros d d' w D _. split; [cbn; split; auto; constructor|apply (LO d d' D)].
    - intros d d' w t l D _ _ F. destruct (hash_ok l) as [U1 U2].
      assert (F' : Forall (fun e => utf8 (fst e) /\ parts utf8 Q (snd e) /\ within d' (snd e)) (hash_from l)). { rewrite Forall_forall in *. auto. }
      split.
      + cbn [parts]. split; auto. apply all_Forall. eapply Forall_impl; [|exact F']. cbn. tauto.
      + destruct D as [|n]; cbn [within]; auto. cbn [depth]. apply le_n_S, depth_le_map. eapply Forall_impl; [|exact F']. cbn. tauto.
    - intros d t w j _ H _. constructor; auto.
    - intros d t w1 w2 j r l _ H _ _ _ F. constructor; auto.
    - intros d x k w1 w2 t j w3 _ U _ _ _ H _. constructor; auto. 
    - intros d x k w1 w2 t j w3 w4 r l _ U _ _ _ H _ _ _ F. constructor; auto.
  Qed.
End Bodies.

(** Putting objects in order changes nothing but the order. *)
Lemma ordered_alike (P : bytes -> Prop) (Q : N -> Prop) j : parts P Q j -> alike j (ordered j) /\ parts P Q (ordered j) /\ depth (ordered j) = depth j.
Proof.
  induction j as [| | |s|n|l IH|m IH] using CodecProofs.json_ind2; intro H; cbn [ordered]; try (split; [constructor|split; [exact H|reflexivity]]; fail).
  - cbn [parts] in H. rewrite all_Forall in H.
    assert (F : Forall2 (fun a b => alike a b /\ parts P Q b /\ depth b = depth a) l (map ordered l)).
    { clear -IH H. induction l; cbn; constructor; inversion IH; inversion H; subst; auto. }
    repeat split.
    + constructor. clear -F. induction F as [|? ? ? ? (?&_)]; constructor; auto.
    + cbn [parts]. rewrite all_Forall. clear -F. induction F as [|? ? ? ? (_&?&_)]; constructor; auto.
    + cbn [depth]. f_equal. apply depth_alike_list. clear -F. induction F as [|? ? ? ? (_&_&?)]; constructor; auto.
  - cbn [parts] in H. destruct H as [ND H]. rewrite all_Forall in H. set (r := map (fun e => (fst e, ordered (snd e))) m).
    assert (F : Forall2 (fun a b : bytes * json => fst b = fst a /\ P (fst b) /\ alike (snd a) (snd b) /\ parts P Q (snd b) /\ depth (snd b) = depth (snd a)) m r).
    { subst r. clear -IH H. induction m as [|e m IHm]; cbn; constructor; inversion IH; inversion H; subst; auto. cbn. destruct H6 as [K1 K2]. destruct (H2 K2) as (Y1 & Y2 & Y3). auto. }
    pose proof (sort_perm r) as SP.
    assert (FS : map fst r = map fst m). { clear -F. induction F as [|? ? ? ? (?&_)]; cbn; congruence. }
    destruct (Forall2_in _ _ _ F) as [I J]. repeat split.
    + constructor.
      * intros k a X. destruct (I _ X) as ([k' b] & Y & K & _ & AL & _). cbn in *. subst k'. exists b. split; auto.
        eapply Permutation_in; [symmetry; exact SP|auto].
      * intros k b X. apply (Permutation_in _ SP) in X. destruct (J _ X) as ([k' a] & Y & K & _ & AL & _). cbn in *. subst k'. eauto.
    + cbn [parts]. eapply Permutation_NoDup; [symmetry; apply Permutation_map, SP|]. rewrite FS. auto.
    + rewrite all_Forall. rewrite Forall_forall. intros e X. apply (Permutation_in _ SP) in X. destruct (J _ X) as (a & _ & _ & K & _ & L & _). auto.
    + cbn [depth]. f_equal. rewrite (depth_perm _ _ SP). clear -F. induction F as [|? ? ? ? (_&_&_&_&?)]; cbn; congruence.
Qed.
(** It does not change the length of the text. *)
Definition total (l : list bytes) : nat := fold_right (fun x n => (length x + n)%nat) O l.
Lemma commas_length l : length (commas l) = (total l + (length l - 1))%nat.
Proof.
  induction l as [|x [|y l] IH]; auto. cbn. lia. change (commas (x :: y :: l)) with (x ++ 44 :: commas (y :: l)). rewrite app_length. cbn [length]. rewrite IH. cbn. lia.
Qed.
Lemma total_perm a b : Permutation a b -> total a = total b.
Proof. unfold total. induction 1; cbn in *; lia. Qed.
Lemma ordered_length number j : length (serde_text number (ordered j)) = length (serde_text number j).
Proof.
  induction j as [| | |s|n|l IH|m IH] using CodecProofs.json_ind2; cbn [ordered serde_text]; auto.
  - cbn [length]. rewrite !app_length, !commas_length, !map_length. do 2 f_equal. f_equal. clear -IH. induction l; cbn; auto. inversion IH; subst. f_equal; auto.
  - cbn [length]. rewrite !app_length, !commas_length. rewrite !map_length. set (f := fun e : bytes * json => quote (fst e) ++ 58 :: serde_text number (snd e)).
    set (r := map (fun e => (fst e, ordered (snd e))) m). pose proof (sort_perm r) as SP. rewrite (Permutation_length SP). subst r. rewrite map_length.
    rewrite (total_perm _ _ (Permutation_map f SP)), map_map.
    assert (G : total (map (fun x => f (fst x, ordered (snd x))) m) = total (map f m)); [|rewrite G; reflexivity].
    clear -IH. induction m as [|e m IHm]; auto. inversion IH as [|? ? H1 H2]; subst. unfold total in *. cbn [map fold_right]. rewrite (IHm H2). f_equal.
    unfold f. cbn [fst snd]. rewrite !app_length. cbn [length]. rewrite H1. reflexivity.
Qed.

(** ** C95 *)
Section Theorems.
  Variable read_number : bytes -> option N.
  Variable write_number : N -> bytes.
  Variable send : outgoing -> answer.
  Variable mount : bytes.
  Variable proxies : list (bytes * bytes).
  Variable other : handler_of -> request -> response.
  Local Notation serve := (serve read_number write_number send mount proxies other).

  (** Full statement: a request below the path of a proxy is sent to its target with the same method, headers and body, the rest of the path and the query appended
      to the URL of the target, and its answer comes back.  Missing: for GET and HEAD the headers; see the refutations.

      A GET or HEAD request is sent once, as GET, to the right URL, and the answer comes back (for HEAD without the body). *)
  Theorem C95_get_partial q target rest : distinct mount proxies -> belongs mount proxies (q_path q) target rest ->
    q_method q = str "GET" \/ q_method q = str "HEAD" ->
    exists o, fst (serve q) = [o] /\ o_method o = str "GET" /\ o_url o = url_at target rest (q_query q) /\ o_body o = None /\
      (q_method q = str "GET" -> relayed (send o) (snd (serve q))) /\
      (q_method q = str "HEAD" -> exists r, relayed (send o) r /\ snd (serve q) = Response (p_status r) (p_headers r) []).
  Proof.
    intros D B M. unfold ProxyModel.serve. rewrite (route_proxy _ _ _ _ _ D B).
    set (uri := show_uri match rest with [] => [47] | _ => rest end (q_query q)). exists (get_out target uri).
    assert (RL : forall url a, relayed a (pass_on url a)). { intros url [r| |]; cbn; auto. }
    unfold proxy. destruct M as [-> | ->]; cbn [bytes_eqb fst snd].
    - change (bytes_eqb (str "GET") (str "GET")) with true. cbn [fst snd]. split; [auto|]. split; [auto|]. split; [reflexivity|]. split; [auto|]. split; [intros _; apply RL|intros X; discriminate X].
    - change (bytes_eqb (str "HEAD") (str "GET")) with false. change (bytes_eqb (str "HEAD") (str "HEAD")) with true. cbn [fst snd].
      split; [auto|]. split; [auto|]. split; [reflexivity|]. split; [auto|]. split; [intros X; discriminate X|]. intros _. eexists. split; [apply RL|reflexivity].
  Qed.

  (** Full statement as above.  Missing: bodies that are not JSON, and the bytes of those that are.

      A POST request with a JSON body is sent once, as POST, to the right URL, with its headers and a JSON text that means the same (up to the order of the
      entries of objects); the answer comes back.  Numbers have to be written by serde_json as it reads them. *)
  Theorem C95_post_partial q target rest j : distinct mount proxies -> belongs mount proxies (q_path q) target rest ->
    q_method q = str "POST" -> says_json (q_headers q) -> fits (q_body q) ->
    serde_parse read_number (q_body q) = Some j ->
    (forall x n, read_number x = Some n -> a_number (write_number n) /\ read_number (write_number n) = Some n) ->
    exists o b j', fst (serve q) = [o] /\ o_method o = str "POST" /\ o_url o = url_at target rest (q_query q) /\ o_headers o = q_headers q /\
      o_body o = Some b /\ alike j j' /\ text_of false utf8 (fun x n => read_number x = Some n) (Some 127%nat) b j' /\ serde_parse read_number b = Some j' /\
      relayed (send o) (snd (serve q)).
  Proof.
    intros D B M T Lm Ps Nm. apply says_type in T. apply fits_limit in Lm. unfold ProxyModel.serve. rewrite (route_proxy _ _ _ _ _ D B).
    set (uri := show_uri match rest with [] => [47] | _ => rest end (q_query q)). exists (post_out write_number target uri (q_headers q) j), (serde_text write_number (ordered j)), (ordered j).
    assert (RL : forall url a, relayed a (pass_on url a)). { intros url [r| |]; cbn; auto. }
    unfold proxy. rewrite M. change (bytes_eqb (str "POST") (str "GET")) with false. change (bytes_eqb (str "POST") (str "HEAD")) with false. change (bytes_eqb (str "POST") (str "POST")) with true.
    unfold json_body. rewrite T. cbn [negb]. replace (Nat.ltb limit (length (q_body q))) with false by (symmetry; apply PeanoNat.Nat.ltb_ge; auto). rewrite Ps. cbn [fst snd].
    split; [auto|]. split; [auto|]. split; [reflexivity|]. split; [auto|]. split; [auto|].
    pose proof Ps as Ps1. apply serde_text_of in Ps. destruct Ps as (w1 & t & w2 & _ & _ & _ & Dn). apply den_parts in Dn. destruct Dn as [Pt Wt].
    assert (Pw : parts utf8 (written_number write_number (fun x n => read_number x = Some n)) j).
    { revert Pt. apply parts_weaken; auto. intros n (x & _ & X). destruct (Nm x n X). split; auto. }
    destruct (ordered_alike _ _ _ Pw) as (U1 & U2 & U3).
    assert (TX : text_of false utf8 (fun x n => read_number x = Some n) (Some 127%nat) (serde_text write_number (ordered j)) (ordered j)).
    { exists [], (serde_text write_number (ordered j)), []. rewrite app_nil_r. split; [auto|]. split; [constructor|]. split; [constructor|]. apply serde_den; auto. cbn [within] in *. lia. }
    split; [auto|]. split; [auto|]. split; [apply serde_text_of; auto|]. apply RL.
  Qed.

  (** A JSON text without white space, with the escapes and numbers as serde_json writes them, keys in any order, is sent on with the same length: then a
      content-length header that was right stays right. *)
  Theorem C95_length q target rest j : distinct mount proxies -> belongs mount proxies (q_path q) target rest ->
    q_method q = str "POST" -> says_json (q_headers q) -> fits (q_body q) ->
    q_body q = serde_text write_number j -> parts utf8 (fun n => a_number (write_number n) /\ read_number (write_number n) = Some n) j -> (depth j <= 127)%nat ->
    exists o b, fst (serve q) = [o] /\ o_body o = Some b /\ length b = length (q_body q).
  Proof.
    intros D B M T Lm Eb Pt Dp. apply says_type in T. apply fits_limit in Lm. unfold ProxyModel.serve. rewrite (route_proxy _ _ _ _ _ D B).
    set (uri := show_uri match rest with [] => [47] | _ => rest end (q_query q)). exists (post_out write_number target uri (q_headers q) j), (serde_text write_number (ordered j)).
    assert (Ps : serde_parse read_number (q_body q) = Some j).
    { apply serde_text_of. rewrite Eb. exists [], (serde_text write_number j), []. rewrite app_nil_r. split; [auto|]. split; [constructor|]. split; [constructor|]. apply serde_den; auto. }
    unfold proxy. rewrite M. change (bytes_eqb (str "POST") (str "GET")) with false. change (bytes_eqb (str "POST") (str "HEAD")) with false. change (bytes_eqb (str "POST") (str "POST")) with true.
    unfold json_body. rewrite T. cbn [negb]. replace (Nat.ltb limit (length (q_body q))) with false by (symmetry; apply PeanoNat.Nat.ltb_ge; auto). rewrite Ps. cbn [fst snd].
    split; [auto|]. split; [auto|]. rewrite Eb. apply ordered_length.
  Qed.

  (** A POST request that does not say what its body is, or whose body is no JSON, is refused and not sent anywhere. *)
  Theorem C95_refused q target rest : distinct mount proxies -> belongs mount proxies (q_path q) target rest -> q_method q = str "POST" ->
    ~ In (str "content-type") (map fst (q_headers q)) \/ (forall j, ~ text_of false utf8 (fun x n => read_number x = Some n) (Some 127%nat) (q_body q) j) ->
    fst (serve q) = [] /\ 400 <= p_status (snd (serve q)) < 500.
  Proof.
    intros D B M H. unfold ProxyModel.serve. rewrite (route_proxy _ _ _ _ _ D B).
    unfold proxy. rewrite M. change (bytes_eqb (str "POST") (str "GET")) with false. change (bytes_eqb (str "POST") (str "HEAD")) with false. change (bytes_eqb (str "POST") (str "POST")) with true.
    unfold json_body. destruct (json_type (q_headers q)) eqn:T; cbn [negb]; [|cbn; split; [auto|lia]].
    destruct (Nat.ltb limit (length (q_body q))); [cbn; split; [auto|lia]|].
    destruct (serde_parse read_number (q_body q)) as [j|] eqn:Ps; [|cbn; split; [auto|lia]].
    exfalso. destruct H as [H|H]; [rewrite (no_type _ H) in T; discriminate|]. apply serde_text_of in Ps. apply (H j). exact Ps.
  Qed.

  (** What is not below the path of a proxy is not sent anywhere. *)
  Theorem C95_elsewhere q : (forall path target rest, In (path, target) proxies -> ~ below path (q_path q) rest) -> fst (serve q) = [].
  Proof.
    intros H. unfold ProxyModel.serve, route. destruct (pick _ (q_path q) None) as [[[n [target|]] r]|] eqn:E; auto. exfalso.
    cbn [pick] in E. rewrite (pick_none (map (fun e => (fst e, Some (snd e))) proxies)) in E.
    - destruct (nested mount (q_path q)); discriminate.
    - intros p b X. apply in_map_iff in X. destruct X as ([p' t'] & Ee & X). injection Ee as <- <-. cbn. destruct (nested p' (q_path q)) as [r'|] eqn:Nq; auto.
      apply nested_iff in Nq. destruct Nq as (rest & Bl & _). exfalso. eapply H; eauto.
  Qed.
End Theorems.

(** ** Examples and refutations *)
Module ProxyDemo.
  Definition read (x : bytes) : option N := if bytes_eqb x (str "1") then Some 1 else None.
  Definition write (n : N) : bytes := str "1".
  Definition ok : response := Response 200 [(str "x", str "y")] (str "hello").
  Definition send (o : outgoing) : answer := Answer ok.
  Definition mount : bytes := str "/build".
  Definition proxies : list (bytes * bytes) := [(str "/api", str "http://t/base"); (str "/api/v2", str "http://u")].
  Definition other (h : handler_of) (q : request) : response := Response 404 [] [].
  Definition serve := serve read write send mount proxies other.
  Definition get (p : string) := Request (str "GET") (str p) (Some (str "a=1")) [(str "cookie", str "k=v")] [].
  Definition post (type len body : string) :=
    Request (str "POST") (str "/api/x") None [(str "content-type", str type); (str "content-length", str len)] (str body).
End ProxyDemo.
Import ProxyDemo.

Lemma demo_distinct : distinct mount proxies.
Proof. repeat constructor; cbn; intros H; repeat (destruct H as [H|H]; try (vm_compute in H; discriminate)); auto. Qed.
(** A path that is below no other. *)
Lemma demo_belongs path target rest p : In (path, target) proxies -> nested path p <> None -> below path p rest ->
  Forall (fun q => nested q p = None \/ (length q <= length path)%nat) (mount :: map fst proxies) -> belongs mount proxies p target rest.
Proof.
  intros I1 _ B F. exists path. split; auto. split; auto. intros q r Iq Bq. rewrite Forall_forall in F. destruct (F q Iq) as [X|X]; auto.
  assert (nested q p <> None); [|congruence]. intros Y. assert (Z : nested q p = Some match r with [] => [47] | _ => r end) by (apply nested_iff; eauto). congruence.
Qed.
Ltac belongs_tac path := eapply (demo_belongs (str path)); [cbn; auto|vm_compute; discriminate|split; [vm_compute; reflexivity|first [left; reflexivity|right; eexists; reflexivity]]|
  repeat constructor; try (left; vm_compute; reflexivity); right; vm_compute; repeat constructor].
Example C95_get_example : distinct mount proxies /\ belongs mount proxies (str "/api/x/y") (str "http://t/base") (str "/x/y") /\
  belongs mount proxies (str "/api/v2/z") (str "http://u") (str "/z") /\
  serve (get "/api/x/y") = ([Outgoing (str "GET") (str "http://t/base/x/y?a=1") [] None], ok) /\ serve (get "/apix") = ([], Response 404 [] []).
Proof.
  split; [exact demo_distinct|]. split; [belongs_tac "/api"|]. split; [belongs_tac "/api/v2"|]. split; vm_compute; reflexivity.
Qed.
Definition demo_json : json := JObject [(str "b", JNumber 1); (str "a", JList [JTrue; JString (str "q")])].
Lemma demo_numbers : forall x n, read x = Some n -> a_number (write n) /\ read (write n) = Some n.
Proof.
  intros x n H. split.
  - exists [], (str "1"), [], []. split; auto. split; auto. split; [right|auto]. split; [split; [discriminate|repeat constructor; vm_compute; discriminate]|vm_compute; discriminate].
  - unfold read in *. destruct (bytes_eqb x (str "1")); [injection H as <-|discriminate]. reflexivity.
Qed.
Definition demo_body : bytes := str "{ ""b"" : 1, ""a"":[true , ""q""] }".
Example C95_post_example : let q := Request (str "POST") (str "/api/x") None [(str "content-type", str "application/json; charset=utf-8")] demo_body in
  belongs mount proxies (q_path q) (str "http://t/base") (str "/x") /\ says_json (q_headers q) /\ fits (q_body q) /\
  serde_parse read (q_body q) = Some demo_json /\ (forall x n, read x = Some n -> a_number (write n) /\ read (write n) = Some n) /\
  map o_body (fst (serve q)) = [Some (str "{""a"":[true,""q""],""b"":1}")].
Proof.
  cbn zeta. split; [belongs_tac "/api"|]. split; [exists [], (str "application/json; charset=utf-8"), [], (str "; charset=utf-8"); split; [reflexivity|split; [intros []|split; [reflexivity|right; eexists; reflexivity]]]|].
  split; [vm_compute; discriminate|]. split; [vm_compute; reflexivity|]. split; [exact demo_numbers|vm_compute; reflexivity].
Qed.
Example C95_refused_example : serve (post "application/json" "3" "{1}") = ([], text_response 400 []) /\
  serve (Request (str "POST") (str "/api/x") None [] (str "1")) = ([], text_response 415 []).
Proof. split; vm_compute; reflexivity. Qed.
Example C95_length_example : let b := str "{""b"":1,""a"":[true,""q""]}" in
  serde_text write demo_json = b /\ parts utf8 (fun n => a_number (write n) /\ read (write n) = Some n) demo_json /\ (depth demo_json <= 127)%nat /\
  map o_body (fst (serve (post "application/json" "24" "{""b"":1,""a"":[true,""q""]}"))) = [Some (str "{""a"":[true,""q""],""b"":1}")].
Proof.
  cbn zeta. split; [reflexivity|]. split; [|split; [cbn; lia|vm_compute; reflexivity]].
  assert (X : a_number (write 1) /\ read (write 1) = Some 1) by (apply (demo_numbers (str "1")); reflexivity).
  cbn [parts demo_json all fst snd map]. split; [|split; [split; [reflexivity|exact X]|split; [split; [reflexivity|cbn; repeat split; reflexivity]|exact Logic.I]]].
  repeat constructor; cbn; intros H; repeat (destruct H as [H|H]; try (vm_compute in H; discriminate)); auto.
Qed.

(** The headers of a GET request (cookies, authorization, accept) do not reach the target. *)
Theorem C95_headers_refuted : exists q o, belongs mount proxies (q_path q) (str "http://t/base") (str "/x") /\ fst (serve q) = [o] /\
  In (str "cookie", str "k=v") (q_headers q) /\ o_headers o = [].
Proof. exists (get "/api/x"). eexists. split; [belongs_tac "/api"|]. split; [vm_compute; reflexivity|]. split; [left; reflexivity|reflexivity]. Qed.
(** With white space in the JSON text, the content-length header that is sent on is not the length of the body that is sent on. *)
Theorem C95_length_refuted : exists q o b, belongs mount proxies (q_path q) (str "http://t/base") (str "/x") /\ fst (serve q) = [o] /\
  In (str "content-length", str "10") (q_headers q) /\ length (q_body q) = 10%nat /\
  In (str "content-length", str "10") (o_headers o) /\ o_body o = Some b /\ length b = 7%nat.
Proof.
  exists (post "application/json" "10" "{ ""a"": 1 }"). do 2 eexists. split; [belongs_tac "/api"|]. split; [vm_compute; reflexivity|]. split; [right; left; reflexivity|]. split; [reflexivity|].
  split; [right; left; reflexivity|]. split; [reflexivity|reflexivity].
Qed.
(** A form is not sent on. *)
Theorem C95_form_refuted : exists q, belongs mount proxies (q_path q) (str "http://t/base") (str "/x") /\ q_method q = str "POST" /\
  fst (serve q) = [] /\ p_status (snd (serve q)) = 415.
Proof. exists (post "application/x-www-form-urlencoded" "3" "a=1"). split; [belongs_tac "/api"|]. split; [reflexivity|]. split; vm_compute; reflexivity. Qed.
(** Other methods are not sent on. *)
Theorem C95_method_refuted : exists q, belongs mount proxies (q_path q) (str "http://t/base") (str "/x") /\ q_method q = str "PUT" /\
  fst (serve q) = [] /\ p_status (snd (serve q)) = 405.
Proof. exists (Request (str "PUT") (str "/api/x") None [] []). split; [belongs_tac "/api"|]. split; [reflexivity|]. split; vm_compute; reflexivity. Qed.
(** The path of the target itself cannot be reached: the request for the path of the proxy is the one for it with `/`. *)
Theorem C95_slash_refuted : exists q1 q2, q_path q1 = str "/api" /\ q_path q2 = str "/api/" /\ fst (serve q1) = fst (serve q2) /\
  map o_url (fst (serve q1)) = [str "http://t/base/?a=1"].
Proof. exists (get "/api"), (get "/api/"). split; [reflexivity|]. split; [reflexivity|]. split; vm_compute; reflexivity. Qed.
(** RFC 3986, 5.2.4: the segments of a path without `.` and `..`. *)
Fixpoint segments (s cur : bytes) : list bytes :=
  match s with [] => [cur] | c :: t => if c =? 47 then cur :: segments t [] else segments t (cur ++ [c]) end.
Fixpoint remove_dots (l out : list bytes) : list bytes :=
  match l with
  | [] => rev out
  | s :: t => if bytes_eqb s (str ".") then remove_dots t out
              else if bytes_eqb s (str "..") then remove_dots t (tl out) else remove_dots t (s :: out)
  end.
(** A path with `..` leaves the path of the target. *)
Theorem C95_escape_refuted : exists q path, belongs mount proxies (q_path q) (str "http://t/base") (str "/../admin") /\
  map o_url (fst (serve q)) = [str "http://t" ++ 47 :: path] /\ segments path [] = [str "base"; str ".."; str "admin"] /\ remove_dots (segments path []) [] = [str "admin"].
Proof.
  exists (Request (str "GET") (str "/api/../admin") None [] []), (str "base/../admin"). split; [belongs_tac "/api"|]. split; [vm_compute; reflexivity|]. split; vm_compute; reflexivity.
Qed.
