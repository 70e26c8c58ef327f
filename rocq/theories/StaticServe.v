(** Properties C85 (the files of a build are served under the addresses the program uses) and C86 (caching of static files). *)
From Coq Require Import String List NArith Bool Lia PeanoNat.
From Verif Require Import CodecModel DomWire CookieModel SmallModel SmallProps StaticModel StaticProps.
Import ListNotations.
Local Open Scope string_scope.
Local Open Scope list_scope.
Local Open Scope N_scope.

(** ** Specification *)

(** The files of a project, with the names they have without a hash. *)
Definition files (p : project) : list (bytes * bytes) :=
  p_static p ++ [(str "wasm_run.js", p_js p); (p_package p ++ str ".wasm", match p_opt p with Some o => o | None => p_wasm p end)].
(** The addresses used by the program for these files: those [include_static!] stands for, and those of the index. *)
Definition addresses (urls : list bytes) (i : index) : list bytes := urls ++ [run_js i; wasm i].
(** The last project that was built, and its public path. *)
Definition latest (es : list event) : option (bytes * project) :=
  fold_left (fun acc e => match e with EBuild public p => Some (public, p) | _ => acc end) es None.
(** A file of this name and content was built at some time. *)
Definition occurs (es : list event) (n c : bytes) : Prop := exists public p, In (EBuild public p) es /\ In (n, c) (files p).
(** All contents are bytes, and none that the file [n] ever had has the CRC of [c] by accident. *)
Definition no_clash (es : list event) (n c : bytes) : Prop :=
  octets c /\ forall c', occurs es n c' -> octets c' /\ (crc c' = crc c -> c' = c).
(** A public path: one "/" and then segments of letters, digits, "-" and "_". *)
Definition plain_public (public : bytes) : Prop :=
  exists c p, public = slash :: c :: p /\ plain_char c /\ Forall (fun c => plain_char c \/ c = slash) p.
(** File names without tabs, line breaks, "#", "%", "/", "?" and "\", that do not end in a space. *)
Definition safe_name (n : bytes) : Prop :=
  Forall (fun b => b < 256 /\ ~ In b [9; 10; 13; 35; 37; 47; 63; 92]) n /\ 32 < last n 0.
(** Names of packages. *)
Definition plain_package (p : project) : Prop := Forall plain_char (p_package p).

(** ** Directories *)

Local Opaque get_hash crc.

Lemma named_spec n f : named n f = true <-> n = fst f.
Proof. unfold named. destruct (list_eq_dec N.eq_dec n (fst f)); split; auto; discriminate. Qed.

Lemma content_in d n c : content d n = Some c -> In (n, c) d.
Proof.
  unfold content. destruct (find (named n) d) as [[n' c']|] eqn:F; [|discriminate]. intros [= <-]. apply List.find_some in F.
  destruct F as [I E]. apply named_spec in E. simpl in E. subst. auto.
Qed.

Lemma content_none d n : content d n = None <-> ~ In n (map fst d).
Proof.
  unfold content. destruct (find (named n) d) as [[n' c']|] eqn:F; simpl.
  - split; [discriminate|]. apply List.find_some in F. destruct F as [I E]. apply named_spec in E. simpl in E. subst.
    intros H. destruct H. apply in_map_iff. exists (n', c'). auto.
  - split; auto. intros _ I. apply in_map_iff in I. destruct I as (f & <- & I). apply (List.find_none _ _ F) in I.
    destruct (named (fst f) f) eqn:E; [discriminate|]. assert (X : named (fst f) f = true) by (apply named_spec; auto). congruence.
Qed.

Lemma content_remove d n m : content (remove n d) m = if named n (m, []) then None else content d m.
Proof.
  unfold content, remove. induction d as [|[n' c'] d IH]; cbn [filter find].
  - destruct (named n (m, [])); auto.
  - destruct (named n (n', c')) eqn:E; cbn [negb].
    + rewrite IH. apply named_spec in E. cbn [fst] in E. subst n'. destruct (named n (m, [])) eqn:E1; auto.
      destruct (named m (n, c')) eqn:E2; auto. apply named_spec in E2. cbn [fst] in E2. subst.
      assert (X : named n (n, []) = true) by (apply named_spec; auto). congruence.
    + cbn [find]. destruct (named m (n', c')) eqn:E2; [|exact IH]. apply named_spec in E2. cbn [fst] in E2. subst n'.
      destruct (named n (m, [])) eqn:E3; auto. apply named_spec in E3. cbn [fst] in E3. subst.
      rewrite (proj2 (named_spec m (m, c'))) in E by auto. discriminate.
Qed.

Lemma content_save d n c m : content (save n c d) m = if named n (m, []) then Some c else content d m.
Proof.
  unfold save. unfold content at 1. cbn [find]. destruct (named m (n, c)) eqn:E.
  - apply named_spec in E. cbn [fst] in E. subst. rewrite (proj2 (named_spec n (n, []))) by auto. reflexivity.
  - change (option_map snd (find (named m) (remove n d))) with (content (remove n d) m). rewrite content_remove.
    destruct (named n (m, [])) eqn:E1; auto. apply named_spec in E1. cbn [fst] in E1. subst.
    rewrite (proj2 (named_spec m (m, c))) in E by auto. discriminate.
Qed.

Lemma content_save_eq d n c : content (save n c d) n = Some c.
Proof. rewrite content_save, (proj2 (named_spec n (n, []))); auto. Qed.
Lemma content_save_neq d n c m : n <> m -> content (save n c d) m = content d m.
Proof. intros NE. rewrite content_save. destruct (named n (m, [])) eqn:E; auto. apply named_spec in E. contradiction. Qed.
Lemma content_remove_neq d n m : n <> m -> content (remove n d) m = content d m.
Proof. intros NE. rewrite content_remove. destruct (named n (m, [])) eqn:E; auto. apply named_spec in E. contradiction. Qed.

Lemma nodup_save d n c : NoDup (map fst d) -> NoDup (map fst (save n c d)).
Proof.
  intros ND. unfold save, remove. cbn [map fst]. constructor.
  - intros I. apply in_map_iff in I. destruct I as (f & E & I). apply filter_In in I. destruct I as [_ I].
    rewrite (proj2 (named_spec n f)) in I by auto. discriminate.
  - induction d as [|f d IH]; cbn [filter map]; [constructor|]. inversion ND; subst. destruct (named n f); cbn [negb]; auto.
    cbn [map]. constructor; auto. intros I. apply in_map_iff in I. destruct I as (g & E & I). apply filter_In in I. destruct I.
    match goal with H : ~ In _ _ |- _ => apply H end. apply in_map_iff. eauto.
Qed.

Lemma in_save d n c h x : In (h, x) (save n c d) -> (h = n /\ x = c) \/ In (h, x) d.
Proof. unfold save, remove. intros [I|I]; [left; split; congruence|]. apply filter_In in I. tauto. Qed.

Lemma content_save_some d n c m : content d m <> None -> content (save n c d) m <> None.
Proof. rewrite content_save. destruct (named n (m, [])); auto. discriminate. Qed.

(** Copying a directory. *)
Lemma content_copy inc : forall d h, NoDup (map fst inc) ->
  content (fold_left (fun d f => save (fst f) (snd f) d) inc d) h = match content inc h with Some x => Some x | None => content d h end.
Proof.
  induction inc as [|[n c] inc IH]; intros d h ND; [reflexivity|]. cbn [map fst] in ND. inversion ND; subst. rewrite fold_cons, IH by auto. cbn [fst snd].
  unfold content at 3. cbn [find]. destruct (named h (n, c)) eqn:E.
  - apply named_spec in E. cbn [fst] in E. subst n. rewrite (proj2 (content_none inc h)) by auto. cbn [option_map snd]. apply content_save_eq.
  - change (option_map snd (find (named h) inc)) with (content inc h). destruct (content inc h); auto. apply content_save_neq.
    intros ->. rewrite (proj2 (named_spec h (h, c))) in E by auto. discriminate.
Qed.

(** ** Names with a hash *)

Lemma hash_length c : length (get_hash c) = 11%nat.
Proof. Local Transparent get_hash. unfold get_hash, be_bytes. reflexivity. Local Opaque get_hash. Qed.

Lemma hashed_form n c h : hashed_name n c = Some h -> exists s e, n = s ++ 46 :: e /\ s <> [] /\ ~ In 46 e /\
  h = s ++ 46 :: get_hash c ++ 46 :: e.
Proof.
  unfold hashed_name. destruct (stem_ext n) as [[s e]|] eqn:E; [|discriminate]. intros H. apply some_inj in H. subst h.
  apply stem_ext_split in E. destruct E as (-> & NI & NE). exists s, e. auto.
Qed.

Lemma hashed_dots n c h : hashed_name n c = Some h -> exists s e, last_dot h = Some (s ++ 46 :: get_hash c, e) /\
  last_dot (s ++ 46 :: get_hash c) = Some (s, get_hash c) /\ last_dot n = Some (s, e).
Proof.
  intros H. apply hashed_form in H. destruct H as (s & e & -> & NE & NI & ->). exists s, e. repeat split; apply last_dot_split; split; auto using hash_no_dot.
  rewrite <- app_assoc. reflexivity.
Qed.

Lemma hashed_not_index n c h : hashed_name n c = Some h -> str "index.json" <> h.
Proof.
  intros H <-. apply hashed_dots in H. destruct H as (s & e & L1 & L2 & _). change (last_dot (str "index.json")) with (Some (str "index", str "json")) in L1.
  apply pair_inj in L1. destruct L1 as [L1 _]. rewrite <- L1 in L2. discriminate.
Qed.

Lemma hashed_not_map n c h : hashed_name n c = Some h -> str "wasm_run.js.map" <> h.
Proof.
  intros H <-. apply hashed_dots in H. destruct H as (s & e & L1 & L2 & _).
  change (last_dot (str "wasm_run.js.map")) with (Some (str "wasm_run.js", str "map")) in L1.
  apply pair_inj in L1. destruct L1 as [L1 _]. rewrite <- L1 in L2. change (last_dot (str "wasm_run.js")) with (Some (str "wasm_run", str "js")) in L2.
  apply pair_inj in L2. destruct L2 as [_ L2]. apply (f_equal (@length N)) in L2. rewrite hash_length in L2. discriminate.
Qed.

Lemma plain_no_dot l : Forall plain_char l -> ~ In 46 l.
Proof. intros F I. rewrite Forall_forall in F. apply F in I. unfold plain_char in I. lia. Qed.

Lemma wasm_no_dot : ~ In 46 (str "wasm").
Proof. simpl. intros H. repeat (destruct H as [H|H]; [discriminate|]). contradiction. Qed.

Lemma hashed_not_wasm n c h pkg : Forall plain_char pkg -> hashed_name n c = Some h -> pkg ++ str ".wasm" <> h.
Proof.
  intros F H <-. apply hashed_dots in H. destruct H as (s & e & L1 & L2 & _).
  assert (L : last_dot (pkg ++ str ".wasm") = Some (pkg, str "wasm")). { apply last_dot_split. split; [reflexivity|apply wasm_no_dot]. }
  rewrite L in L1. apply pair_inj in L1. destruct L1 as [-> _]. apply (plain_no_dot (s ++ 46 :: get_hash c)) in F. apply F, in_or_app. right. left. auto.
Qed.

(** ** What a build writes *)

Lemma include_spec public fs : forall inc r inc', include_static public fs inc = (r, inc') -> NoDup (map fst inc) ->
  NoDup (map fst inc') /\
  (forall h x, In (h, x) inc' -> In (h, x) inc \/ exists n, In (n, x) fs /\ hashed_name n x = Some h) /\
  (forall h, content inc h <> None -> content inc' h <> None) /\
  (forall urls, r = Some urls -> length urls = length fs /\ forall k n c, nth_error fs k = Some (n, c) ->
     exists h, hashed_name n c = Some h /\ nth_error urls k = Some (public_to public h) /\ content inc' h <> None).
Proof.
  induction fs as [|[n c] fs IH]; intros inc r inc' E ND; cbn [include_static] in E.
  - inversion E; subst. repeat split; auto. all: intros; match goal with H : Some _ = Some _ |- _ => inversion H; subst end; auto. destruct k; discriminate.
  - unfold save_with_hash in E. destruct (hashed_name n c) as [h0|] eqn:H0.
    2:{ inversion E; subst. repeat split; auto; discriminate. }
    destruct (include_static public fs (save h0 c inc)) as [r1 inc1] eqn:E1.
    destruct (IH _ _ _ E1 (nodup_save _ _ _ ND)) as (A & B & C & D).
    assert (X : inc1 = inc') by (destruct r1; inversion E; auto). subst inc1. split; [auto|]. split; [|split].
    + intros h x I. apply B in I. destruct I as [I|(m & I & J)].
      * apply in_save in I. destruct I as [[-> ->]|I]; auto. right. exists n. split; [left|]; auto.
      * right. exists m. split; [right|]; auto.
    + intros h I. apply C. apply content_save_some. auto.
    + intros urls ->. destruct r1 as [us|]; [|discriminate]. inversion E; subst. destruct (D us eq_refl) as [D1 D2]. split; [simpl; auto|].
      intros [|k] m y N1; cbn [nth_error] in *.
      * inversion N1; subst. exists h0. repeat split; auto. apply C. rewrite content_save_eq. discriminate.
      * apply D2. auto.
Qed.

Section Serve.
  Variable index_text : index -> bytes.
  Notation build := (build index_text).
  Notation write_dest := (write_dest index_text).
  Notation play := (play index_text).
  Notation happen := (happen index_text).

  Lemma write_spec public p inc i d : write_dest public p inc = Some (i, d) -> NoDup (map fst inc) -> plain_package p ->
    exists hj hw, hashed_name (str "wasm_run.js") (p_js p) = Some hj /\ run_js i = public_to public hj /\
      hashed_name (p_package p ++ str ".wasm") (match p_opt p with Some o => o | None => p_wasm p end) = Some hw /\ wasm i = public_to public hw /\
      content d hj <> None /\ content d hw <> None /\ (forall h, content inc h <> None -> content d h <> None) /\
      forall n c h x, hashed_name n c = Some h -> content d h = Some x ->
        In (h, x) inc \/ (h = hj /\ x = p_js p) \/ (h = hw /\ x = match p_opt p with Some o => o | None => p_wasm p end).
  Proof.
    intros E ND PP. unfold StaticModel.write_dest in E. unfold save_with_hash at 1 in E.
    destruct (hashed_name (str "wasm_run.js") (p_js p)) as [hj|] eqn:HJ; [|discriminate].
    set (d2 := match p_map p with Some m => _ | None => _ end) in E.
    set (x := match p_opt p with Some o => o | None => p_wasm p end). cbv zeta in E.
    assert (M : exists hw d3, hashed_name (p_package p ++ str ".wasm") x = Some hw /\
       content d3 hw = Some x /\ (forall n c h, hashed_name n c = Some h -> h <> hw -> content d3 h = content d2 h) /\
       i = Index (public_to public hj) (public_to public hw) /\
       d = fold_left (fun d f => save (fst f) (snd f) d) inc (save (str "index.json") (index_text i) d3)).
    { unfold x. destruct (p_opt p) as [o|]; unfold save_with_hash in E.
      - destruct (hashed_name (p_package p ++ str ".wasm") o) as [hw|] eqn:HW; [|discriminate]. apply pair_inj in E. destruct E as [<- <-].
        exists hw, (remove (p_package p ++ str ".wasm") (save hw o (save (p_package p ++ str ".wasm") o d2))).
        split; [reflexivity|]. split; [|split; [|split; [reflexivity|reflexivity]]].
        + rewrite content_remove_neq by (eapply hashed_not_wasm; eauto). apply content_save_eq.
        + intros n c h H NE. rewrite content_remove_neq by (eapply hashed_not_wasm; eauto). rewrite content_save_neq by congruence.
          apply content_save_neq. eapply hashed_not_wasm; eauto.
      - destruct (hashed_name (p_package p ++ str ".wasm") (p_wasm p)) as [hw|] eqn:HW; [|discriminate]. apply pair_inj in E. destruct E as [<- <-].
        exists hw, (save hw (p_wasm p) d2).
        split; [reflexivity|]. split; [|split; [|split; [reflexivity|reflexivity]]].
        + apply content_save_eq.
        + intros n c h H NE. apply content_save_neq. congruence. }
    clear E. destruct M as (hw & d3 & HW & CW & CO & -> & ->). exists hj, hw.
    assert (NJW : hj <> hw).
    { intros ->. destruct (hashed_inj _ _ _ _ _ HJ HW) as [X _]. apply (f_equal last_dot) in X.
      change (last_dot (str "wasm_run.js")) with (Some (str "wasm_run", str "js")) in X.
      rewrite (proj2 (last_dot_split (p_package p ++ str ".wasm") (p_package p) (str "wasm"))) in X by (split; [reflexivity|apply wasm_no_dot]).
      apply pair_inj in X. destruct X. discriminate. }
    assert (C2 : forall n c h, hashed_name n c = Some h -> content d2 h = if named hj (h, []) then Some (p_js p) else None).
    { intros n c h H. unfold d2. destruct (p_map p) as [m|]; [rewrite content_save_neq by (eapply hashed_not_map; eauto)|]; apply content_save. }
    assert (CD : forall n c h, hashed_name n c = Some h -> content d3 h = if named hw (h, []) then Some x else content d2 h).
    { intros n c h H. destruct (named hw (h, [])) eqn:NW.
      - apply named_spec in NW. cbn [fst] in NW. subst h. auto.
      - eapply CO; eauto. intros ->. rewrite (proj2 (named_spec hw (hw, []))) in NW by auto. discriminate. }
    split; [auto|]. split; [reflexivity|]. split; [auto|]. split; [reflexivity|].
    assert (NI := hashed_not_index). repeat split.
    - rewrite content_copy by auto. destruct (content inc hj); [discriminate|]. rewrite content_save_neq by eauto. rewrite (CD _ _ _ HJ).
      destruct (named hw (hj, [])); [discriminate|]. rewrite (C2 _ _ _ HJ), (proj2 (named_spec hj (hj, []))) by auto. discriminate.
    - rewrite content_copy by auto. destruct (content inc hw); [discriminate|]. rewrite content_save_neq by eauto. congruence.
    - intros h I. rewrite content_copy by auto. destruct (content inc h); [discriminate|]. contradiction.
    - intros n c h y H. rewrite content_copy by auto. destruct (content inc h) as [z|] eqn:CI.
      + intros [= <-]. left. apply content_in. auto.
      + rewrite content_save_neq by eauto. rewrite (CD _ _ _ H), (C2 _ _ _ H). right.
        destruct (named hw (h, [])) eqn:NW; [apply named_spec in NW; cbn [fst] in NW; right; split; congruence|].
        destruct (named hj (h, [])) eqn:NJ; [|discriminate]. apply named_spec in NJ. cbn [fst] in NJ. left. split; congruence.
  Qed.

  (** What is known of the directory that is served, and of the directory of the macro. *)
  Definition known (es : list event) (h x : bytes) : Prop := exists n, occurs es n x /\ hashed_name n x = Some h.

  Record good (es : list event) (public : bytes) (p : project) (urls : list bytes) (i : index) (d : dir) : Prop := {
    g_wasm : exists hw, wasm i = public_to public hw /\ hashed_name (p_package p ++ str ".wasm") (match p_opt p with Some o => o | None => p_wasm p end) = Some hw;
    g_files : forall k n c u, nth_error (files p) k = Some (n, c) -> nth_error (addresses urls i) k = Some u ->
      exists h, hashed_name n c = Some h /\ u = public_to public h /\ content d h <> None;
    g_known : forall n c h x, hashed_name n c = Some h -> content d h = Some x -> known es h x }.

  Lemma occurs_mono es e n c : occurs es n c -> occurs (es ++ [e]) n c.
  Proof. intros (pub & p & I & J). exists pub, p. rewrite in_app_iff. auto. Qed.
  Lemma known_mono es e h x : known es h x -> known (es ++ [e]) h x.
  Proof. intros (n & O & H). exists n. split; auto using occurs_mono. Qed.
  Lemma good_mono es e public p urls i d : good es public p urls i d -> good (es ++ [e]) public p urls i d.
  Proof. intros [A B C]. constructor; eauto using known_mono. Qed.

  Lemma play_snoc es e : play (es ++ [e]) = happen (play es) e.
  Proof. unfold StaticModel.play. rewrite fold_left_app. reflexivity. Qed.

  Lemma latest_snoc es e : latest (es ++ [e]) = match e with EBuild public p => Some (public, p) | _ => latest es end.
  Proof. unfold latest. rewrite fold_left_app. destruct e; reflexivity. Qed.

  Lemma get_inc a (w : world) : w_inc (snd (get a w)) = w_inc w /\ w_built (snd (get a w)) = w_built w /\ w_now (snd (get a w)) = w_now w.
  Proof. unfold get. destruct (cached (request_path a) w); simpl; auto. destruct (w_built w) as [[[? ?] ?]|] eqn:E; simpl; auto. Qed.

  Lemma inc_ok es : NoDup (map fst (w_inc (play es))) /\ forall h x, In (h, x) (w_inc (play es)) -> known es h x.
  Proof.
    induction es as [|e es IH] using rev_ind; [split; [constructor|intros ? ? []]|]. rewrite play_snoc. destruct IH as [ND K].
    destruct e as [public p|a|t]; cbn [StaticModel.happen].
    - unfold StaticModel.build. destruct (include_static public (p_static p) (w_inc (play es))) as [r inc'] eqn:E.
      destruct (include_spec _ _ _ _ _ E ND) as (A & B & _).
      assert (R : NoDup (map fst inc') /\ forall h x, In (h, x) inc' -> known (es ++ [EBuild public p]) h x).
      { split; auto. intros h x I. apply B in I. destruct I as [I|(n & I & J)]; [auto using known_mono|].
        exists n. split; auto. exists public, p. rewrite in_app_iff. split; [right; left; auto|]. unfold files. rewrite in_app_iff. auto. }
      destruct r as [us|]; [destruct (StaticModel.write_dest index_text public p inc') as [[? ?]|]|]; exact R.
    - destruct (get_inc a (play es)) as (E1 & _). split; [rewrite E1; auto|]. intros h x. rewrite E1. auto using known_mono.
    - split; auto. intros h x I. auto using known_mono.
  Qed.

  Lemma built_ok es : forall urls i d, w_built (play es) = Some (urls, i, d) -> exists public p, latest es = Some (public, p) /\
    In (EBuild public p) es /\ (plain_package p -> good es public p urls i d).
  Proof.
    induction es as [|e es IH] using rev_ind; [discriminate|]. intros urls i d. rewrite play_snoc, latest_snoc.
    destruct e as [public p|a|t].
    - cbn [StaticModel.happen]. unfold StaticModel.build. destruct (inc_ok es) as [ND K].
      destruct (include_static public (p_static p) (w_inc (play es))) as [r inc'] eqn:E.
      destruct (include_spec _ _ _ _ _ E ND) as (A & B & C & D).
      destruct r as [us|]; [|discriminate]. destruct (StaticModel.write_dest index_text public p inc') as [[i' d']|] eqn:W; [|discriminate].
      cbn [w_built]. intros [= <- <- <-]. exists public, p. split; [auto|]. split; [apply in_or_app; right; left; auto|]. intros PP.
      destruct (write_spec _ _ _ _ _ W A PP) as (hj & hw & HJ & RJ & HW & RW & CJ & CW & CI & KN).
      destruct (D us eq_refl) as [L NU].
      assert (F : forall n x, In (n, x) (files p) -> occurs (es ++ [EBuild public p]) n x).
      { intros n x I. exists public, p. rewrite in_app_iff. split; auto. right. left. auto. }
      constructor.
      + exists hw. auto.
      + intros k n c u N1 N2. unfold files, addresses in *. destruct (Nat.lt_ge_cases k (length us)) as [G|G].
        * rewrite nth_error_app1 in N1 by lia. rewrite nth_error_app1 in N2 by auto. destruct (NU k n c N1) as (h & H1 & H2 & H3).
          exists h. split; auto. split; [congruence|]. auto.
        * rewrite nth_error_app2 in N1 by lia. rewrite nth_error_app2 in N2 by auto. rewrite L in N2.
          destruct (k - length (p_static p))%nat as [|[|k']]; cbn [nth_error] in *.
          -- inversion N1; inversion N2; subst. exists hj. auto.
          -- inversion N1; inversion N2; subst. exists hw. auto.
          -- destruct k'; discriminate.
      + intros n c h x H CX. destruct (KN n c h x H CX) as [I|[[-> ->]|[-> ->]]].
        * apply B in I. destruct I as [I|(m & I & J)]; [auto using known_mono|]. exists m. split; auto. apply F. unfold files. rewrite in_app_iff. auto.
        * exists (str "wasm_run.js"). split; auto. apply F. unfold files. rewrite in_app_iff. right. left. auto.
        * exists (p_package p ++ str ".wasm"). split; auto. apply F. unfold files. rewrite in_app_iff. right. right. left. auto.
    - cbn [StaticModel.happen]. destruct (get_inc a (play es)) as (_ & E2 & _). rewrite E2. intros W. apply IH in W.
      destruct W as (pub & p & L & I & G). exists pub, p. rewrite in_app_iff. auto using good_mono.
    - cbn [StaticModel.happen w_built]. intros W. apply IH in W. destruct W as (pub & p & L & I & G). exists pub, p. rewrite in_app_iff. auto using good_mono.
  Qed.

  (** ** Addresses *)

  Definition enc (b : N) : bytes := if path_escaped b then escape b else [b].

  Lemma hex_digit_value x : x < 16 -> hex_value (hex_digit x) = Some x.
  Proof.
    intros L. assert (A : forallb (fun i => match hex_value (hex_digit (N.of_nat i)) with Some y => y =? N.of_nat i | None => false end) (seq 0 16) = true) by (vm_compute; reflexivity).
    rewrite forallb_forall in A. specialize (A (N.to_nat x)). rewrite N2Nat.id, in_seq in A. specialize (A ltac:(lia)).
    destruct (hex_value (hex_digit x)); [|discriminate]. apply N.eqb_eq in A. congruence.
  Qed.

  Lemma decode_enc h : Forall (fun b => b < 256 /\ ~ In b [9; 10; 13; 35; 37; 47; 63; 92]) h -> percent_decode (flat_map enc h) = h.
  Proof.
    induction 1 as [|b h [B NI] _ IH]; [reflexivity|]. rewrite flat_cons. unfold enc at 1. destruct (path_escaped b).
    - unfold escape. cbn [app percent_decode]. change (37 =? 37) with true. cbv iota.
      assert (b / 16 < 16) by (apply N.div_lt_upper_bound; lia). assert (b mod 16 < 16) by (apply N.mod_lt; lia).
      rewrite !hex_digit_value by auto. rewrite IH. f_equal. symmetry. apply N.div_mod. lia.
    - cbn [app percent_decode]. destruct (N.eqb_spec b 37) as [->|]; [destruct NI; cbn [In]; tauto|]. rewrite IH. auto.
  Qed.

  Lemma trim_last x : 32 < last x 0 -> trim (rev x) = rev x.
  Proof.
    intros L. destruct x as [|c x]; [reflexivity|]. rewrite (@app_removelast_last _ (c :: x) 0) by discriminate.
    rewrite rev_app_distr. cbn [rev app trim]. destruct (N.ltb_spec (last (c :: x) 0) 33); [lia|]. reflexivity.
  Qed.

  Lemma until_id x : ~ In 63 x -> ~ In 35 x -> until_query x = x.
  Proof.
    induction x as [|c x IH]; intros A B; [reflexivity|]. cbn [until_query In] in *. destruct (N.eqb_spec c 63); [tauto|].
    destruct (N.eqb_spec c 35); [tauto|]. cbn [orb]. f_equal. auto.
  Qed.

  Lemma plain_enc c : plain_char c \/ c = slash -> c <> 92 /\ path_escaped c = false /\ c <> 9 /\ c <> 10 /\ c <> 13 /\ c <> 63 /\ c <> 35.
  Proof.
    intros H. assert (R : c <> 92 /\ c <> 9 /\ c <> 10 /\ c <> 13 /\ c <> 63 /\ c <> 35) by (unfold plain_char, slash in H; lia).
    assert (P : path_escaped c = false).
    { unfold path_escaped. cbn [existsb]. rewrite !orb_false_iff, N.ltb_ge, N.ltb_ge, !N.eqb_neq. unfold plain_char, slash in H. lia. }
    tauto.
  Qed.

  Lemma request_ok public h : plain_public public -> safe_name h -> request_path (public_to public h) = public ++ slash :: flat_map enc h.
  Proof.
    intros (c & p & -> & PC & F) [SH SL]. unfold request_path, public_to. set (a := (slash :: c :: p) ++ slash :: h).
    assert (HN : h <> []) by (intros ->; simpl in SL; lia).
    assert (T1 : trim a = a) by reflexivity. rewrite T1.
    assert (LA : last a 0 = last h 0).
    { unfold a. destruct h as [|x h]; [contradiction|]. rewrite (@app_removelast_last _ (x :: h) 0) at 1 by discriminate.
      rewrite app_comm_cons, app_assoc, last_last. reflexivity. }
    rewrite trim_last by (rewrite LA; auto). rewrite rev_involutive.
    assert (FP : Forall (fun x => plain_char x \/ x = slash) (slash :: c :: p)) by (constructor; [|constructor]; auto).
    rewrite Forall_forall in FP, SH.
    assert (FA : forall b, In b a -> b <> 9 /\ b <> 10 /\ b <> 13 /\ b <> 63 /\ b <> 35 /\ b <> 92).
    { intros b I. unfold a in I. apply in_app_iff in I. destruct I as [I|[<-|I]].
      - apply FP, plain_enc in I. tauto.
      - unfold slash. lia.
      - apply SH in I. destruct I as [_ I]. cbn [In] in I. repeat split; intros ->; apply I; tauto. }
    replace (filter _ a) with a.
    2:{ clearbody a. clear - FA. induction a as [|b a IH]; [reflexivity|]. cbn [filter]. destruct (FA b) as (A1 & A2 & A3 & _); [left; auto|].
        rewrite (proj2 (N.eqb_neq b 9)), (proj2 (N.eqb_neq b 10)), (proj2 (N.eqb_neq b 13)) by auto. cbn [orb negb]. rewrite <- IH; auto.
        intros x I. apply FA. right. auto. }
    rewrite until_id by (intros I; apply FA in I; tauto). unfold a. rewrite flat_map_app.
    assert (PF : forall l, (forall x, In x l -> plain_char x \/ x = slash) -> flat_map (fun b => if b =? 92 then [slash] else if path_escaped b then escape b else [b]) l = l).
    { induction l as [|b l IH]; intros FL; [reflexivity|]. rewrite flat_cons. destruct (plain_enc b) as (A1 & A2 & _); [apply FL; left; auto|].
      rewrite (proj2 (N.eqb_neq b 92)), A2 by auto. cbn [app]. f_equal. apply IH. intros x I. apply FL. right. auto. }
    rewrite (PF (slash :: c :: p)) by auto. rewrite flat_cons. f_equal. change (if slash =? 92 then _ else _) with [slash]. cbn [app]. f_equal.
    rewrite !flat_map_concat_map. f_equal. apply map_ext_in. intros b I. apply SH in I. destruct I as [_ I]. destruct (N.eqb_spec b 92) as [->|]; [|reflexivity]. destruct I. cbn [In]. tauto.
  Qed.

  Lemma safe_hashed n c h : hashed_name n c = Some h -> safe_name n -> safe_name h.
  Proof.
    intros H [SN SL]. apply hashed_form in H. destruct H as (s & e & -> & NE & NI & ->). apply Forall_app in SN. destruct SN as [S1 S2].
    inversion S2; subst. split.
    - apply Forall_app. split; auto. constructor; auto. apply Forall_app. split; [|constructor; auto].
      pose proof (hash_plain c) as HP. eapply Forall_impl; [|exact HP]. intros b B. split; [unfold plain_char in B; lia|].
      cbn [In]. unfold plain_char in B. lia.
    - destruct e as [|x e].
      + replace (s ++ 46 :: get_hash c ++ [46]) with ((s ++ 46 :: get_hash c) ++ [46]) by (rewrite <- app_assoc; reflexivity). rewrite last_last. lia.
      + rewrite (@app_removelast_last _ (x :: e) 0) in * by discriminate. set (q := last (x :: e) 0) in *. set (r := removelast (x :: e)) in *.
        replace (s ++ 46 :: r ++ [q]) with ((s ++ 46 :: r) ++ [q]) in SL by (rewrite <- app_assoc; reflexivity). rewrite last_last in SL.
        replace (s ++ 46 :: get_hash c ++ 46 :: r ++ [q]) with ((s ++ 46 :: get_hash c ++ 46 :: r) ++ [q]); [rewrite last_last; auto|].
        rewrite <- app_assoc. cbn [app]. rewrite <- app_assoc. reflexivity.
  Qed.

  Lemma plain_no_slash l : Forall plain_char l -> ~ In slash l.
  Proof. intros F I. rewrite Forall_forall in F. apply F in I. unfold plain_char, slash in I. lia. Qed.

  Lemma serve_ok es public p urls i d h : good es public p urls i d -> plain_package p -> plain_public public -> safe_name h ->
    serve i d (request_path (public_to public h)) = content d h.
  Proof.
    intros G PP PU SH. unfold serve. destruct (g_wasm _ _ _ _ _ _ G) as (hw & -> & HW).
    assert (NS : ~ In slash hw).
    { apply hashed_form in HW. destruct HW as (s & e & E & _ & NE & ->).
      assert (L : last_dot (p_package p ++ str ".wasm") = Some (p_package p, str "wasm")) by (apply last_dot_split; split; [reflexivity|apply wasm_no_dot]).
      rewrite (proj2 (last_dot_split _ s e)) in L by auto. apply pair_inj in L. destruct L as [-> ->]. intros I.
      apply in_app_iff in I. destruct I as [I|[I|I]]; [revert I; apply plain_no_slash; auto|discriminate|].
      apply in_app_iff in I. destruct I as [I|I]; [revert I; apply plain_no_slash, hash_plain|].
      revert I. cbn. intros I. repeat (destruct I as [I|I]; [discriminate|]). contradiction. }
    destruct (C48_base_dir (public_to public hw)) as [B _]. rewrite (B public hw eq_refl NS).
    rewrite request_ok by auto. rewrite (proj2 (strip_some (public ++ [slash]) _ (flat_map enc h))) by (rewrite <- app_assoc; reflexivity).
    rewrite decode_enc; [reflexivity|]. apply SH.
  Qed.

  (** The addresses used by the program are those of its own files: what is served there is the content that was built. *)
  Theorem C85_served_partial : forall es public p urls i d k n c u,
    latest es = Some (public, p) -> w_built (play es) = Some (urls, i, d) -> plain_public public -> plain_package p ->
    nth_error (files p) k = Some (n, c) -> nth_error (addresses urls i) k = Some u -> safe_name n -> no_clash es n c ->
    serve i d (request_path u) = Some c.
  Proof.
    intros es public p urls i d k n c u L W PU PP N1 N2 SN [OC NC]. destruct (built_ok es _ _ _ W) as (pub & p' & L' & _ & G).
    rewrite L in L'. apply pair_inj in L'. destruct L' as [<- <-]. specialize (G PP).
    destruct (g_files _ _ _ _ _ _ G k n c u N1 N2) as (h & H & -> & CD).
    erewrite serve_ok by eauto using safe_hashed. destruct (content d h) as [x|] eqn:CX; [|contradiction]. f_equal.
    destruct (g_known _ _ _ _ _ _ G n c h x H CX) as (m & O & HM). destruct (hashed_inj _ _ _ _ _ HM H) as [-> EH].
    destruct (NC x O) as [OX NX]. apply NX, hash_inj; auto.
  Qed.

  (** As many addresses as files. *)
  Theorem C85_all : forall es public p urls i d, latest es = Some (public, p) -> w_built (play es) = Some (urls, i, d) ->
    length (addresses urls i) = length (files p).
  Proof.
    intros es public p urls i d. induction es as [|e es IH] using rev_ind; [discriminate|]. rewrite play_snoc, latest_snoc. destruct e as [public' p'|a|t].
    - intros [= -> ->]. cbn [StaticModel.happen]. unfold StaticModel.build. destruct (inc_ok es) as [ND K].
      destruct (include_static public (p_static p) (w_inc (play es))) as [r inc'] eqn:E.
      destruct (include_spec _ _ _ _ _ E ND) as (_ & _ & _ & D). destruct r as [us|]; [|discriminate].
      destruct (StaticModel.write_dest index_text public p inc') as [[i' d']|]; [|discriminate]. intros [= <- <- <-].
      destruct (D us eq_refl) as [D1 _]. unfold addresses, files. rewrite !app_length, D1. reflexivity.
    - intros L. cbn [StaticModel.happen]. destruct (get_inc a (play es)) as (_ & -> & _). auto.
    - auto.
  Qed.

  (** A file without an extension cannot be included: the build fails. *)
  Theorem C85_no_extension : forall public p inc n c, In (n, c) (p_static p) -> ~ In 46 n -> fst (build public p inc) = None.
  Proof.
    intros public p inc n c I NI. unfold StaticModel.build. assert (X : fst (include_static public (p_static p) inc) = None).
    { revert inc. induction (p_static p) as [|[m x] l IH]; [destruct I|]. intros inc. cbn [include_static]. unfold save_with_hash.
      destruct I as [[= -> ->]|I].
      - unfold hashed_name, stem_ext. rewrite (proj2 (last_dot_none n)) by auto. reflexivity.
      - destruct (hashed_name m x) as [h|]; [|reflexivity]. specialize (IH I (save h x inc)).
        destruct (include_static public l (save h x inc)) as [[us|] inc']; [discriminate|reflexivity]. }
    destruct (include_static public (p_static p) inc) as [[us|] inc']; [discriminate|reflexivity].
  Qed.

  (** ** The cache *)

  Definition all_builds (public : bytes) (es : list event) : Prop :=
    forall public' p, In (EBuild public' p) es -> public' = public /\ plain_package p.

  Lemma cache_ok public : plain_public public -> forall es, all_builds public es -> forall path r t, In (path, (r, t)) (w_cache (play es)) ->
    (forall n c h x, hashed_name n c = Some h -> safe_name h -> path = request_path (public_to public h) -> r = Some x -> known es h x) /\
    (r = None -> exists es1 a es2, es = es1 ++ EGet a :: es2 /\ request_path a = path /\ fst (get a (play es1)) = None).
  Proof.
    intros PU. induction es as [|e es IH] using rev_ind; intros AB path r t; [intros []|]. rewrite play_snoc.
    assert (AB' : all_builds public es) by (intros pub p I; apply AB; rewrite in_app_iff; auto).
    assert (LIFT : In (path, (r, t)) (w_cache (play es)) ->
      (forall n c h x, hashed_name n c = Some h -> safe_name h -> path = request_path (public_to public h) -> r = Some x -> known (es ++ [e]) h x) /\
      (r = None -> exists es1 a es2, es ++ [e] = es1 ++ EGet a :: es2 /\ request_path a = path /\ fst (get a (play es1)) = None)).
    { intros I. destruct (IH AB' _ _ _ I) as [A B]. split; [eauto using known_mono|]. intros R. destruct (B R) as (es1 & a & es2 & -> & X).
      exists es1, a, (es2 ++ [e]). rewrite <- app_assoc. auto. }
    destruct e as [pub p|a|s].
    - cbn [StaticModel.happen]. destruct (StaticModel.build index_text pub p (w_inc (play es))) as [r' inc']. exact LIFT.
    - cbn [StaticModel.happen]. assert (GA : fst (get a (play es)) = r -> In (path, (r, t)) (w_cache (snd (get a (play es)))) -> True) by auto.
      clear GA. unfold get at 1. destruct (cached (request_path a) (play es)) as [r'|] eqn:CA; [exact LIFT|].
      destruct (w_built (play es)) as [[[us i] d]|] eqn:W; [|exact LIFT]. cbn [snd w_cache]. intros [I|I]; [|auto]. inversion I; subst path r t. split.
      + intros n c h x H SH E R. destruct (built_ok es _ _ _ W) as (pub & p & L & IB & G). destruct (AB' _ _ IB) as [-> PP]. specialize (G PP).
        rewrite E in R. erewrite serve_ok in R by eauto. apply known_mono. eapply g_known; eauto.
      + intros R. exists es, a, []. split; [reflexivity|]. split; [reflexivity|]. unfold get. rewrite CA, W. exact R.
    - exact LIFT.
  Qed.

  (** Although files may be kept for a day, the page gets the content of its own build: whatever was built and requested before,
      unless the address was requested when there was nothing. *)
  Theorem C86_fresh_partial : forall es public p urls i d k n c u,
    all_builds public es -> latest es = Some (public, p) -> w_built (play es) = Some (urls, i, d) -> plain_public public ->
    nth_error (files p) k = Some (n, c) -> nth_error (addresses urls i) k = Some u -> safe_name n -> no_clash es n c ->
    (forall es1 a es2, es = es1 ++ EGet a :: es2 -> request_path a = request_path u -> fst (get a (play es1)) <> None) ->
    fst (get u (play es)) = Some c.
  Proof.
    intros es public p urls i d k n c u AB L W PU N1 N2 SN NC NM.
    destruct (built_ok es _ _ _ W) as (pub & p' & L' & IB & G). rewrite L in L'. apply pair_inj in L'. destruct L' as [<- <-].
    destruct (AB _ _ IB) as [_ PP]. specialize (G PP).
    assert (S1 := C85_served_partial es public p urls i d k n c u L W PU PP N1 N2 SN NC).
    destruct (g_files _ _ _ _ _ _ G k n c u N1 N2) as (h & H & -> & CD).
    unfold get. destruct (cached (request_path (public_to public h)) (play es)) as [r|] eqn:CA; [|rewrite W; exact S1].
    cbn [fst]. unfold cached in CA. match type of CA with match find ?f ?l with _ => _ end = _ => destruct (find f l) as [[path [r' t]]|] eqn:F; [|discriminate] end.
    destruct (w_now (play es) <? t + max_age); [|discriminate]. apply some_inj in CA. subst r'.
    apply List.find_some in F. destruct F as [I E]. cbn [fst] in E. destruct (list_eq_dec N.eq_dec _ path) as [<-|] in E; [|discriminate].
    destruct (cache_ok public PU es AB _ _ _ I) as [A B]. destruct r as [x|].
    - destruct (A n c h x H (safe_hashed _ _ _ H SN) eq_refl eq_refl) as (m & O & HM). destruct (hashed_inj _ _ _ _ _ HM H) as [-> EH].
      destruct NC as [OC NC]. destruct (NC x O) as [OX NX]. f_equal. apply NX, hash_inj; auto.
    - destruct (B eq_refl) as (es1 & a & es2 & E1 & E2 & E3). destruct (NM es1 a es2 E1 E2 E3).
  Qed.
End Serve.

(** ** Examples and refutations *)

Module StaticDemo.
  Definition public := str "/build".
  Definition text (i : index) : bytes := run_js i ++ [10] ++ wasm i.
  Definition one : project := Project [(str "logo.svg", str "<svg/>"); (str "a b.css", str "p{}")] (str "run();") (Some (str "{wasm_run.js}")) (str "demo") [0; 97] (Some [97]).
  Definition two : project := Project [(str "logo.svg", str "<svg></svg>")] (str "go();") (Some (str "{new wasm_run.js}")) (str "demo") [0; 98] None.
  Definition sharp : project := Project [(str "c#.svg", str "<svg/>")] (str "run();") None (str "demo") [0; 97] None.
  Definition bare : project := Project [(str "LICENSE", str "MIT")] (str "run();") None (str "demo") [0; 97] None.
  Definition built (es : list event) : list bytes * index * dir :=
    match w_built (play text es) with Some b => b | None => ([], Index [] [], []) end.
  Definition address (es : list event) (k : nat) : bytes := nth k (addresses (fst (fst (built es))) (snd (fst (built es)))) [].
End StaticDemo.
Import StaticDemo.

(** The program uses "/build/a b.….css": the browser asks for "/build/a%20b.….css" and gets the file. *)
Example C85_example : exists urls i d u, w_built (play text [EBuild public one]) = Some (urls, i, d) /\
  nth_error (addresses urls i) 1 = Some u /\ request_path u <> u /\ serve i d (request_path u) = Some (str "p{}") /\
  length (addresses urls i) = 4%nat /\ safe_name (str "a b.css").
Proof.
  exists (fst (fst (built [EBuild public one]))), (snd (fst (built [EBuild public one]))), (snd (built [EBuild public one])), (address [EBuild public one] 1).
  split; [vm_compute; reflexivity|]. split; [vm_compute; reflexivity|]. split; [vm_compute; discriminate|]. split; [vm_compute; reflexivity|].
  split; [vm_compute; reflexivity|]. split; [|vm_compute; reflexivity]. apply Forall_forall. intros b I. split.
  - vm_compute in I. repeat (destruct I as [<-|I]; [reflexivity|]). contradiction.
  - intros J. vm_compute in I, J. repeat (destruct I as [<-|I]; [repeat (destruct J as [J|J]; [discriminate|]); contradiction|]). contradiction.
Qed.

(** With "#" in its name a file is written but not found. *)
Theorem C85_sharp_refuted : exists es urls i d u, w_built (play text es) = Some (urls, i, d) /\ nth_error urls 0 = Some u /\
  content d (skipn 7 u) = Some (str "<svg/>") /\ serve i d (request_path u) = None.
Proof.
  exists [EBuild public sharp], (fst (fst (built [EBuild public sharp]))), (snd (fst (built [EBuild public sharp]))), (snd (built [EBuild public sharp])), (address [EBuild public sharp] 0).
  repeat split; vm_compute; reflexivity.
Qed.

(** A static file named without an extension stops the build. *)
Theorem C85_extension_refuted : exists es p, es = [EBuild public p] /\ p_static p <> [] /\ w_built (play text es) = None.
Proof. exists [EBuild public bare], bare. split; [reflexivity|]. split; [discriminate|]. vm_compute. reflexivity. Qed.

(** Files of earlier builds stay: they are copied to the cleaned destination again and again. *)
Theorem C85_leftover_refuted : exists es p urls i d n c, latest es = Some (public, p) /\ w_built (play text es) = Some (urls, i, d) /\
  content d n = Some c /\ ~ In c (map snd (files p)) /\ serve i d (request_path (public_to public n)) = Some c.
Proof.
  exists [EBuild public one; EBuild public two], two.
  exists (fst (fst (built ([EBuild public one; EBuild public two])))), (snd (fst (built ([EBuild public one; EBuild public two])))), (snd (built ([EBuild public one; EBuild public two]))), (skipn 7 (address [EBuild public one] 0)), (str "<svg/>").
  split; [reflexivity|]. split; [vm_compute; reflexivity|]. split; [vm_compute; reflexivity|]. split; [|vm_compute; reflexivity]. vm_compute. intros I. repeat (destruct I as [I|I]; [discriminate|]). contradiction.
Qed.

(** The new logo is used at once. *)
Example C86_example : exists es u, es = [EBuild public one; EGet (address [EBuild public one] 0); ETime 60; EBuild public two] /\
  u = address es 0 /\ fst (get u (play text es)) = Some (str "<svg></svg>") /\ all_builds public es /\
  latest es = Some (public, two) /\ no_clash es (str "logo.svg") (str "<svg></svg>") /\
  (forall es1 a es2, es = es1 ++ EGet a :: es2 -> fst (get a (play text es1)) <> None).
Proof.
  eexists _, _. split; [reflexivity|]. split; [reflexivity|]. split; [vm_compute; reflexivity|]. split; [|split; [reflexivity|split]].
  - intros pub p I. simpl in I. destruct I as [I|[I|[I|[I|[]]]]]; inversion I; subst; (split; [reflexivity|]);
      unfold plain_package; repeat (constructor; [vm_compute; intuition discriminate|]); constructor.
  - split; [repeat (constructor; [reflexivity|]); constructor|]. intros c' (pub & p & I & J). cbn [In] in I.
    destruct I as [I|[I|[I|[I|[]]]]]; inversion I; subst pub p; clear I; vm_compute in J;
      repeat (destruct J as [J|J]; [inversion J; clear J; (split; [repeat (constructor; [reflexivity|]); constructor|]); try reflexivity; vm_compute; discriminate|]); contradiction.
  - intros es1 a es2 E. destruct es1 as [|e1 [|e2 [|e3 [|e4 [|]]]]]; cbn [app] in E; try discriminate.
    assert (X : e1 = EBuild public one /\ a = address [EBuild public one] 0) by (split; congruence). destruct X as [-> ->]. vm_compute. discriminate.
Qed.

(** A response that says that a file is missing is kept for a day, also when the file has been built. *)
Theorem C86_missing_refuted : exists es p u c, latest es = Some (public, p) /\ nth_error (p_static p) 0 = Some (str "logo.svg", c) /\
  (exists urls i d, w_built (play text es) = Some (urls, i, d) /\ nth_error urls 0 = Some u /\ serve i d (request_path u) = Some c) /\
  fst (get u (play text es)) = None.
Proof.
  exists [EBuild public one; EGet (address [EBuild public two] 0); EBuild public two; ETime 86399], two, (address [EBuild public two] 0), (str "<svg></svg>").
  split; [reflexivity|]. split; [reflexivity|]. split; [|vm_compute; reflexivity].
  exists (fst (fst (built ([EBuild public one; EGet (address [EBuild public two] 0); EBuild public two; ETime 86399])))), (snd (fst (built ([EBuild public one; EGet (address [EBuild public two] 0); EBuild public two; ETime 86399])))), (snd (built ([EBuild public one; EGet (address [EBuild public two] 0); EBuild public two; ETime 86399]))).
  repeat split; vm_compute; reflexivity.
Qed.

(** The source map has no hash in its name: the old one is used with the new program. *)
Theorem C86_source_map_refuted : exists es p a m, latest es = Some (public, p) /\ fst (get a (play text es)) = Some m /\
  (exists urls i d m', w_built (play text es) = Some (urls, i, d) /\ serve i d (request_path a) = Some m' /\ m' <> m).
Proof.
  exists [EBuild public one; EGet (str "/build/wasm_run.js.map"); EBuild public two], two, (str "/build/wasm_run.js.map").
  eexists. split; [reflexivity|]. split; [vm_compute; reflexivity|].
  exists (fst (fst (built ([EBuild public one; EGet (str "/build/wasm_run.js.map"); EBuild public two])))), (snd (fst (built ([EBuild public one; EGet (str "/build/wasm_run.js.map"); EBuild public two])))), (snd (built ([EBuild public one; EGet (str "/build/wasm_run.js.map"); EBuild public two]))).
  eexists. split; [vm_compute; reflexivity|]. split; [vm_compute; reflexivity|]. discriminate.
Qed.
