(** Which program [vertigo build] takes: specification and theorems (C102). *)
From Coq Require Import String List NArith ZArith Bool Lia.
From Verif Require Import CodecModel DomWire StaticModel CargoModel.
Import ListNotations.
Local Open Scope string_scope.
Local Open Scope list_scope.

(** ** Specification *)

(** A member of the workspace that is an application: it has a target that is a cdylib. *)
Definition application (w : workspace) (p : package) : Prop :=
  In p (ws_packages w) /\ In (pk_id p) (ws_members w) /\ exists k, In k (pk_kinds p) /\ In (str "cdylib") k.
(** The ids of packages are different (the book of Cargo). *)
Definition ids_differ (w : workspace) : Prop := NoDup (map pk_id (ws_packages w)).
(** The package a build is about. *)
Definition about (w : workspace) (asked : option bytes) (name : bytes) : Prop :=
  match asked with Some n => name = n | None => exists p, application w p /\ pk_name p = name end.
(** What is in a place of a directory. *)
Definition holds (f : files) (d : path) (n c : bytes) : Prop := f (d ++ [n]) = Some c.
(** The name of the library of a package, unless the manifest gives another: hyphens become underscores. *)
Definition crate_name (n l : bytes) : Prop := Forall2 (fun a b => a = 45%N /\ b = 95%N \/ a <> 45%N /\ b = a) n l.
(** *** C102, full statement: a build that is over has put the program of its package into the destination; a failed one has left what was there. *)
Definition C102_statement : Prop :=
  forall w library program opt cwd dest asked f o f', build w library program opt cwd dest asked f o f' ->
  match o with
  | Done h => exists name, about w asked name /\ holds f' (cwd ++ dest) h (match opt (program name) with Some c => c | None => program name end)
  | Failed _ => forall p, below (cwd ++ dest) p = true -> f' p = f p
  | Panicked => False
  end.

(** ** Proofs *)

Lemma teq_is a b : teq a b = true <-> a = b.
Proof. unfold teq. destruct (list_eq_dec N.eq_dec a b); split; congruence. Qed.
Lemma peq_refl p : peq p p = true.
Proof. unfold peq. destruct (list_eq_dec (list_eq_dec N.eq_dec) p p); congruence. Qed.
Lemma below_app d p : below d (d ++ p) = true.
Proof. induction d as [|a d IH]; cbn; auto. rewrite (proj2 (teq_is a a) eq_refl). exact IH. Qed.
Lemma below_app_inv d p : below d p = true -> exists r, p = d ++ r.
Proof.
  revert p. induction d as [|a d IH]; intros p B; [exists p; reflexivity|]. destruct p as [|b p]; [discriminate|]. cbn in B.
  apply andb_true_iff in B. destruct B as [E B]. apply teq_is in E. subst. destruct (IH p B) as (r & ->). exists r. reflexivity.
Qed.

Lemma crate_name_is n l : crate_name n l -> l = underscores n.
Proof.
  induction 1 as [|a b n l [[-> ->]|[N ->]] _ IH]; [reflexivity| |]; cbn; f_equal; try exact IH. destruct (N.eqb_spec a 45); [contradiction|reflexivity].
Qed.
Lemma underscores_name n : crate_name n (underscores n).
Proof. unfold crate_name. induction n as [|a n IH]; cbn; constructor; auto. destruct (N.eqb_spec a 45); auto. Qed.

Lemma cdylib_is p : is_cdylib p = true <-> exists k, In k (pk_kinds p) /\ In (str "cdylib") k.
Proof.
  unfold is_cdylib. rewrite existsb_exists. split; intros (k & I & E); exists k; (split; [exact I|]).
  - apply existsb_exists in E. destruct E as (x & J & E). apply teq_is in E. subst. exact J.
  - apply existsb_exists. exists (str "cdylib"). split; [exact E|apply teq_is; reflexivity].
Qed.

Lemma retained m p : In p (ws_packages (get_workspace m)) <-> In p (ws_packages m) /\ In (pk_id p) (ws_members m).
Proof.
  unfold get_workspace. cbn [ws_packages]. rewrite filter_In, existsb_exists. split; intros (I & H); (split; [exact I|]).
  - destruct H as (x & J & E). apply teq_is in E. subst. exact J.
  - exists (pk_id p). split; [exact H|apply teq_is; reflexivity].
Qed.

Lemma infer_some packages members n : infer packages members = Some n ->
  exists p, In p packages /\ In (pk_id p) members /\ is_cdylib p = true /\ pk_name p = n.
Proof.
  induction members as [|id r IH]; [discriminate|]. cbn [infer]. destruct (find _ packages) as [p|] eqn:F.
  - destruct (is_cdylib p) eqn:C.
    + intros [= <-]. apply find_some in F. destruct F as [I E]. apply teq_is in E. exists p. split; [exact I|]. split; [left; symmetry; exact E|auto].
    + intros E. destruct (IH E) as (q & A & B & D). exists q. split; [exact A|]. split; [right; exact B|exact D].
  - intros E. destruct (IH E) as (q & A & B & D). exists q. split; [exact A|]. split; [right; exact B|exact D].
Qed.

Lemma infer_none packages members : NoDup (map pk_id packages) -> infer packages members = None ->
  forall p, In p packages -> In (pk_id p) members -> is_cdylib p = false.
Proof.
  intros D. induction members as [|id r IH]; [contradiction|]. cbn [infer]. intros E p I [J|J].
  - destruct (find (fun p => teq (pk_id p) id) packages) as [q|] eqn:F.
    + apply find_some in F. destruct F as [Q E']. apply teq_is in E'. assert (q = p); [|subst; destruct (is_cdylib p); [discriminate|reflexivity]].
      assert (S : pk_id q = pk_id p) by congruence. clear -D Q I S. induction packages as [|x l IHl]; [contradiction|]. inversion D; subst.
      destruct Q as [->|Q], I as [->|I]; auto; exfalso; apply H1; apply in_map_iff; [exists p|exists q]; auto.
    + apply (find_none _ _ F) in I. cbv beta in I. rewrite J, (proj2 (teq_is _ _) eq_refl) in I. discriminate.
  - apply IH; auto. destruct (find _ packages) as [q|]; [destruct (is_cdylib q); [discriminate|exact E]|exact E].
Qed.

(** C102: without a name, an application of the workspace is built if there is one; a package that merely is a dependency never is. *)
Theorem C102_infer : forall m, ids_differ m ->
  match infer_package_name (get_workspace m) with
  | Some n => exists p, application m p /\ pk_name p = n
  | None => forall p, ~ application m p
  end.
Proof.
  intros m D. unfold infer_package_name. destruct (infer _ _) as [n|] eqn:E.
  - apply infer_some in E. destruct E as (p & I & J & C & N). exists p. split; [|exact N]. apply retained in I. destruct I as [I _].
    split; [exact I|]. split; [exact J|]. apply cdylib_is. exact C.
  - intros p (I & J & K). assert (X : is_cdylib p = false).
    { eapply infer_none; [|exact E| |exact J].
      - unfold get_workspace. cbn [ws_packages]. unfold ids_differ in D. clear -D. induction (ws_packages m) as [|x l IHl]; cbn; [constructor|].
        inversion D; subst. destruct (existsb _ _); cbn; [|auto]. constructor; [|auto]. intros I. apply in_map_iff in I. destruct I as (y & E & I).
        apply filter_In in I. apply H1. apply in_map_iff. exists y. tauto.
      - apply retained. auto. }
    apply cdylib_is in K. congruence.
Qed.
(** The order of the members decides between several: it is the first of them. *)
Theorem C102_first : forall m p before after, ids_differ m -> application m p -> ws_members m = before ++ pk_id p :: after ->
  (forall q, application m q -> ~ In (pk_id q) before) -> infer_package_name (get_workspace m) = Some (pk_name p).
Proof.
  intros m p before after D (I & J & K) E N. unfold infer_package_name. change (ws_members (get_workspace m)) with (ws_members m). rewrite E.
  assert (R : In p (ws_packages (get_workspace m))) by (apply retained; auto).
  assert (U : forall q, In q (ws_packages (get_workspace m)) -> pk_id q = pk_id p -> q = p).
  { intros q Q S. apply retained in Q. destruct Q as [Q _]. unfold ids_differ in D. clear -D Q I S. induction (ws_packages m) as [|x l IHl]; [contradiction|].
    inversion D; subst. destruct Q as [->|Q], I as [->|I]; auto; exfalso; apply H1; apply in_map_iff; [exists p|exists q]; auto. }
  assert (B : forall id, In id before -> forall q, In q (ws_packages (get_workspace m)) -> pk_id q = id -> is_cdylib q = false).
  { intros id L q Q S. destruct (is_cdylib q) eqn:C; [|reflexivity]. exfalso. apply (N q); [|rewrite S; exact L]. apply retained in Q.
    split; [apply Q|]. split; [apply Q|]. apply cdylib_is. exact C. }
  clear E N. induction before as [|id r IH]; cbn [app infer].
  - destruct (find _ _) as [q|] eqn:F.
    + apply find_some in F. destruct F as [Q S]. apply teq_is in S. rewrite (U q Q S). rewrite (proj2 (cdylib_is p) K). reflexivity.
    + apply (find_none _ _ F) in R. cbv beta in R. rewrite (proj2 (teq_is _ _) eq_refl) in R. discriminate.
  - assert (X : infer (ws_packages (get_workspace m)) (r ++ pk_id p :: after) = Some (pk_name p)) by (apply IH; intros i L; apply B; right; exact L).
    destruct (find _ _) as [q|] eqn:F; [|exact X]. apply find_some in F. destruct F as [Q S]. apply teq_is in S.
    rewrite (B id (or_introl eq_refl) q Q S). exact X.
Qed.

Lemma dot_stem a b : ~ In 46%N b -> a <> [] -> stem_ext (a ++ 46%N :: b) = Some (a, b).
Proof.
  intros N A. assert (E : last_dot (a ++ 46%N :: b) = Some (a, b)).
  { clear A. assert (Z : last_dot b = None).
    { induction b as [|c b IH]; [reflexivity|]. cbn. rewrite IH by (intros I; apply N; right; exact I).
      destruct (N.eqb_spec c 46); [subst; exfalso; apply N; left; reflexivity|reflexivity]. }
    induction a as [|c a IH]; cbn [app last_dot]; [rewrite Z; reflexivity|]. rewrite IH. reflexivity. }
  unfold stem_ext. rewrite E. destruct a; [congruence|reflexivity].
Qed.

(** C102: in a directory whose "target" is that of cargo, for a package whose library has the name cargo gives it by itself, a build that cargo
    finishes puts the program of the package into the destination.  Partial: see the refutations for other directories and names, and for what
    a failing build leaves. *)
Theorem C102_program_partial : forall m library program opt cwd dest asked f o f', ids_differ m ->
  ws_target m = cwd ++ [str "target"] -> (forall n, crate_name n (library n)) -> asked <> Some [] -> (forall p, application m p -> pk_name p <> []) ->
  build (get_workspace m) library program opt cwd dest asked f o f' ->
  match o with
  | Done h => exists name, about m asked name /\ holds f' (cwd ++ dest) h (match opt (program name) with Some c => c | None => program name end)
  | Failed (-1)%Z => asked = None /\ forall p, ~ application m p
  | Failed _ => True
  | Panicked => False
  end.
Proof.
  intros m library program opt cwd dest asked f o f' D T L N0 N1 B.
  assert (W : forall name, match asked with Some n => Some n | None => infer_package_name (get_workspace m) end = Some name -> about m asked name).
  { intros name E. unfold about. destruct asked as [n|]; [congruence|]. pose proof (C102_infer m D) as H. rewrite E in H. exact H. }
  assert (P : forall name f0 f1, cargo (get_workspace m) library program name f0 true f1 -> f1 (find_wasm cwd name) = Some (program name)).
  { intros name f0 f1 (_ & C). specialize (C eq_refl). change (ws_target (get_workspace m)) with (ws_target m) in C. rewrite T, (crate_name_is _ _ (L name)) in C.
    unfold find_wasm. rewrite <- app_assoc in C. exact C. }
  destruct B as [A E|name f1 E C|name f1 E C X|name f1 c h E C X H].
  - split; [exact A|]. pose proof (C102_infer m D) as I. rewrite E in I. exact I.
  - exact Logic.I.
  - rewrite (P _ _ _ C) in X. discriminate.
  - rewrite (P _ _ _ C) in X. injection X as <-. exists name. split; [apply W; exact E|]. unfold holds, put. rewrite <- app_assoc, peq_refl. reflexivity.
Qed.

(** C102: nothing outside of the destination and the directories "target" is touched. *)
Theorem C102_outside : forall w library program opt cwd dest asked f o f' p, build w library program opt cwd dest asked f o f' ->
  below (cwd ++ dest) p = false -> below (ws_target w) p = false -> below (cwd ++ [str "target"]) p = false -> f' p = f p.
Proof.
  intros w library program opt cwd dest asked f o f' p B D T R.
  assert (G : forall name ok f1, cargo w library program name (remove_one (find_rlib cwd name) (remove_dir (cwd ++ dest) f)) ok f1 -> f1 p = f p).
  { intros name ok f1 (C & _). rewrite C by exact T. unfold remove_one, remove_dir. rewrite D. unfold peq.
    destruct (list_eq_dec (list_eq_dec N.eq_dec) (find_rlib cwd name) p) as [<-|]; [|reflexivity].
    unfold find_rlib in R. rewrite app_assoc, below_app in R. discriminate. }
  destruct B as [A E|name f1 E C|name f1 E C X|name f1 c h E C X H]; eauto.
  unfold put, peq. destruct (list_eq_dec (list_eq_dec N.eq_dec) (cwd ++ dest ++ [h]) p) as [<-|]; [|eauto].
  rewrite app_assoc, below_app in D. discriminate.
Qed.

(** C102: the name under which it is put exists for every package. *)
Theorem C102_named : forall name c, name <> [] -> exists h, hashed_name (underscores name ++ str ".wasm") c = Some h.
Proof.
  intros name c N. unfold hashed_name. change (str ".wasm") with (46%N :: str "wasm"). rewrite dot_stem.
  - eexists. reflexivity.
  - cbn. intuition discriminate.
  - destruct name; [congruence|discriminate].
Qed.

(** ** Refutations *)

Definition app_package : package := Package (str "app 0.1.0") (str "app") [str "home"; str "Cargo.toml"] [[str "cdylib"; str "rlib"]].
Definition home_ws (target : path) : workspace := Workspace [app_package] target [str "app 0.1.0"] [str "home"].
Definition new_program : bytes -> bytes := fun _ => str "new".
(** The files of a project that was built before. *)
Definition old_files : files := fun p =>
  if peq p [str "home"; str "target"; str "wasm32-unknown-unknown"; str "release"; str "app.wasm"] then Some (str "old")
  else if peq p [str "home"; str "build"; str "app.Mw.wasm"] then Some (str "old") else None.

(** C102: a package is found in the directory of its manifest, if it is one of the workspace. *)
Theorem C102_path : forall m name d, find_package_path (get_workspace m) name = Some d ->
  exists p file, In p (ws_packages m) /\ In (pk_id p) (ws_members m) /\ pk_name p = name /\ pk_manifest p = d ++ [file].
Proof.
  intros m name d H. unfold find_package_path in H. destruct (find _ _) as [p|] eqn:F; [|discriminate].
  apply find_some in F. destruct F as [I E]. apply retained in I. apply teq_is in E. destruct (pk_manifest p) as [|x l] eqn:M; [discriminate|].
  exists p, (last (x :: l) []). split; [apply I|]. split; [apply I|]. split; [exact E|]. injection H as <-. rewrite M. apply app_removelast_last. discriminate.
Qed.
(** C102: and every one of the workspace is found. *)
Theorem C102_found : forall m p, In p (ws_packages m) -> In (pk_id p) (ws_members m) -> (forall q, In q (ws_packages m) -> pk_manifest q <> []) ->
  exists d, find_package_path (get_workspace m) (pk_name p) = Some d.
Proof.
  intros m p I J N. unfold find_package_path. destruct (find _ _) as [q|] eqn:F.
  - apply find_some in F. destruct F as [Q _]. apply retained in Q. destruct Q as [Q _]. specialize (N q Q). destruct (pk_manifest q); [congruence|]. eexists. reflexivity.
  - assert (R : In p (ws_packages (get_workspace m))) by (apply retained; auto).
    apply (find_none _ _ F) in R. cbv beta in R. rewrite (proj2 (teq_is _ _) eq_refl) in R. discriminate.
Qed.

(** C102 does not hold when cargo builds into another directory (CARGO_TARGET_DIR, or a build.target-dir): the old program is taken. *)
Theorem C102_target_refuted : exists m f f' h, ids_differ m /\ infer_package_name (get_workspace m) = Some (str "app") /\
  build (get_workspace m) underscores new_program (fun _ => None) [str "home"] [str "build"] None f (Done h) f' /\
  holds f' [str "home"; str "build"] h (str "old").
Proof.
  set (out := [str "tmp"; str "out"]).
  set (f1 := put (out ++ release ++ [str "app.wasm"]) (str "new")
               (remove_one (find_rlib [str "home"] (str "app")) (remove_dir [str "home"; str "build"] old_files))).
  destruct (hashed_name (str "app.wasm") (str "old")) as [h|] eqn:H; [|vm_compute in H; discriminate].
  exists (home_ws out), old_files, (put ([str "home"] ++ [str "build"] ++ [h]) (str "old") f1), h.
  split; [repeat constructor; cbn; auto|]. split; [vm_compute; reflexivity|]. split.
  - apply (build_done (get_workspace (home_ws out)) underscores new_program (fun _ => None) [str "home"] [str "build"] None old_files (str "app") f1 (str "old") h); [vm_compute; reflexivity| |vm_compute; reflexivity|exact H].
    split; [|intros _; vm_compute; reflexivity]. intros p B. unfold f1, put. unfold peq.
    destruct (list_eq_dec _ _ p) as [<-|]; [|reflexivity]. cbn in B. discriminate.
  - unfold holds, put. change ([str "home"] ++ [str "build"] ++ [h]) with ([str "home"; str "build"] ++ [h]). rewrite peq_refl. reflexivity.
Qed.
(** … or when it is run in a directory of the workspace that is not its root: there is no program where it is looked for. *)
Theorem C102_directory_refuted : exists m f f', ids_differ m /\ infer_package_name (get_workspace m) = Some (str "app") /\
  build (get_workspace m) underscores new_program (fun _ => None) [str "home"; str "app"] [str "build"] None f Panicked f'.
Proof.
  set (f1 := put ([str "home"; str "target"] ++ release ++ [str "app.wasm"]) (str "new") (fun _ => None)).
  exists (home_ws [str "home"; str "target"]), (fun _ => None), f1.
  split; [repeat constructor; cbn; auto|]. split; [vm_compute; reflexivity|].
  apply (build_panic _ _ _ _ _ _ _ _ (str "app") f1); [vm_compute; reflexivity| |vm_compute; reflexivity].
  split; [|intros _; vm_compute; reflexivity]. intros p B. unfold f1, put, remove_one, remove_dir, peq.
  destruct (list_eq_dec _ _ p) as [<-|]; [cbn in B; discriminate|]. destruct (list_eq_dec _ _ p); [reflexivity|]. clear. destruct (below _ p); reflexivity.
Qed.
(** … or when the library of the package has a name of its own. *)
Theorem C102_library_refuted : exists m library f f', ids_differ m /\ ws_target m = [str "home"; str "target"] /\
  build (get_workspace m) library new_program (fun _ => None) [str "home"] [str "build"] None f Panicked f'.
Proof.
  set (f1 := put ([str "home"; str "target"] ++ release ++ [str "site.wasm"]) (str "new") (fun _ => None)).
  exists (home_ws [str "home"; str "target"]), (fun _ => str "site"), (fun _ => None), f1.
  split; [repeat constructor; cbn; auto|]. split; [reflexivity|].
  apply (build_panic _ _ _ _ _ _ _ _ (str "app") f1); [vm_compute; reflexivity| |vm_compute; reflexivity].
  split; [|intros _; vm_compute; reflexivity]. intros p B. unfold f1, put, remove_one, remove_dir, peq.
  destruct (list_eq_dec _ _ p) as [<-|]; [cbn in B; discriminate|]. destruct (list_eq_dec _ _ p); [reflexivity|]. clear. destruct (below _ p); reflexivity.
Qed.
(** A build that fails has removed what was built before. *)
Theorem C102_failed_refuted : exists m f f' p c, ids_differ m /\ ws_target m = [str "home"; str "target"] /\
  build (get_workspace m) underscores new_program (fun _ => None) [str "home"] [str "build"] None f (Failed (-2)) f' /\
  below [str "home"; str "build"] p = true /\ f p = Some c /\ f' p = None.
Proof.
  exists (home_ws [str "home"; str "target"]), old_files, (remove_one (find_rlib [str "home"] (str "app")) (remove_dir [str "home"; str "build"] old_files)),
    [str "home"; str "build"; str "app.Mw.wasm"], (str "old").
  split; [repeat constructor; cbn; auto|]. split; [reflexivity|]. split.
  - apply (build_error _ _ _ _ _ _ _ _ (str "app")); [vm_compute; reflexivity|]. split; [reflexivity|discriminate].
  - split; [reflexivity|]. split; vm_compute; reflexivity.
Qed.
Theorem C102_statement_refuted : ~ C102_statement.
Proof.
  intros S. destruct C102_failed_refuted as (m & f & f' & p & c & _ & _ & B & I & E & F). apply S in B. cbn iota in B. rewrite B in F by exact I. congruence.
Qed.

(** ** Examples *)

(** A workspace of three members, the second of them an application, and a dependency that is a cdylib. *)
Definition ex_ws : workspace := Workspace
  [Package (str "dep") (str "dep") [str "reg"; str "Cargo.toml"] [[str "cdylib"]];
   Package (str "lib 1") (str "lib") [str "home"; str "lib"; str "Cargo.toml"] [[str "rlib"]];
   Package (str "my-app 1") (str "my-app") [str "home"; str "app"; str "Cargo.toml"] [[str "cdylib"; str "rlib"]; [str "bin"]]]
  [str "home"; str "target"] [str "lib 1"; str "my-app 1"] [str "home"].
Example C102_infer_example : ids_differ ex_ws /\ infer_package_name (get_workspace ex_ws) = Some (str "my-app") /\
  find_package_path (get_workspace ex_ws) (str "my-app") = Some [str "home"; str "app"] /\ find_package_path (get_workspace ex_ws) (str "dep") = None.
Proof. split; [|vm_compute; auto]. repeat constructor; cbn; intuition discriminate. Qed.
Example C102_program_partial_example : exists f' h, ids_differ ex_ws /\ ws_target ex_ws = [str "home"] ++ [str "target"] /\
  (forall p, application ex_ws p -> pk_name p <> []) /\ (forall n, crate_name n (underscores n)) /\
  build (get_workspace ex_ws) underscores new_program (fun c => Some (c ++ str "!")) [str "home"] [str "build"] None old_files (Done h) f' /\
  holds f' [str "home"; str "build"] h (str "new!") /\ f' [str "home"; str "build"; str "app.Mw.wasm"] = None.
Proof.
  set (f1 := put ([str "home"; str "target"] ++ release ++ [str "my_app.wasm"]) (str "new")
               (remove_one (find_rlib [str "home"] (str "my-app")) (remove_dir [str "home"; str "build"] old_files))).
  destruct (hashed_name (str "my_app.wasm") (str "new!")) as [h|] eqn:H; [|vm_compute in H; discriminate].
  exists (put ([str "home"] ++ [str "build"] ++ [h]) (str "new!") f1), h.
  split; [repeat constructor; cbn; intuition discriminate|]. split; [reflexivity|]. split.
  - intros p (I & _). cbn in I. intuition (subst; discriminate).
  - split; [exact underscores_name|]. split; [|split].
    + apply (build_done (get_workspace ex_ws) underscores new_program (fun c => Some (c ++ str "!")) [str "home"] [str "build"] None old_files (str "my-app") f1 (str "new") h); [vm_compute; reflexivity| |vm_compute; reflexivity|exact H].
      split; [|intros _; vm_compute; reflexivity]. intros p B. unfold f1, put, peq.
      destruct (list_eq_dec _ _ p) as [<-|]; [|reflexivity]. cbn in B. discriminate.
    + unfold holds, put. change ([str "home"] ++ [str "build"] ++ [h]) with ([str "home"; str "build"] ++ [h]). rewrite peq_refl. reflexivity.
    + vm_compute in H. injection H as <-. vm_compute. reflexivity.
Qed.
