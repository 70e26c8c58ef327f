(** [vertigo new]: specification and theorems (C103). *)
From Coq Require Import String List NArith ZArith Bool Lia.
From Verif Require Import CodecModel DomWire SmallModel StaticModel CargoModel CargoProps ScaffoldModel.
Import ListNotations.
Local Open Scope string_scope.
Local Open Scope list_scope.
Local Open Scope N_scope.

(** ** Specification *)

(** Things are in directories. *)
Definition consistent (f : disk) : Prop := forall d n e, f (d ++ [n]) = Some e -> f d = Some Dir.
(** There is something in a directory. *)
Definition occupied (f : disk) (d : path) : Prop := exists n e, f (d ++ [n]) = Some e.
(** A path ends in a file at some place. *)
Definition obstructed (f : disk) (d : path) : Prop := exists a b c, d = a ++ b /\ f a = Some (File c).
(** Text one may write between the quotes of TOML as it is. *)
Definition plain (n : bytes) : Prop := Forall (fun c => c <> 34 /\ c <> 92 /\ 32 <= c /\ c <> 127) n.
(** A manifest that begins with its package gives its name. *)
Definition manifest_name (text n : bytes) : Prop :=
  plain n /\ exists rest, text = str "[package]" ++ [10] ++ str "name = " ++ [34] ++ n ++ [34; 10] ++ rest.
(** It asks for a library that is an application. *)
Definition makes_cdylib (text : bytes) : Prop :=
  exists a b, text = a ++ [10] ++ str "[lib]" ++ [10] ++ str "crate-type = [""cdylib"", ""rlib""]" ++ [10] ++ b.

(** ** Proofs *)

Lemma peq_is a b : peq a b = true <-> a = b.
Proof. unfold peq. destruct (list_eq_dec _ a b); split; congruence. Qed.
Lemma peq_not a b : a <> b -> peq a b = false.
Proof. intros H. destruct (peq a b) eqn:E; [apply peq_is in E; contradiction|reflexivity]. Qed.

Lemma above_in d p : In p (above d) <-> exists r, d = p ++ r.
Proof.
  unfold above. rewrite in_map_iff. split.
  - intros (n & <- & _). exists (skipn n d). symmetry. apply firstn_skipn.
  - intros (r & ->). exists (length p). split; [rewrite firstn_app, Nat.sub_diag, firstn_all; apply app_nil_r|]. apply in_seq. rewrite app_length. lia.
Qed.

Lemma create_ok d f : ~ obstructed f d -> exists f1, create_dir_all d f = Some f1 /\
  (forall p, (exists r, d = p ++ r) -> f1 p = Some Dir) /\ (forall p, (forall r, d <> p ++ r) -> f1 p = f p).
Proof.
  intros H. unfold create_dir_all. destruct (existsb _ (above d)) eqn:E.
  - exfalso. apply existsb_exists in E. destruct E as (p & I & E). apply above_in in I. destruct I as (r & ->).
    destruct (f p) as [[|c]|] eqn:F; try discriminate. apply H. exists p, r, c. auto.
  - eexists. split; [reflexivity|]. cbv beta. split; intros p I.
    + destruct (existsb (peq p) (above d)) eqn:X; [reflexivity|]. apply above_in in I.
      assert (Y : existsb (peq p) (above d) = true) by (apply existsb_exists; exists p; split; [exact I|apply peq_refl]). congruence.
    + destruct (existsb (peq p) (above d)) eqn:X; [|reflexivity]. apply existsb_exists in X. destruct X as (q & J & X). apply peq_is in X. subst.
      apply above_in in J. destruct J as (r & J). exfalso. apply (I r J).
Qed.

Lemma replaced name : replace (str "my_app") name template_toml =
  str "[package]" ++ [10] ++ str "name = " ++ [34] ++ name ++ [34; 10] ++ skipn 26 template_toml.
Proof. vm_compute. reflexivity. Qed.

Lemma lib_part : makes_cdylib (skipn 26 template_toml).
Proof. exists (firstn 133 (skipn 26 template_toml)), (str "" ++ [10] ++ str "[dependencies]" ++ [10] ++ str "vertigo = ""0.6""" ++ [10]). vm_compute. reflexivity. Qed.

Lemma empty_below f d : consistent f -> ~ occupied f d -> forall r, r <> [] -> f (d ++ r) = None.
Proof.
  intros C O r R. destruct r as [|n r]; [congruence|]. clear R. destruct (f (d ++ n :: r)) as [e|] eqn:E; [|reflexivity]. exfalso.
  assert (G : forall l a e, f (a ++ l) = Some e -> l <> [] -> f a = Some Dir).
  { induction l as [|x l IH] using rev_ind; [congruence|]. intros a e' F _. rewrite app_assoc in F. apply C in F. destruct l as [|y l]; [rewrite app_nil_r in F; exact F|].
    apply (IH a Dir F). discriminate. }
  apply O. exists n. destruct r as [|x r]; [exists e; exact E|]. exists Dir. apply (G (x :: r) (d ++ [n]) e); [rewrite <- app_assoc; exact E|discriminate].
Qed.

(** C103: into a place where there is nothing a project is put: its manifest with the name asked for, its source, and nothing else; everything else
    on the disk stays as it was. *)
Theorem C103_project : forall f dest name, consistent f -> ~ occupied f (dest ++ [name]) -> ~ obstructed f (dest ++ [name]) ->
  exists f', run false dest name f = (0%Z, f') /\
  (exists t, f' (dest ++ [name; str "Cargo.toml"]) = Some (File t) /\ (plain name -> manifest_name t name) /\ makes_cdylib t) /\
  f' (dest ++ [name; str "src"; str "lib.rs"]) = Some (File template_lib) /\
  (exists t, f' (dest ++ [name; str ".gitignore"]) = Some (File t) /\ forall l, In l [str "/build"; str "/target"] -> exists a b, t = a ++ l ++ [10] ++ b) /\
  (forall r, r <> [] -> f' (dest ++ [name] ++ r) <> None -> In r [[str "Cargo.toml"]; [str "src"]; [str "src"; str "lib.rs"]; [str ".gitignore"]]) /\
  (forall p, below (dest ++ [name]) p = false -> (exists r, dest = p ++ r) \/ f' p = f p).
Proof.
  intros f dest name C O B. unfold run. set (d := dest ++ [name]) in *. destruct (create_ok d f B) as (f1 & E & U & S). rewrite E.
  eexists. split; [reflexivity|].
  assert (D : forall l, dest ++ name :: l = d ++ l) by (intros l; unfold d; rewrite <- app_assoc; reflexivity).
  assert (N : forall a b : path, a <> b -> peq (d ++ a) (d ++ b) = false) by (intros a b X; apply peq_not; intros Y; apply X; apply (app_inv_head d); exact Y).
  split; [|split; [|split; [|split]]].
  - exists (replace (str "my_app") name template_toml). rewrite D. unfold write_file at 1. rewrite peq_refl. split; [reflexivity|]. rewrite replaced. split.
    + intros P. split; [exact P|]. eexists. reflexivity.
    + destruct lib_part as (a & b & T). rewrite T. exists (str "[package]" ++ [10] ++ str "name = " ++ [34] ++ name ++ [34; 10] ++ a), b.
      rewrite <- !app_assoc. reflexivity.
  - rewrite D. unfold write_file at 1. rewrite N by discriminate. unfold unlink. rewrite N by discriminate. unfold extract, write_file. rewrite peq_refl. reflexivity.
  - exists template_ignore. split.
    + rewrite D. unfold write_file at 1. rewrite N by discriminate. unfold unlink. rewrite N by discriminate. unfold extract, write_file.
      rewrite !N by discriminate. rewrite peq_refl. reflexivity.
    + intros l [<-|[<-|[]]]; [exists [], (str "/target" ++ [10] ++ str "Cargo.lock" ++ [10])|exists (str "/build" ++ [10]), (str "Cargo.lock" ++ [10])]; reflexivity.
  - intros r R H. change (dest ++ [name] ++ r) with (dest ++ (name :: r)) in H. rewrite D in H. unfold write_file at 1 in H.
    destruct (peq (d ++ [str "Cargo.toml"]) (d ++ r)) eqn:X1; [apply peq_is, app_inv_head in X1; left; exact X1|].
    unfold unlink in H. destruct (peq (d ++ [str "Cargo.toml_"]) (d ++ r)) eqn:X2; [congruence|]. unfold extract, write_file in H.
    destruct (peq (d ++ [str "src"; str "lib.rs"]) (d ++ r)) eqn:X3; [apply peq_is, app_inv_head in X3; right; right; left; exact X3|].
    destruct (peq (d ++ [str "src"]) (d ++ r)) eqn:X4; [apply peq_is, app_inv_head in X4; right; left; exact X4|]. rewrite X2 in H.
    destruct (peq (d ++ [str ".gitignore"]) (d ++ r)) eqn:X5; [apply peq_is, app_inv_head in X5; right; right; right; left; exact X5|].
    rewrite S in H; [rewrite (empty_below f d C O r R) in H; congruence|].
    intros q Y. rewrite <- app_assoc in Y. rewrite <- (app_nil_r d) in Y at 1. apply app_inv_head in Y. destruct r; [congruence|discriminate].
  - intros p Q. assert (M : forall l, peq (d ++ l) p = false).
    { intros l. apply peq_not. intros <-. rewrite below_app in Q. discriminate. }
    unfold write_file at 1. rewrite M. unfold unlink. rewrite M. unfold extract, write_file. rewrite !M.
    destruct (in_dec (list_eq_dec (list_eq_dec N.eq_dec)) p (above d)) as [I|I].
    + left. apply above_in in I. destruct I as (r & I). destruct r as [|x r] using rev_ind.
      * rewrite app_nil_r in I. subst p. specialize (M []). rewrite app_nil_r in M. rewrite peq_refl in M. discriminate.
      * exists r. unfold d in I. rewrite app_assoc in I. apply app_inj_tail in I. apply I.
    + right. apply S. intros r X. apply I. apply above_in. exists r. exact X.
Qed.

(** C103: where there is something already, nothing is changed. *)
Theorem C103_refused : forall f dest name listed, (occupied f (dest ++ [name]) -> listed = true) ->
  occupied f (dest ++ [name]) \/ obstructed f (dest ++ [name]) -> exists code, run listed dest name f = (code, f) /\ code <> 0%Z.
Proof.
  intros f dest name listed L H. unfold run. destruct listed; [exists (-1)%Z; split; [reflexivity|discriminate]|].
  destruct H as [H|(a & b & c & E & F)]; [specialize (L H); discriminate|]. unfold create_dir_all.
  destruct (existsb _ (above (dest ++ [name]))) eqn:X; [exists (-2)%Z; split; [reflexivity|discriminate]|].
  assert (Y : existsb (fun p => match f p with Some (File _) => true | _ => false end) (above (dest ++ [name])) = true).
  { apply existsb_exists. exists a. split; [apply above_in; exists b; exact E|rewrite F; reflexivity]. }
  congruence.
Qed.

(** C103: the new project is built: [vertigo build] in its directory serves its program.  What cargo says about it is what its manifest says
    (the target directory is its own, the library has the name of the package). *)
Theorem C103_builds : forall id dest name library program opt out f o f', name <> [] -> (forall n, crate_name n (library n)) ->
  build (get_workspace (Workspace [Package id name (dest ++ [name; str "Cargo.toml"]) [[str "cdylib"; str "rlib"]]]
           (dest ++ [name] ++ [str "target"]) [id] (dest ++ [name]))) library program opt (dest ++ [name]) out None f o f' ->
  o = Failed (-2) \/ exists h, o = Done h /\ holds f' ((dest ++ [name]) ++ out) h (match opt (program name) with Some c => c | None => program name end).
Proof.
  intros id dest name library program opt out f o f' N L B. set (m := Workspace _ _ _ _) in B.
  assert (I : infer_package_name (get_workspace m) = Some name).
  { unfold infer_package_name, get_workspace, m. cbn [ws_packages ws_members filter existsb pk_id]. rewrite (proj2 (teq_is id id) eq_refl). cbn [orb infer find pk_id].
    rewrite (proj2 (teq_is id id) eq_refl). reflexivity. }
  assert (D : ids_differ m) by (repeat constructor; cbn; auto).
  pose proof (C102_program_partial m library program opt (dest ++ [name]) out None f o f' D) as T.
  assert (W : ws_target m = (dest ++ [name]) ++ [str "target"]) by (unfold m; cbn [ws_target]; rewrite <- app_assoc; reflexivity).
  specialize (T W L ltac:(discriminate)). assert (K : forall p, application m p -> pk_name p <> []).
  { intros p (J & _). destruct J as [<-|[]]. exact N. }
  specialize (T K B). inversion B; subst; auto.
  - congruence.
  - contradiction.
  - right. exists h. split; [reflexivity|]. destruct T as (n & A & H3). destruct A as (p & (J & _) & E). destruct J as [<-|[]]. cbn [pk_name] in E. subst n. exact H3.
Qed.

(** A name that is none for TOML is not refused; the project then has no name. *)
Theorem C103_name_refuted : exists f dest name f' t, consistent f /\ run false dest name f = (0%Z, f') /\
  f' (dest ++ [name; str "Cargo.toml"]) = Some (File t) /\ forall n, ~ manifest_name t n.
Proof.
  exists (fun _ => None), [str "home"], (str "a""b"). eexists. exists (replace (str "my_app") (str "a""b") template_toml).
  split; [intros d n e; discriminate|]. split; [reflexivity|]. split; [vm_compute; reflexivity|].
  rewrite replaced. intros n (P & rest & E). do 4 apply app_inv_head in E. change (str "a""b") with [97; 34; 98] in E. unfold plain in P.
  destruct n as [|x n]; [discriminate|]. cbn [app] in E. injection E as E1 E. destruct n as [|y n]; [discriminate|]. cbn [app] in E. injection E as E2 E.
  subst. inversion P as [|? ? _ P']; subst. inversion P' as [|? ? Q _]; subst. destruct Q as [Q _]. apply Q. reflexivity.
Qed.

(** ** Examples *)

(** A home with one file. *)
Definition ex_disk : disk := fun p => match p with
  | [] => Some Dir
  | [a] => if teq a (str "home") then Some Dir else None
  | [a; b] => if teq a (str "home") then if teq b (str "notes") then Some (File (str "x")) else None else None
  | _ => None
  end.
Example C103_project_example : consistent ex_disk /\ ~ occupied ex_disk ([str "home"] ++ [str "shop"]) /\ ~ obstructed ex_disk ([str "home"] ++ [str "shop"]) /\
  plain (str "shop") /\ snd (run false [str "home"] (str "shop") ex_disk) [str "home"; str "shop"] = Some Dir /\
  snd (run false [str "home"] (str "shop") ex_disk) [str "home"; str "notes"] = Some (File (str "x")).
Proof.
  split; [|split; [|split; [|split; [|split]]]].
  - intros d n e H. destruct d as [|a [|b [|c d]]]; [reflexivity| |discriminate|discriminate]. unfold ex_disk in *. cbn [app] in H.
    destruct (teq a (str "home")); [reflexivity|discriminate].
  - intros (n & e & H). discriminate.
  - intros (a & b & c & E & F). unfold ex_disk in F. destruct a as [|x [|y [|z a]]]; [discriminate| | |discriminate].
    + destruct (teq x (str "home")); discriminate.
    + injection E as <- <- E. discriminate.
  - repeat constructor; discriminate || lia.
  - vm_compute. reflexivity.
  - vm_compute. reflexivity.
Qed.
Example C103_refused_example : occupied ex_disk ([] ++ [str "home"]) /\ obstructed ex_disk ([str "home"; str "notes"] ++ [str "shop"]) /\
  run false [str "home"; str "notes"] (str "shop") ex_disk = ((-2)%Z, ex_disk).
Proof.
  split; [exists (str "notes"), (File (str "x")); reflexivity|]. split; [|reflexivity].
  exists [str "home"; str "notes"], [str "shop"], (str "x"). split; reflexivity.
Qed.
Example C103_builds_example : exists h f', str "my-shop" <> [] /\
  build (get_workspace (Workspace [Package (str "1") (str "my-shop") ([str "home"] ++ [str "my-shop"; str "Cargo.toml"]) [[str "cdylib"; str "rlib"]]]
           ([str "home"] ++ [str "my-shop"] ++ [str "target"]) [str "1"] ([str "home"] ++ [str "my-shop"])))
    underscores new_program (fun _ => None) ([str "home"] ++ [str "my-shop"]) [str "build"] None (fun _ => None) (Done h) f' /\
  holds f' [str "home"; str "my-shop"; str "build"] h (str "new").
Proof.
  set (w := get_workspace _).
  set (f1 := put ([str "home"; str "my-shop"; str "target"] ++ release ++ [str "my_shop.wasm"]) (str "new") (fun _ => None)).
  destruct (hashed_name (str "my_shop.wasm") (str "new")) as [h|] eqn:H; [|vm_compute in H; discriminate].
  exists h, (put ([str "home"; str "my-shop"] ++ [str "build"] ++ [h]) (str "new") f1). split; [discriminate|]. split.
  - apply (build_done w underscores new_program (fun _ => None) [str "home"; str "my-shop"] [str "build"] None (fun _ => None) (str "my-shop") f1 (str "new") h);
      [vm_compute; reflexivity| |vm_compute; reflexivity|exact H].
    split; [|intros _; vm_compute; reflexivity]. intros p B. unfold f1, put, peq. destruct (list_eq_dec _ _ p) as [<-|].
    + cbn in B. discriminate.
    + unfold remove_one, remove_dir. destruct (peq _ _); [reflexivity|]. destruct (below (_ ++ [str "build"]) p); reflexivity.
  - unfold holds, put. change ([str "home"; str "my-shop"] ++ [str "build"] ++ [h]) with ([str "home"; str "my-shop"; str "build"] ++ [h]). rewrite peq_refl. reflexivity.
Qed.
