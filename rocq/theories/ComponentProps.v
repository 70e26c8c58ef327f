(** Components: specification and theorems (C101). *)
From Coq Require Import String List NArith Bool Permutation Lia.
From Verif Require Import CodecModel DomWire DomMacroModel DomMacroBuild ComponentModel.
Import ListNotations.
Local Open Scope string_scope.
Local Open Scope list_scope.

(** ** Specification *)

(** The parameters of a function that has names for all of them, as Rust requires different ones. *)
Definition params (l : list input) (names : list bytes) : Prop :=
  NoDup names /\ Forall2 (fun i n => exists ty, i = Typed (Named n) ty) l names.
(** The variables the body of a function sees when it is called with the arguments [args]. *)
Definition called_with {V} (names : list bytes) (args : list V) (sc : bytes -> option V) : Prop :=
  length names = length args /\ (forall i n v, nth_error names i = Some n -> nth_error args i = Some v -> sc n = Some v) /\
  (forall n, ~ In n names -> sc n = None).
(** What is written for an attribute of a component: [name={value}], [name={&value}], or [name={}]. *)
Inductive written := ByValue (l : list tok) | ByRef (l : list tok) | Nothing.
(** Its text is that of what it is. *)
Definition well_written (w : written) : Prop :=
  match w with
  | ByValue l => starts (str "&") (show l) = false /\ show l <> str "{}" /\ show l <> str "Default :: default()"
  | ByRef l => starts (str "&") (show l) = true
  | Nothing => True
  end.
Definition attribute_of (a : bytes * written) : rsx :=
  Rsx NAttribute (Some (fst a)) (Some (match snd a with ByValue l => EBlock [l] | ByRef l => EBlock [l] | Nothing => EBlock [[TBrace []]] end)) [] [].
(** What it stands for: the value converted, a copy, the default of the type of the field. *)
Definition worth {H V} (v : env H V) (default : bytes -> V) (a : bytes * written) : bytes * V :=
  (fst a, match snd a with ByValue l => e_into v l | ByRef l => e_clone v l | Nothing => default (fst a) end).

(** ** Proofs *)

Lemma beq_is a b : beq a b = true <-> a = b.
Proof. split; [apply beq_true|intros ->; apply beq_refl]. Qed.

Lemma existsb_beq n l : existsb (beq n) l = true <-> In n l.
Proof.
  rewrite existsb_exists. split; [intros (x & I & E); apply beq_is in E; subst; exact I|intros I; exists n; split; [exact I|apply beq_refl]].
Qed.

Lemma params_structure l names : params l names -> structure l = Some names /\ param_names l = names.
Proof.
  intros (D & F). revert D. induction F as [|i n l names (ty & ->) F IH]; intros D; [split; reflexivity|]. inversion D; subst.
  destruct (IH H2) as (E1 & E2). split.
  - cbn [structure]. rewrite E1. destruct (existsb (beq n) names) eqn:X; [|reflexivity]. apply existsb_beq in X. contradiction.
  - change (n :: param_names l = n :: names). rewrite E2. reflexivity.
Qed.

Lemma structure_params l names : structure l = Some names -> params l names.
Proof.
  revert names. induction l as [|i l IH]; intros names E; [injection E as <-; split; constructor|].
  destruct i as [|[n|n|t] ty]; try discriminate E. cbn [structure] in E. destruct (structure l) as [ns|]; [|discriminate E].
  destruct (existsb (beq n) ns) eqn:X; [discriminate E|]. injection E as <-. destruct (IH ns eq_refl) as (D & F). split.
  - constructor; auto. intros I. apply existsb_beq in I. congruence.
  - constructor; auto. exists ty. reflexivity.
Qed.

Lemma once_spec {V} (given : list (bytes * V)) : forall fields, NoDup fields ->
  (once fields given = true <-> Permutation fields (map fst given)).
Proof.
  induction given as [|[k v] r IH]; intros fields D; cbn [once map fst].
  - destruct fields; split; auto; try discriminate. intros P. apply Permutation_sym, Permutation_nil in P. discriminate.
  - rewrite andb_true_iff, existsb_beq, IH by (apply NoDup_filter; exact D). split.
    + intros (I & P). apply in_split in I. destruct I as (a & b & ->). apply Permutation_sym, Permutation_cons_app, Permutation_sym.
      assert (E : filter (fun n => negb (beq k n)) (a ++ k :: b) = a ++ b); [|rewrite <- E; exact P].
      apply NoDup_remove in D. destruct D as (_ & N). rewrite filter_app. cbn [filter]. rewrite beq_refl. cbn [negb].
      assert (G : forall l, ~ In k l -> filter (fun n => negb (beq k n)) l = l).
      { induction l as [|x l IHl]; intros H; auto. cbn [filter]. destruct (beq k x) eqn:E; [apply beq_is in E; subst; exfalso; apply H; left; reflexivity|].
        cbn [negb]. f_equal. apply IHl. intros I. apply H. right. exact I. }
      rewrite !G; auto; intros I; apply N, in_or_app; auto.
    + intros P. assert (I : In k fields) by (apply (Permutation_in k (Permutation_sym P)); left; reflexivity). split; [exact I|].
      apply in_split in I. destruct I as (a & b & ->). apply NoDup_remove in D. destruct D as (_ & N).
      assert (G : forall l, ~ In k l -> filter (fun n => negb (beq k n)) l = l).
      { induction l as [|x l IHl]; intros H; auto. cbn [filter]. destruct (beq k x) eqn:E; [apply beq_is in E; subst; exfalso; apply H; left; reflexivity|].
        cbn [negb]. f_equal. apply IHl. intros I. apply H. right. exact I. }
      rewrite filter_app. cbn [filter]. rewrite beq_refl. cbn [negb]. rewrite !G; try (intros I; apply N, in_or_app; auto).
      apply Permutation_sym, Permutation_cons_app_inv with (a := k). apply Permutation_sym. exact P.
Qed.

Lemma self_field_in {V} (given : list (bytes * V)) n v : NoDup (map fst given) -> In (n, v) given -> self_field given n = Some v.
Proof.
  induction given as [|[k w] r IH]; [contradiction|]. intros D [E|I]; cbn [self_field].
  - injection E as -> ->. rewrite beq_refl. reflexivity.
  - inversion D; subst. destruct (beq k n) eqn:X; [|auto]. apply beq_is in X. subst. exfalso. apply H1. apply in_map_iff. exists (n, v). auto.
Qed.

Lemma lets_spec {V} (given : list (bytes * V)) lets : forall sc n,
  (In n lets -> lets_scope given lets sc n = self_field given n) /\ (~ In n lets -> lets_scope given lets sc n = sc n).
Proof.
  induction lets as [|m r IH]; intros sc n; [split; [contradiction|reflexivity]|]. cbn [lets_scope]. split.
  - intros I. destruct (in_dec (fun a b => match bool_dec (beq a b) true with left e => left (proj1 (beq_is a b) e) | right e => right (fun h => e (proj2 (beq_is a b) h)) end) n r) as [J|J].
    + apply IH. exact J.
    + rewrite (proj2 (IH _ n) J). destruct I as [<-|I]; [rewrite beq_refl; reflexivity|contradiction].
  - intros N. rewrite (proj2 (IH _ n)) by (intros I; apply N; right; exact I). destruct (beq m n) eqn:X; [|reflexivity].
    apply beq_is in X. subst. exfalso. apply N. left. reflexivity.
Qed.

Lemma nth_combine {A B} (a : list A) : forall (b : list B) i x y, nth_error a i = Some x -> nth_error b i = Some y -> In (x, y) (combine a b).
Proof.
  induction a as [|c a IH]; intros [|d b] [|i] x y; cbn; try discriminate; [intros [= ->] [= ->]; left; reflexivity|].
  intros E F. right. apply (IH b i); assumption.
Qed.

(** C101: mounting a component runs the body of its function as a call with these arguments does, in whatever order they are given. *)
Theorem C101_mount : forall V R (f : item ((bytes -> option V) -> R)) names args given,
  params (i_inputs f) names -> i_output f = [] -> length names = length args -> Permutation given (combine names args) ->
  exists o sc, component_inner f = Some o /\ use o given = Some (i_body f sc) /\ called_with names args sc.
Proof.
  intros V R f names args given P O L G. pose proof P as (D & _). destruct (params_structure _ _ P) as (S & N).
  assert (K : Permutation names (map fst given)).
  { transitivity (map fst (combine names args)); [|apply Permutation_sym, Permutation_map; exact G].
    assert (E : map fst (combine names args) = names); [|rewrite E; reflexivity].
    clear -L. revert args L. induction names; intros [|b args] L; try discriminate; cbn; auto. f_equal. apply IHnames. injection L as L. exact L. }
  unfold component_inner. rewrite O. do 2 eexists. split; [reflexivity|]. unfold use. cbn [o_fields o_body o_lets]. rewrite S.
  rewrite (proj2 (once_spec given names D) K), N. split; [reflexivity|]. split; [exact L|]. split.
  - intros i n v E F. rewrite (proj1 (lets_spec given names _ n)) by (apply nth_error_In in E; exact E).
    apply self_field_in; [apply (Permutation_NoDup K); exact D|]. apply (Permutation_in _ (Permutation_sym G)). apply (nth_combine _ _ i); assumption.
  - intros n H. rewrite (proj2 (lets_spec given names _ n) H). reflexivity.
Qed.

(** C101: attributes that are missing, unknown or given twice do not compile, nor do parameters that are no names; a return type is an error. *)
Theorem C101_errors : forall V R (f : item ((bytes -> option V) -> R)),
  (i_output f <> [] -> component_inner f = None) /\
  (forall o given r, component_inner f = Some o -> use o given = Some r ->
     exists names, params (i_inputs f) names /\ Permutation names (map fst given)).
Proof.
  intros V R f. unfold component_inner. split; [destruct (i_output f); [congruence|reflexivity]|].
  intros o given r E U. destruct (i_output f); [|discriminate]. injection E as <-. unfold use in U. cbn [o_fields o_lets o_body] in U.
  destruct (structure (i_inputs f)) as [names|] eqn:S; [|discriminate]. apply structure_params in S. exists names. split; [exact S|].
  destruct (once names given) eqn:X; [|discriminate]. apply (once_spec given names (proj1 S)). exact X.
Qed.

Lemma field_of a : well_written (snd a) ->
  field (attribute_of a) = Some (fst a, match snd a with ByValue l => FInto l | ByRef l => FClone l | Nothing => FDefault end).
Proof.
  destruct a as [k [l|l|]]; intros W; cbn [snd fst] in *; unfold field, attribute_of; cbn [fst snd strip_brackets].
  - destruct W as (W1 & W2 & W3). destruct (beq (show l) (str "{}")) eqn:E1; [apply beq_is in E1; contradiction|].
    destruct (beq (show l) (str "Default :: default()")) eqn:E2; [apply beq_is in E2; contradiction|]. cbn [orb]. rewrite W1. reflexivity.
  - change (starts (str "&") (show l) = true) in W. destruct (beq (show l) (str "{}")) eqn:E1; [apply beq_is in E1; rewrite E1 in W; discriminate|].
    destruct (beq (show l) (str "Default :: default()")) eqn:E2; [apply beq_is in E2; rewrite E2 in W; discriminate|]. cbn [orb]. rewrite W. reflexivity.
  - reflexivity.
Qed.

(** C101: [dom!] with a component shows what its function gives for what is written: values converted, references copied, [{}] the default. *)
Theorem C101_dom : forall H V (v : env H V) default name (f : item ((bytes -> option V) -> prog H)) o names args attrs kids,
  component_inner f = Some o ->
  (forall fields, e_comp v name fields = match use o (map (fun x => (fst x, match snd x with Some y => y | None => default (fst x) end)) fields) with
                                          | Some p => p | None => PFragment [] end) ->
  is_component_name name = true -> params (i_inputs f) names -> length names = length args ->
  Forall (fun a => well_written (snd a)) attrs -> Permutation (map (worth v default) attrs) (combine names args) ->
  exists g sc, dom_inner [Rsx NElement (Some name) None (map attribute_of attrs) kids] = Some (GOne g) /\
    eval v g = i_body f sc /\ called_with names args sc.
Proof.
  intros H V v default name f o names args attrs kids C EC N P L W G.
  assert (A : all_some (map field (map attribute_of attrs)) =
    Some (map (fun a => (fst a, match snd a with ByValue l => FInto l | ByRef l => FClone l | Nothing => FDefault end)) attrs)).
  { clear -W. induction W as [|a attrs X W IH]; [reflexivity|]. cbn [map all_some]. rewrite field_of by exact X. rewrite IH. reflexivity. }
  assert (O : i_output f = []) by (unfold component_inner in C; destruct (i_output f); [reflexivity|discriminate]).
  destruct (C101_mount V _ f names args (map (worth v default) attrs) P O L G) as (o' & sc & C' & U & S).
  rewrite C in C'. injection C' as <-.
  unfold dom_inner. cbn [map convert_node ntype_eqb]. rewrite N. unfold convert_to_component. rewrite A. cbn [all_some].
  do 2 eexists. split; [reflexivity|]. split; [|exact S]. cbn [eval]. rewrite EC, !map_map.
  match goal with |- match use o ?l with _ => _ end = _ => replace l with (map (worth v default) attrs) end.
  - rewrite U. reflexivity.
  - apply map_ext. intros [k [l|l|]]; reflexivity.
Qed.

(** C101: a component can be used where its function could be called, if that is private or public. *)
Theorem C101_reach_partial : forall B (f : item B) o home from, component_inner f = Some o ->
  (forall w, i_vis f <> Restricted w) -> reachable o home from = nameable (i_vis f) home from.
Proof.
  intros B f o home from C H. unfold component_inner in C. destruct (i_output f); [|discriminate]. injection C as <-.
  unfold reachable. cbn [o_pub]. destruct (i_vis f); try reflexivity. exfalso. apply (H within). reflexivity.
Qed.
(** A component that is [pub(crate)] can be used in its own module only. *)
Theorem C101_restricted_refuted : exists (f : item unit) o home from, component_inner f = Some o /\ nameable (i_vis f) home from = true /\
  reachable o home from = false.
Proof.
  exists (Item [] (Restricted [str "crate"]) (str "Row") [] [] tt). eexists. exists [str "crate"; str "table"], [str "crate"; str "page"].
  split; [reflexivity|]. split; reflexivity.
Qed.
(** A parameter that is [mut], which a function can have, does not compile. *)
Theorem C101_mut_refuted : exists (f : item ((bytes -> option N) -> N)) o, component_inner f = Some o /\
  i_inputs f = [Typed (Marked (str "n")) (str "u32")] /\ forall given, use o given = None.
Proof.
  exists (Item [] Public (str "Row") [Typed (Marked (str "n")) (str "u32")] [] (fun _ => 0%N)). eexists. split; [reflexivity|].
  split; reflexivity.
Qed.

(** ** Examples *)

(** [#[component] pub fn Row(label: String, count: u32) { … }] *)
Definition ex_item : item ((bytes -> option bytes) -> prog unit) :=
  Item [] Public (str "Row") [Typed (Named (str "label")) (str "String"); Typed (Named (str "count")) (str "u32")] []
    (fun sc => PElement (str "p") [CChild (PText (match sc (str "label") with Some l => l | None => [] end));
                                   CChild (PText (match sc (str "count") with Some l => l | None => [] end))]).
Example C101_mount_example : params (i_inputs ex_item) [str "label"; str "count"] /\ i_output ex_item = [] /\
  exists o, component_inner ex_item = Some o /\
  use o [(str "count", str "3"); (str "label", str "eggs")] = Some (PElement (str "p") [CChild (PText (str "eggs")); CChild (PText (str "3"))]) /\
  use o [(str "label", str "eggs")] = None /\ use o [(str "label", str "eggs"); (str "label", str "eggs"); (str "count", str "3")] = None.
Proof.
  split; [split; [repeat constructor; cbn; intuition discriminate|repeat constructor; eexists; reflexivity]|]. split; [reflexivity|].
  eexists. split; [reflexivity|]. split; [|split]; vm_compute; reflexivity.
Qed.
Definition ex_env (o : generated ((bytes -> option bytes) -> prog unit)) : env unit bytes :=
  Env (fun _ => None) (fun _ => []) (fun _ => tt) (fun _ => []) (fun _ => []) (fun _ => PFragment []) (fun _ => [])
    (fun l => show (skipn 1 l)) show
    (fun name fields => match use o (map (fun x => (fst x, match snd x with Some y => y | None => str "0" end)) fields) with
                        | Some p => p | None => PFragment [] end).
(** <Row count={} label={&name} /> *)
Example C101_dom_example : exists o g, component_inner ex_item = Some o /\ is_component_name (str "Row") = true /\
  well_written (ByRef [Tok (str "&") true; Tok (str "name") false]) /\
  dom_inner [Rsx NElement (Some (str "Row")) None (map attribute_of [(str "count", Nothing); (str "label", ByRef [Tok (str "&") true; Tok (str "name") false])]) []]
    = Some (GOne g) /\
  eval (ex_env o) g = PElement (str "p") [CChild (PText (str "name")); CChild (PText (str "0"))].
Proof. do 2 eexists. split; [reflexivity|]. split; [reflexivity|]. split; [reflexivity|]. split; [reflexivity|]. vm_compute. reflexivity. Qed.
Example C101_reach_example : exists o, component_inner ex_item = Some o /\ reachable o [str "crate"; str "table"] [str "crate"; str "page"] = true.
Proof. eexists. split; reflexivity. Qed.
