(** C94: bind! gives a closure its own copies of what is listed. *)
From Coq Require Import String List NArith Bool Lia.
From Verif Require Import CodecModel DomWire SmallModel HtmlModel HtmlProps EnvProps ClosureModel.
Import ListNotations.
Local Open Scope string_scope.
Local Open Scope list_scope.

(** ** Specification *)
(** [a.b.c]: a variable and fields of it. It is known under the name of the last field. *)
Definition place : Type := bytes * list bytes.
Definition root (p : place) : bytes := fst p.
Definition name (p : place) : bytes := last (snd p) (fst p).
Definition show (p : place) : list tt := Id (fst p) :: flat_map (fun f => [P 46; Id f]) (snd p).
(** Its value. *)
Definition value {V} (field : V -> bytes -> option V) (e : bytes -> option V) (p : place) : option V :=
  fold_left (fun o f => match o with Some v => field v f | None => None end) (snd p) (e (fst p)).
(** Pieces separated by commas, with or without one at the end. *)
Inductive listed : list (list tt) -> list tt -> Prop :=
| L_none : listed [] []
| L_last i : listed [i] i
| L_comma i l ts : listed l ts -> listed (i :: l) (i ++ P 44 :: ts).
(** No such character outside of groups. *)
Definition without (c : N) (l : list tt) : Prop := forall d, In (P d) l -> d <> c.
(** A copy, or a copy of a copy. *)
Inductive copy {V} (clone : V -> V) (v : V) : V -> Prop :=
| Copy1 : copy clone v (clone v)
| Copy2 w : copy clone v w -> copy clone v (clone w).
Definition beqb_in (n : bytes) (l : list bytes) : bool := existsb (beqb n) l.
Fixpoint distinct (l : list bytes) : bool := match l with [] => true | n :: r => negb (beqb_in n r) && distinct r end.

(** ** Splitting *)
Lemma is_char_without c l : without c l <-> forall t, In t l -> is_char t c = false.
Proof.
  split; intros H.
  - intros [s|d|s|g k] I; auto. cbn. apply N.eqb_neq. apply H. auto.
  - intros d I E. subst. specialize (H _ I). cbn in H. rewrite N.eqb_refl in H. discriminate.
Qed.
Lemma without_cons c t l : without c (t :: l) <-> is_char t c = false /\ without c l.
Proof. rewrite !is_char_without. split. intros H. split; intros; apply H; cbn; auto. intros [A B] x [<-|I]; auto. Qed.
Lemma without_app c a b : without c (a ++ b) <-> without c a /\ without c b.
Proof. unfold without. split. intros H. split; intros d I; apply H; apply in_or_app; auto. intros [A B] d I. apply in_app_or in I. destruct I; auto. Qed.
Lemma split_free c l : without c l -> split_on c l = [l].
Proof. induction l as [|t l IH]; auto. intros H. apply without_cons in H. destruct H as [A B]. cbn. rewrite A, IH; auto. Qed.
Lemma split_sep c a b : without c a -> split_on c (a ++ P c :: b) = a :: split_on c b.
Proof.
  induction a as [|t a IH]; intros H; cbn.
  - rewrite N.eqb_refl. auto.
  - apply without_cons in H. destruct H as [A B]. rewrite A, IH; auto.
Qed.
Lemma split_some c l : split_on c l <> [].
Proof. destruct l as [|t l]; cbn. discriminate. destruct (is_char t c). discriminate. destruct (split_on c l); discriminate. Qed.
Lemma split_one c l : (exists x, split_on c l = [x]) <-> without c l.
Proof.
  split; [|intros H; rewrite split_free; eauto]. induction l as [|t l IH]; intros [x H]. intros d []. cbn in H. apply without_cons. destruct (is_char t c).
  - injection H as _ H. destruct (split_some c l H).
  - split; auto. apply IH. pose proof (split_some c l). destruct (split_on c l) as [|y [|]]; try discriminate; eauto; congruence.
Qed.
Lemma has_bracket a b : contains_bracket (a ++ P 124 :: b) = true.
Proof. unfold contains_bracket. rewrite existsb_app. cbn. apply orb_true_r. Qed.
Lemma no_bracket l : without 124 l -> contains_bracket l = false.
Proof.
  rewrite is_char_without. unfold contains_bracket. induction l as [|t l IH]; auto. intros H. cbn [existsb]. rewrite (H t), IH; cbn; auto. intros. apply H. right. auto.
Qed.
Lemma from_sep a b : without 124 a -> from_bracket (a ++ P 124 :: b) = P 124 :: b.
Proof. induction a as [|t a IH]; intros H; auto. apply without_cons in H. destruct H as [A B]. cbn. rewrite A. auto. Qed.
Lemma filled_listed items ts : listed items ts -> (forall i, In i items -> i <> [] /\ without 44 i) -> filled (split_on 44 ts) = items.
Proof.
  intros L. induction L as [|i|i l ts L IH]; intros H; auto.
  - destruct (H i (or_introl eq_refl)) as [A B]. rewrite split_free; auto. destruct i; auto. congruence.
  - destruct (H i (or_introl eq_refl)) as [A B]. rewrite split_sep; auto. unfold filled in *. cbn [filter]. rewrite IH by (intros; apply H; right; auto). destruct i; auto. congruence.
Qed.
Lemma listed_commas items : listed items (with_commas items).
Proof. induction items as [|i l IH]. constructor. cbn. rewrite <- app_assoc. cbn. constructor. auto. Qed.
Lemma listed_without c items ts : c <> 44%N -> listed items ts -> (forall i, In i items -> without c i) -> without c ts.
Proof.
  intros Ne L. induction L as [|i|i l ts L IH]; intros H. intros d []. apply H. left. auto. apply without_app. split. apply H. left. auto.
  apply without_cons. split. unfold is_char. apply N.eqb_neq. congruence. apply IH. intros. apply H. right. auto.
Qed.
Lemma function_split items args ts b : listed items ts -> (forall i, In i items -> i <> [] /\ without 44 i /\ without 124 i) -> without 124 args ->
  split_params_and_body (ts ++ P 124 :: args ++ P 124 :: b) =
  if contains_bracket b then None else Some (Parts items (Some (filled (split_on 44 args))) (P 124 :: args ++ P 124 :: b)).
Proof.
  intros L H A. unfold split_params_and_body. rewrite has_bracket. unfold split_params_and_body_function.
  assert (W : without 124 ts). { eapply listed_without; eauto. discriminate. intros i I. apply H. auto. }
  rewrite split_sep, split_sep by auto. rewrite from_sep by auto. rewrite (filled_listed items) by (auto; intros i I; destruct (H i I) as (?&?&?); auto).
  destruct (contains_bracket b) eqn:E.
  - destruct (split_on 124 b) as [|x [|y r]] eqn:S; auto. exfalso. assert (X : without 124 b). apply split_one. eauto. apply no_bracket in X. congruence.
  - rewrite split_free. auto. intros d I X. subst. unfold contains_bracket in E. assert (Y : existsb (fun t => is_char t 124) b = true). apply existsb_exists. exists (P 124). auto. congruence.
Qed.
Lemma block_split items b : (forall i, In i items -> without 44 i /\ without 124 i) -> without 44 b -> without 124 b ->
  split_params_and_body (with_commas items ++ b) = Some (Parts items None b).
Proof.
  intros H B1 B2. unfold split_params_and_body. rewrite no_bracket.
  - unfold split_params_and_body_block. assert (E : split_on 44 (with_commas items ++ b) = items ++ [b]).
    { induction items as [|i l IH]. apply split_free. auto. change (with_commas (i :: l)) with ((i ++ [P 44]) ++ with_commas l). rewrite <- !app_assoc. cbn [app]. rewrite split_sep by (apply H; left; auto). rewrite IH; auto. intros. apply H. right. auto. }
    rewrite E, removelast_last, last_last. auto.
  - apply without_app. split; auto. eapply listed_without. 2: apply listed_commas. discriminate. intros i I. apply H. auto.
Qed.

(** ** Places *)
Lemma show_ok p c : c <> 46%N -> without c (show p).
Proof.
  intros Ne. destruct p as [r fs]. unfold show. cbn. apply without_cons. split; auto. induction fs as [|f fs IH]. intros d []. cbn. apply without_cons. split. unfold is_char. apply N.eqb_neq. congruence.
  apply without_cons. split; auto.
Qed.
Lemma show_name p : find_param_name (show p) = Some (name p).
Proof.
  destruct p as [r fs]. unfold name, show, find_param_name. cbn. destruct fs as [|f fs] using rev_ind; auto. rewrite flat_map_app. cbn.
  rewrite !rev_app_distr. cbn. rewrite last_last. auto.
Qed.
Lemma shown_ok l i : In i (map show l) -> i <> [] /\ without 44 i /\ without 124 i.
Proof. intros I. apply in_map_iff in I. destruct I as (p & <- & _). split. discriminate. split; apply show_ok; discriminate. Qed.
Definition copies_of (l : list place) : list (bytes * list tt) := map (fun p => (name p, show p)) l.
Lemma clone_spec l : forall seen, clone_stm seen (map show l) =
  if distinct (map name l) && forallb (fun n => negb (beqb_in n seen)) (map name l) then Some (copies_of l) else None.
Proof.
  induction l as [|p l IH]; intros seen; auto. cbn [map clone_stm distinct forallb]. rewrite show_name, IH. fold (beqb_in (name p) seen).
  destruct (beqb_in (name p) seen) eqn:E; cbn [negb andb]. rewrite andb_false_r. auto.
  assert (X : forallb (fun n => negb (beqb_in n (name p :: seen))) (map name l) = negb (beqb_in (name p) (map name l)) && forallb (fun n => negb (beqb_in n seen)) (map name l)).
  { generalize (map name l). induction l0 as [|n l0 IHl]; auto. cbn [forallb]. rewrite IHl. unfold beqb_in. cbn [existsb].
    assert (Y : beqb n (name p) = beqb (name p) n). { destruct (beqb_spec n (name p)), (beqb_spec (name p) n); congruence. }
    rewrite Y. destruct (beqb (name p) n), (existsb (beqb n) seen), (existsb (beqb (name p)) l0); auto. }
  rewrite X. destruct (beqb_in (name p) (map name l)); cbn [negb andb]. rewrite andb_false_r. auto. destruct (distinct (map name l)); auto.
  cbn [andb]. destruct (forallb (fun n => negb (beqb_in n seen)) (map name l)); reflexivity.
Qed.
Lemma clone_spec0 l : clone_stm [] (map show l) = if distinct (map name l) then Some (copies_of l) else None.
Proof. rewrite clone_spec. replace (forallb _ (map name l)) with true. rewrite andb_true_r. auto. symmetry. apply forallb_forall. auto. Qed.
Lemma distinct_nodup l : distinct l = true <-> NoDup l.
Proof.
  induction l as [|n l IH]; cbn. split; auto. constructor. rewrite andb_true_iff, IH, negb_true_iff. split.
  - intros [A B]. constructor; auto. intros I. unfold beqb_in in A. assert (X : existsb (beqb n) l = true). apply existsb_exists. exists n. split; auto. apply beqb_refl. congruence.
  - intros N. inversion N; subst. split; auto. unfold beqb_in. destruct (existsb (beqb n) l) eqn:E; auto. apply existsb_exists in E. destruct E as (x & I & E). apply beqb_true in E. subst. contradiction.
Qed.

(** Which uses of bind! with a closure are accepted, and what is generated, exactly. *)
Theorem C94_accepted : forall l ts args b, listed (map show l) ts -> without 124 args ->
  (without 124 b /\ NoDup (map name l) -> bind_inner (ts ++ P 124 :: args ++ P 124 :: b) = Some (Code (copies_of l) true (P 124 :: args ++ P 124 :: b))) /\
  (~ (without 124 b /\ NoDup (map name l)) -> bind_inner (ts ++ P 124 :: args ++ P 124 :: b) = None).
Proof.
  intros l ts args b L A. unfold bind_inner. rewrite (function_split (map show l)) by (auto; apply shown_ok). split.
  - intros [B N]. rewrite no_bracket by auto. cbn [bind_params body option_map]. rewrite clone_spec0. apply distinct_nodup in N. rewrite N. auto.
  - intros H. destruct (contains_bracket b) eqn:E; auto. cbn [bind_params body]. rewrite clone_spec0. destruct (distinct (map name l)) eqn:D; auto. destruct H. split.
    + intros d I X. subst. unfold contains_bracket in E. assert (Y : existsb (fun t => is_char t 124) b = true). apply existsb_exists. exists (P 124). auto. congruence.
    + apply distinct_nodup. auto.
Qed.

(** ** What the names stand for *)
Section Meaning.
Context (V : Type) (field : V -> bytes -> option V) (clone : V -> V).
Notation value := (value field).
Notation run_lets := (run_lets V field clone).

Lemma fields_spec fs : forall v, fields V field v (flat_map (fun f => [P 46; Id f]) fs) = fold_left (fun o f => match o with Some v => field v f | None => None end) fs (Some v).
Proof.
  induction fs as [|f fs IH]; intros v; auto. cbn [flat_map app fields fold_left]. rewrite N.eqb_refl. destruct (field v f); auto.
  clear. induction fs; auto.
Qed.
Lemma expr_spec e p : expr V field e (show p) = value e p.
Proof.
  destruct p as [r fs]. unfold expr, show, ClosureProps.value. cbn [fst snd]. destruct (e r). apply fields_spec. induction fs; auto.
Qed.
Lemma value_other e n v p : n <> root p -> value (bound V e n v) p = value e p.
Proof. intros H. unfold ClosureProps.value, bound, root in *. destruct (beqb_spec n (fst p)); [contradiction|]. auto. Qed.
Lemma run_ok l : forall e, NoDup (map name l) -> ForallOrdPairs (fun p q => name p <> root q) l -> (forall p, In p l -> value e p <> None) ->
  exists e', run_lets e (copies_of l) = Some e' /\ (forall p, In p l -> e' (name p) = option_map clone (value e p)) /\ (forall n, ~ In n (map name l) -> e' n = e n).
Proof.
  induction l as [|p l IH]; intros e N F D. { exists e. split; auto. split; [intros p []|auto]. } change (copies_of (p :: l)) with ((name p, show p) :: copies_of l). cbn [ClosureModel.run_lets]. rewrite expr_spec. inversion N as [|? ? N1 N2]; subst. inversion F as [|? ? F1 F2]; subst.
  destruct (value e p) as [v|] eqn:E; [|destruct (D p); cbn; auto]. destruct (IH (bound V e (name p) (clone v))) as (e' & R & G & O); auto.
  { intros q I. rewrite value_other. apply D. right. auto. eapply Forall_forall in F1; eauto. }
  exists e'. split; auto. split.
  - intros q [<-|I]. rewrite O by auto. unfold bound. rewrite beqb_refl, E. auto. rewrite G; auto. rewrite value_other; auto. eapply Forall_forall in F1; eauto.
  - intros n H. cbn [map In] in H. rewrite O by tauto. unfold bound. destruct (beqb_spec (name p) n); auto. tauto.
Qed.

(** bind! with a closure: the closure is the one written, each name stands for a copy of the listed value as it was outside, all others are those outside,
    and of the surroundings the closure takes only what is named in it and not listed. *)
Theorem C94_bind_partial : forall l ts args b e, listed (map show l) ts -> without 124 args -> without 124 b -> NoDup (map name l) ->
  (* no place begins with the name of an earlier one *)
  ForallOrdPairs (fun p q => name p <> root q) l ->
  (forall p, In p l -> value e p <> None) ->
  exists c e', bind_inner (ts ++ P 124 :: args ++ P 124 :: b) = Some c /\ moves c = true /\ rest c = P 124 :: args ++ P 124 :: b /\ run_lets e (lets c) = Some e' /\
    (forall p, In p l -> e' (name p) = option_map clone (value e p)) /\ (forall n, ~ In n (map name l) -> e' n = e n) /\
    (forall n, In n (captured c) -> In n (roots (Grp 0 (rest c))) /\ ~ In n (map name l)).
Proof.
  intros l ts args b e L A B N F D. destruct (C94_accepted l ts args b L A) as [X _]. rewrite X by auto. destruct (run_ok l e N F D) as (e' & R & G & O).
  eexists. exists e'. split; [reflexivity|]. cbn [moves rest lets]. do 5 (split; [now auto|]). intros n H. unfold captured in H. apply filter_In in H. destruct H as [H1 H]. split; auto.
  intros I. apply negb_true_iff in H. cbn [lets] in H. assert (Y : existsb (fun x => beqb (fst x) n) (copies_of l) = true).
  { apply existsb_exists. apply in_map_iff in I. destruct I as (p & <- & I). exists (name p, show p). split. apply in_map_iff. eauto. apply beqb_refl. }
  congruence.
Qed.

(** bind_spawn!: what is spawned when the closure is called sees copies, too. *)
Theorem C94_spawn_partial : forall l b e, without 44 b -> without 124 b -> NoDup (map name l) ->
  (* a place that begins with the name of a place is that place, a variable *)
  (forall p q, In p l -> In q l -> root q = name p -> p = q /\ snd q = []) ->
  (forall p, In p l -> value e p <> None) ->
  exists o i e1 e2, bind_spawn_inner (with_commas (map show l) ++ b) = Some (o, i) /\ moves o = true /\ moves i = false /\ rest i = b /\
    run_lets e (lets o) = Some e1 /\ run_lets e1 (lets i) = Some e2 /\
    (forall p, In p l -> exists v w, value e p = Some v /\ e2 (name p) = Some w /\ copy clone v w) /\ (forall n, ~ In n (map name l) -> e2 n = e n).
Proof.
  intros l b e B1 B2 N S D. unfold bind_spawn_inner. rewrite block_split; auto; [|intros i I; apply shown_ok in I; tauto]. cbn [bind_params body].
  unfold spawn_tokens at 1. destruct (C94_accepted l (with_commas (map show l)) [] [Grp 123
    [Id (str "vertigo"); P 58; P 58; Id (str "get_driver"); Grp 40 []; P 46; Id (str "spawn");
     Grp 40 [Id (str "vertigo"); P 58; P 58; Id (str "bind"); P 33; Grp 40 (spawn_tokens (map show l) b)]; P 59]]) as [X _].
  apply listed_commas. intros d []. unfold spawn_outer. cbn [app] in X. rewrite X; clear X. 2: { split; auto. intros d [I|[]]. discriminate. }
  assert (Y : bind_inner (with_commas (map show l) ++ b) = Some (Code (copies_of l) false b)).
  { unfold bind_inner. rewrite block_split; auto; [|intros i I; apply shown_ok in I; tauto]. cbn [bind_params body]. rewrite clone_spec0. pose proof N as N'. apply distinct_nodup in N'. rewrite N'. cbn.
    destruct b as [|[s|d|s|g k] b]; auto. cbn. apply without_cons in B2. destruct B2 as [B2 _]. cbn [is_char] in B2. rewrite B2. auto. }
  rewrite Y.
  assert (F : ForallOrdPairs (fun p q => name p <> root q) l).
  { clear D Y. induction l as [|p l IH]; constructor.
    - apply Forall_forall. intros q I E. destruct (S p q) as [-> _]; cbn; auto. inversion N; subst. apply H1. apply in_map. auto.
    - apply IH. inversion N; auto. intros p0 q0 I0 J0. apply S; right; auto. }
  destruct (run_ok l e N F D) as (e1 & R1 & G1 & O1).
  assert (Val : forall p, In p l -> value e1 p = value e p \/ (snd p = [] /\ value e1 p = option_map clone (value e p))).
  { intros p I. destruct (in_dec (list_eq_dec N.eq_dec) (root p) (map name l)) as [J|J].
    - apply in_map_iff in J. destruct J as (q & E & J). destruct (S q p) as [-> Z]; auto. right. split; auto. rewrite <- G1 by auto. rewrite E. unfold ClosureProps.value. rewrite Z. auto.
    - left. unfold ClosureProps.value. unfold root in J. rewrite O1; auto. }
  destruct (run_ok l e1 N F) as (e2 & R2 & G2 & O2).
  { intros p I. destruct (Val p I) as [->|[_ ->]]. auto. specialize (D p I). destruct (value e p); cbn; congruence. }
  do 2 eexists. exists e1, e2. split; [reflexivity|]. cbn [moves rest lets]. repeat (split; auto).
  - intros p I. specialize (D p I). rewrite (G2 p I). destruct (Val p I) as [E|[Z E]]; rewrite E; destruct (value e p) as [v|]; try congruence.
    + exists v, (clone v). repeat split; auto. constructor.
    + exists v, (clone (clone v)). repeat split; auto. constructor. constructor.
  - intros n H. rewrite O2, O1; auto.
Qed.
End Meaning.

(** ** What bind_spawn! takes *)
(** The words the macro itself writes. *)
Definition own_words : list bytes := [str "vertigo"; str "get_driver"; str "bind"].
Fixpoint walk (dot : bool) (l : list tt) : list bytes :=
  match l with
  | [] => []
  | Id s :: r => (if dot then [] else [s]) ++ walk false r
  | P c :: r => walk (c =? 46)%N r
  | x :: r => roots x ++ walk false r
  end.
Lemma roots_walk g l : roots (Grp g l) = walk false l.
Proof. reflexivity. Qed.
Lemma walk_vars l b : (forall p, In p l -> snd p = []) -> walk false (with_commas (map show l) ++ b) = map root l ++ walk false b.
Proof.
  induction l as [|p l IH]; auto. intros H. specialize (IH (fun q I => H q (or_intror I))). specialize (H p (or_introl eq_refl)). destruct p as [r fs]. cbn [snd] in H. subst.
  change (with_commas (map show ((r, []) :: l))) with (([Id r] ++ [P 44]) ++ with_commas (map show l)). cbn [app walk map root fst]. cbn. f_equal. exact IH.
Qed.
(** Of variables: nothing but the copies and what the body names itself. *)
Theorem C94_spawn_takes_partial : forall l b, without 44 b -> without 124 b -> NoDup (map name l) -> (forall p, In p l -> snd p = []) ->
  exists o i, bind_spawn_inner (with_commas (map show l) ++ b) = Some (o, i) /\
    forall n, In n (captured o) -> (In n own_words \/ In n (roots (Grp 0 b))) /\ ~ In n (map name l).
Proof.
  intros l b B1 B2 N Z.
  destruct (C94_spawn_partial bool (fun _ _ => Some true) (fun v => v) l b (fun _ => Some true) B1 B2 N) as (o & i & e1 & e2 & E & _).
  - intros p q I J X. assert (Y : root q = name q). unfold root, name. rewrite (Z q J). auto. split; auto. rewrite Y in X. clear - N I J X.
    induction l as [|x l IH]; [destruct I|]. inversion N; subst. destruct I as [<-|I], J as [<-|J]; auto; destruct H1; [rewrite <- X|rewrite X]; apply in_map; auto.
  - intros p I. unfold value. rewrite (Z p I). discriminate.
  - exists o, i. split; auto. intros n H. unfold bind_spawn_inner in E. rewrite block_split in E; auto; [|intros x I; apply shown_ok in I; tauto]. cbn [bind_params body] in E.
    destruct (C94_accepted l (with_commas (map show l)) [] [Grp 123
      [Id (str "vertigo"); P 58; P 58; Id (str "get_driver"); Grp 40 []; P 46; Id (str "spawn");
       Grp 40 [Id (str "vertigo"); P 58; P 58; Id (str "bind"); P 33; Grp 40 (spawn_tokens (map show l) b)]; P 59]]) as [X _].
    apply listed_commas. intros d []. unfold spawn_outer in E. cbn [app] in X. rewrite X in E; clear X. 2: { split; auto. intros d [I|[]]. discriminate. }
    destruct (bind_inner (spawn_tokens (map show l) b)); [|discriminate]. injection E as <- _. unfold captured in H. apply filter_In in H. destruct H as [H F].
    assert (NN : ~ In n (map name l)).
    { intros I. apply negb_true_iff in F. cbn [lets] in F. assert (Y : existsb (fun x => beqb (fst x) n) (copies_of l) = true).
      { apply existsb_exists. apply in_map_iff in I. destruct I as (p & <- & I). exists (name p, show p). split. apply in_map_iff. eauto. apply beqb_refl. }
      congruence. }
    split; auto. cbn [rest] in H. rewrite roots_walk in H. unfold spawn_tokens in H. cbn [walk] in H. rewrite roots_walk in H. cbn [walk] in H.
    change (124 =? 46)%N with false in H. change (58 =? 46)%N with false in H. change (46 =? 46)%N with true in H. change (59 =? 46)%N with false in H. change (33 =? 46)%N with false in H.
    cbv iota in H. cbn [app walk] in H. rewrite !roots_walk in H. cbn [walk app] in H. change (58 =? 46)%N with false in H. change (33 =? 46)%N with false in H. cbv iota in H. cbn [app walk] in H.
    rewrite !roots_walk in H. cbn [walk app] in H. rewrite walk_vars in H by auto. rewrite !app_nil_r in H. unfold own_words. rewrite roots_walk.
    assert (Q : map root l = map name l). { apply map_ext_in. intros p I. unfold root, name. rewrite (Z p I). auto. }
    rewrite Q in H. cbn [In] in *. rewrite ?in_app_iff in H. tauto.
Qed.

(** ** bind_rc! *)
(** Parameters with their types, none of them with a ':' or ',' of its own outside of groups: the types are those written and the closure is that of bind!. *)
Definition typed (q : list tt * list tt) : list tt := fst q ++ P 58 :: snd q.
Theorem C94_rc_partial : forall l ts ps args b, listed (map show l) ts -> listed (map typed ps) args -> without 124 b -> NoDup (map name l) ->
  (forall q c, In q ps -> In c [44; 58; 124]%N -> without c (fst q) /\ without c (snd q)) ->
  exists c, bind_rc_inner (ts ++ P 124 :: args ++ P 124 :: b) = Some (map snd ps, c) /\ bind_inner (ts ++ P 124 :: args ++ P 124 :: b) = Some c.
Proof.
  intros l ts ps args b L A B N Q.
  assert (W : forall i, In i (map typed ps) -> i <> [] /\ without 44 i /\ without 124 i).
  { intros i I. apply in_map_iff in I. destruct I as (q & <- & I). split. unfold typed. destruct (fst q); discriminate.
    split; apply without_app; (split; [|apply without_cons; split; auto]); apply (Q q); cbn; auto. }
  assert (WA : without 124 args). { eapply listed_without; eauto. discriminate. intros i I. apply W. auto. }
  destruct (C94_accepted l ts args b L WA) as [X _]. rewrite X by auto. eexists. split; [|reflexivity].
  unfold bind_rc_inner. rewrite (function_split (map show l)) by (auto; apply shown_ok). rewrite no_bracket by auto. cbn [func_params bind_params body].
  rewrite (filled_listed (map typed ps)) by (auto; intros i I; apply W in I; tauto).
  assert (T : all_types (map typed ps) = Some (map snd ps)).
  { clear - Q. induction ps as [|q ps IH]; auto. cbn [map all_types]. unfold get_type. unfold typed at 1. rewrite split_sep, split_free by (apply (Q q); cbn; auto).
    rewrite IH. auto. intros q' c I J. apply Q; auto. right. auto. }
  rewrite T. destruct (C94_accepted l (with_commas (map show l)) args b (listed_commas _) WA) as [Y _]. rewrite Y; auto.
Qed.
(** Types of several parts are refused, for all parameters, places and bodies: paths, and types with two arguments. *)
Theorem C94_rc_paths : forall l ts x m t u b, listed (map show l) ts ->
  bind_rc_inner (ts ++ P 124 :: [Id x; P 58; Id m; P 58; P 58; Id t] ++ P 124 :: b) = None /\
  bind_rc_inner (ts ++ P 124 :: [Id x; P 58; Id m; P 60; Id t; P 44; Id u; P 62] ++ P 124 :: b) = None.
Proof.
  intros l ts x m t u b L. assert (A : without 124 [Id x; P 58; Id m; P 58; P 58; Id t]). { intros d I. cbn in I. intuition congruence. } assert (A2 : without 124 [Id x; P 58; Id m; P 60; Id t; P 44; Id u; P 62]).
  { intros d I. cbn in I. intuition congruence. }
  split; unfold bind_rc_inner; rewrite (function_split (map show l)) by (auto; apply shown_ok); destruct (contains_bracket b); reflexivity.
Qed.

(** ** Where it goes wrong *)
(** Values: a number, or a record of two fields. *)
Inductive val := Num (n : N) | Rec (l : list (bytes * val)).
Definition get (v : val) (f : bytes) : option val := match v with Rec l => option_map snd (find (fun x => beqb (fst x) f) l) | Num _ => None end.
(** [a = {b: {c: 1}}], [b = {c: 2}] *)
Definition vars : bytes -> option val := fun n =>
  if beqb n (str "a") then Some (Rec [(str "b", Rec [(str "c", Num 1)]); (str "a", Rec [(str "a", Num 3)])])
  else if beqb n (str "b") then Some (Rec [(str "c", Num 2)]) else if beqb n (str "x") then Some (Num 5) else None.
Definition closure (b : list tt) : list tt := P 124 :: P 124 :: b.

(** [bind!(a.b, b.c, || c)]: [c] is that of the new [b], not of the [b] outside. *)
Theorem C94_order_refuted : exists l b c e', bind_inner (with_commas (map show l) ++ closure b) = Some c /\ run_lets val get (fun v => v) vars (lets c) = Some e' /\
  NoDup (map name l) /\ exists p, In p l /\ e' (name p) <> value get vars p.
Proof.
  exists [(str "a", [str "b"]); (str "b", [str "c"])], [Id (str "c")]. eexists. eexists. split; [vm_compute; reflexivity|]. split; [cbn; reflexivity|]. split.
  - apply distinct_nodup. vm_compute. reflexivity.
  - exists (str "b", [str "c"]). split; [cbn; auto|]. vm_compute. discriminate.
Qed.
(** [bind_spawn!(a.b, async { b })] takes [a] along, although only its field was listed. *)
Theorem C94_spawn_takes_refuted : exists l b o i n, bind_spawn_inner (with_commas (map show l) ++ b) = Some (o, i) /\ In n (captured o) /\
  ~ In n own_words /\ ~ In n (roots (Grp 0 b)).
Proof.
  exists [(str "a", [str "b"])], [Id (str "async"); Grp 123 [Id (str "b")]]. eexists. eexists. exists (str "a").
  split; [vm_compute; reflexivity|]. split; [vm_compute; auto 10|]. split; vm_compute; intros H; repeat destruct H as [H|H]; try discriminate; destruct H.
Qed.
(** [bind_spawn!(a.a, …)]: the inner copy is made of the field of the copy. *)
Theorem C94_spawn_field_refuted : exists l b o i e1 e2, bind_spawn_inner (with_commas (map show l) ++ b) = Some (o, i) /\
  run_lets val get (fun v => v) vars (lets o) = Some e1 /\ run_lets val get (fun v => v) e1 (lets i) = Some e2 /\ exists p, In p l /\ e2 (name p) <> value get vars p.
Proof.
  exists [(str "a", [str "a"])], [Id (str "async"); Grp 123 [Id (str "a")]]. do 4 eexists. split; [vm_compute; reflexivity|]. split; [cbn; reflexivity|]. split; [cbn; reflexivity|].
  eexists. split; [left; reflexivity|]. vm_compute. discriminate.
Qed.
(** [bind!(a, || x | 1)] is refused; the same in a block is not. *)
Theorem C94_bar_refuted : exists b, bind_inner ([Id (str "a"); P 44] ++ closure b) = None /\ bind_inner ([Id (str "a"); P 44] ++ closure [Grp 123 b]) <> None.
Proof. exists [Id (str "x"); P 124; Lit (str "1")]. split; vm_compute; [reflexivity|discriminate]. Qed.

(** ** Cases *)
Example C94_bind_example : let l := [(str "b", []); (str "a", [str "b"; str "c"])] in
  NoDup (map name l) /\ ForallOrdPairs (fun p q => name p <> root q) l /\ (forall p, In p l -> value get vars p <> None) /\
  exists c e', bind_inner ([Id (str "b"); P 44; Id (str "a"); P 46; Id (str "b"); P 46; Id (str "c"); P 44; P 124; Id (str "y"); P 124; Id (str "b"); P 46; Id (str "c"); P 43; Id (str "c"); P 43; Id (str "x")]) = Some c /\
    run_lets val get (fun v => v) vars (lets c) = Some e' /\ e' (str "c") = Some (Num 1) /\ e' (str "b") = Some (Rec [(str "c", Num 2)]) /\ e' (str "x") = Some (Num 5) /\
    captured c = [str "y"; str "x"].
Proof.
  split; [apply distinct_nodup; vm_compute; reflexivity|]. split; [repeat constructor; vm_compute; discriminate|]. split.
  - intros p [<-|[<-|[]]]; vm_compute; discriminate.
  - do 2 eexists. split; [vm_compute; reflexivity|]. split; [cbn; reflexivity|]. split; [|split; [|split]]; vm_compute; reflexivity.
Qed.
Example C94_spawn_example : let l := [(str "b", []); (str "a", [str "b"; str "c"])] in
  NoDup (map name l) /\ (forall p q, In p l -> In q l -> root q = name p -> p = q /\ snd q = []) /\ (forall p, In p l -> value get vars p <> None).
Proof.
  split; [apply distinct_nodup; vm_compute; reflexivity|]. split.
  - intros p q [<-|[<-|[]]] [<-|[<-|[]]]; vm_compute; try discriminate; auto.
  - intros p [<-|[<-|[]]]; vm_compute; discriminate.
Qed.
Example C94_rc_example : exists c, bind_rc_inner [Id (str "a"); P 44; P 124; Id (str "y"); P 58; P 38; Id (str "str"); P 44; Id (str "z"); P 58; Grp 40 [Id (str "u8"); P 44; Id (str "u8")]; P 124; Id (str "y")] =
  Some ([[P 38; Id (str "str")]; [Grp 40 [Id (str "u8"); P 44; Id (str "u8")]]], c).
Proof. eexists. vm_compute. reflexivity. Qed.
