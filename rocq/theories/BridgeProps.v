(** What an access to JavaScript from Rust does and returns (C57), and that references to elements reach nothing (C58). *)
From Coq Require Import String List NArith ZArith Bool Lia.
From Verif Require Import CodecModel CodecJsModel CodecSpec CodecProofs CodecProps FloatModel DomWire BridgeModel.
Import ListNotations.
Local Open Scope string_scope.
Local Open Scope list_scope.
Local Open Scope N_scope.

(** ** Specification *)

(** The JavaScript value a Rust value stands for: integers of 32 bits and floats are numbers, those of 64 bits are
    bigints, lists are arrays, objects and JSON are plain values. *)
Fixpoint denotes_json (j : json) : jval :=
  match j with
  | JTrue => KBool true
  | JFalse => KBool false
  | JNull => KNull
  | JString s => KStr s
  | JNumber n => KNum n
  | JList l => KArr (map denotes_json l)
  | JObject m => KObj (map (fun e => (fst e, denotes_json (snd e))) m)
  end.
Fixpoint denotes (v : jsval) : jval :=
  match v with
  | VU32 n => KNum (f64_of_N n)
  | VI32 z => KNum (f64_of_Z z)
  | VU64 n => KBig (Z.of_N n)
  | VI64 z => KBig z
  | VF64 n => KNum n
  | VTrue => KBool true
  | VFalse => KBool false
  | VNull => KNull
  | VUndefined => KUndef
  | VVec b => KBytes b
  | VString s => KStr s
  | VList l => KArr (map denotes l)
  | VObject m => KObj (map (fun e => (fst e, denotes (snd e))) m)
  | VJson j => denotes_json j
  end.

(** Two JavaScript values that are equal, not telling the two zeros apart. *)
Definition same (a b : jval) : Prop := a = b \/ (a = KNum 0 /\ b = KNum p63).

(** Where an access starts, and its steps. *)
Inductive start := Api | Window | Document | Element (id : N).
Inductive step := Get (name : bytes) | Assign (name : bytes) (v : jsval) | Call (name : bytes) (args : list jsval).

Section Meaning.
  Variable S : Type.
  Variable eget : S -> jval -> bytes -> option jval.
  Variable eset : S -> jval -> bytes -> jval -> option S.
  Variable ecall : S -> jval -> bytes -> list jval -> S * option jval.
  Variable enode : S -> Z -> option jval.
  Variables api window document : jval.

  (** The object the access starts from: for an element, the node the page has for its id. *)
  Inductive starts (s : S) : start -> jval -> Prop :=
  | starts_api : starts s Api api
  | starts_window : starts s Window window
  | starts_document : starts s Document document
  | starts_element id n : enode s (Z.of_N id) = Some n -> starts s (Element id) n.

  (** What the steps do when nothing throws: every argument is the value the Rust argument stands for. *)
  Inductive runs : S -> jval -> list step -> S -> jval -> Prop :=
  | runs_nil s w : runs s w [] s w
  | runs_get s w n v t s' r : eget s w n = Some v -> runs s v t s' r -> runs s w (Get n :: t) s' r
  | runs_assign s w n x s1 t s' r : eset s w n (denotes x) = Some s1 -> runs s1 KUndef t s' r ->
      runs s w (Assign n x :: t) s' r
  | runs_call s w n args s1 v t s' r : ecall s w n (map denotes args) = (s1, Some v) -> runs s1 v t s' r ->
      runs s w (Call n args :: t) s' r.
End Meaning.

(** The same access written with the builder. *)
Definition start_cmd (r : start) : jsval :=
  match r with
  | Api => b_api
  | Window => b_root (str "window")
  | Document => b_root (str "document")
  | Element id => b_element id
  end.
Definition step_cmd (c : step) : jsval :=
  match c with
  | Get n => BridgeModel.b_get n
  | Assign n v => b_set n v
  | Call n args => b_call n args
  end.
Definition builder (r : start) (l : list step) : list jsval := start_cmd r :: map step_cmd l.

(** What may be sent: Rust values that the JavaScript decoder keeps (C15). *)
Definition sendable (v : jsval) : Prop := val_ok v /\ val_small v /\ val_plain v.
Definition step_ok (c : step) : Prop :=
  match c with
  | Get n => rust_string n /\ no_bom n
  | Assign n v => (rust_string n /\ no_bom n) /\ sendable v
  | Call n args => (rust_string n /\ no_bom n) /\ all sendable args
  end.
Definition start_ok (r : start) : Prop := match r with Element id => id < two64 | _ => True end.

(** The values that can be read: those some Rust value of the kinds [fetch] produces stands for. *)
Definition kind (r : jsval) : Prop :=
  match r with
  | VU32 _ | VU64 _ | VList _ | VObject _ => False
  | VJson j => match j with JList _ | JObject _ => True | _ => False end
  | _ => True
  end.
Fixpoint json_keys (j : json) : Prop :=
  match j with
  | JList l => all json_keys l
  | JObject m => all (fun kv => fst kv <> proto_key /\ json_keys (snd kv)) m
  | _ => True
  end.
Definition readable (v : jval) : Prop :=
  exists r, denotes r = v /\ kind r /\ val_ok r /\ val_small r /\ val_total r < two32 /\
            match r with VJson j => json_keys j | _ => True end.

(** *** C57, full statement: an access gives what the expression gives in JavaScript. *)
Definition C57_statement : Prop :=
  forall S eget eset ecall enode api window document lossy (s : S) r steps w s1 v,
  starts S enode api window document s r w -> runs S eget eset ecall s w steps s1 v ->
  start_ok r -> all step_ok steps -> val_total (VList (builder r steps)) < two32 ->
  exists x, fetch S eget eset ecall enode api window document lossy s (builder r steps) = (s1, FVal x) /\
            same (denotes x) v.

(** ** Proofs *)

Lemma all_In {A} (P : A -> Prop) l x : all P l -> In x l -> P x.
Proof. induction l; simpl; [tauto|]. intros [H1 H2] [->|H]; auto. Qed.

Lemma build_obj_plain {A} (m : list (bytes * A)) : NoDup (map fst m) -> (forall e, In e m -> fst e <> proto_key) ->
  build_obj m = m.
Proof.
  unfold build_obj. intros D K.
  assert (G : forall l acc, NoDup (map fst (acc ++ l)) -> (forall e, In e l -> fst e <> proto_key) ->
    fold_left (fun a (e : bytes * A) => js_assign (fst e) (snd e) a) l acc = acc ++ l).
  { induction l as [|[k x] l IH]; intros acc D2 K2; simpl; [rewrite app_nil_r; auto|].
    rewrite CodecJsProofs.js_assign_fresh.
    - rewrite IH; [rewrite <- app_assoc; auto| |intros e I; apply K2; right; auto].
      rewrite <- app_assoc. exact D2.
    - exact (K2 (k, x) (or_introl eq_refl)).
    - rewrite map_app in D2. simpl in D2. apply NoDup_remove_2 in D2. intros I. apply D2. apply in_or_app; auto. }
  exact (G m [] D K).
Qed.

Section JsonInd.
  Variable P : json -> Prop.
  Hypothesis Ht : P JTrue. Hypothesis Hf : P JFalse. Hypothesis Hn : P JNull.
  Hypothesis Hs : forall s, P (JString s). Hypothesis Hnum : forall n, P (JNumber n).
  Hypothesis Hl : forall l, Forall P l -> P (JList l).
  Hypothesis Ho : forall m, Forall (fun e => P (snd e)) m -> P (JObject m).
  Fixpoint json_ind3 (j : json) : P j :=
    match j with
    | JTrue => Ht | JFalse => Hf | JNull => Hn | JString s => Hs s | JNumber n => Hnum n
    | JList l => Hl l ((fix go l := match l return Forall P l with [] => Forall_nil _ | x :: t => Forall_cons x (json_ind3 x) (go t) end) l)
    | JObject m => Ho m ((fix go l := match l return Forall (fun e => P (snd e)) l with
                                      | [] => Forall_nil _ | x :: t => Forall_cons x (json_ind3 (snd x)) (go t) end) m)
    end.
End JsonInd.

Section ValInd.
  Variable P : jsval -> Prop.
  Hypothesis H0 : forall v, match v with VList _ | VObject _ => False | _ => True end -> P v.
  Hypothesis Hl : forall l, Forall P l -> P (VList l).
  Hypothesis Ho : forall m, Forall (fun e => P (snd e)) m -> P (VObject m).
  Fixpoint val_ind3 (v : jsval) : P v :=
    match v with
    | VList l => Hl l ((fix go l := match l return Forall P l with [] => Forall_nil _ | x :: t => Forall_cons x (val_ind3 x) (go t) end) l)
    | VObject m => Ho m ((fix go l := match l return Forall (fun e => P (snd e)) l with
                                      | [] => Forall_nil _ | x :: t => Forall_cons x (val_ind3 (snd x)) (go t) end) m)
    | v => H0 v Logic.I
    end.
End ValInd.

Lemma jval_json j : jval_of_json (js_of_json j) = denotes_json j.
Proof.
  induction j using json_ind3; simpl; auto; f_equal; rewrite map_map.
  - apply map_ext_in. intros a A. exact (proj1 (Forall_forall _ _) H a A).
  - apply map_ext_in. intros a A. simpl. f_equal. exact (proj1 (Forall_forall _ _) H a A).
Qed.

Lemma all_some_map {A B} (f : A -> option B) (g : A -> B) l : (forall a, In a l -> f a = Some (g a)) ->
  all_some (map f l) = Some (map g l).
Proof.
  induction l as [|a l IH]; intros H; simpl; auto. rewrite (H a) by (left; auto).
  rewrite IH by (intros; apply H; right; auto). auto.
Qed.

Lemma conv_json_ok j : json_ok j -> json_keys j -> conv_json (denotes_json j) = Some (js_of_json j).
Proof.
  induction j using json_ind3; simpl; auto; intros O K; rewrite map_map.
  - rewrite all_some_map with (g := js_of_json); auto. intros a A.
    apply (proj1 (Forall_forall _ _) H a A); eapply all_In; eauto.
  - destruct O as [D O].
    rewrite all_some_map with (g := fun e => (fst e, js_of_json (snd e))).
    + rewrite build_obj_plain; auto.
      * rewrite map_map. simpl. exact D.
      * intros e I. apply in_map_iff in I. destruct I as [e0 [<- I]]. simpl. apply (all_In _ _ _ K I).
    + intros a A. simpl. rewrite (proj1 (Forall_forall _ _) H a A); auto; [apply (all_In _ _ _ O A)|apply (all_In _ _ _ K A)].
Qed.

Lemma plain_keys j : json_plain j -> json_keys j.
Proof.
  induction j using json_ind3; simpl; auto; intros K.
  - induction l; simpl in *; auto. inversion H; subst. destruct K. split; auto.
  - induction m; simpl in *; auto. inversion H; subst. destruct K as [[[_ ?] ?] ?]. repeat split; auto.
Qed.

Lemma conv_from_ok v : val_ok v -> val_plain v -> conv_from (js_of_val v) = denotes v.
Proof.
  induction v using val_ind3; intros O P.
  - destruct v; simpl in *; auto; try contradiction. apply jval_json.
  - simpl in *. f_equal. rewrite map_map. apply map_ext_in. intros a A.
    apply (proj1 (Forall_forall _ _) H a A); eapply all_In; eauto.
  - simpl in *. destruct O as [D O]. f_equal. rewrite map_map. simpl.
    rewrite (map_ext_in _ (fun e => (fst e, denotes (snd e)))).
    + apply build_obj_plain.
      * rewrite map_map. simpl. exact D.
      * intros e I. apply in_map_iff in I. destruct I as [e0 [<- I]]. simpl. apply (all_In _ _ _ P I).
    + intros a A. f_equal. apply (proj1 (Forall_forall _ _) H a A); [apply (all_In _ _ _ O A)|apply (all_In _ _ _ P A)].
Qed.

(** Reading numbers. *)
Lemma conv_num n : n < two64 -> exists x, conv_val (KNum n) = Some (js_of_val x) /\ val_ok x /\ val_small x /\
  x <> VUndefined /\ val_no_object x /\ val_total x < two32 /\ kind x /\ same (denotes x) (KNum n).
Proof.
  intros B. cbn [conv_val]. destruct (num_is n (to_int32 n)) eqn:E.
  - assert (R : (- 2147483648 <= to_int32 n < 2147483648)%Z).
    { unfold to_int32. destruct (f64_trunc n); try lia. }
    replace ((-2147483648 <=? to_int32 n)%Z && (to_int32 n <? 2147483648)%Z) with true
      by (symmetry; apply andb_true_intro; split; [apply Z.leb_le|apply Z.ltb_lt]; lia).
    exists (VI32 (to_int32 n)). do 7 (split; [simpl; auto; try reflexivity; try discriminate; try lia|]).
    unfold num_is in E. apply orb_prop in E. destruct E as [E|E].
    + apply N.eqb_eq in E. left. simpl. rewrite E. auto.
    + apply andb_prop in E. destruct E as [E1 E2]. apply Z.eqb_eq in E1. apply N.eqb_eq in E2.
      right. simpl. rewrite E1, E2. auto.
  - exists (VF64 n). do 7 (split; [simpl; auto; try reflexivity; try discriminate|]). left. auto.
Qed.

Lemma conv_ok v : readable v -> exists x, conv_val v = Some (js_of_val x) /\ val_ok x /\ val_small x /\
  val_no_object x /\ val_total x < two32 /\ kind x /\ same (denotes x) v.
Proof.
  intros (r & D & K & O & Sm & T & J). subst v.
  assert (N : forall n, n < two64 -> exists x, conv_val (KNum n) = Some (js_of_val x) /\ val_ok x /\ val_small x /\
    val_no_object x /\ val_total x < two32 /\ kind x /\ same (denotes x) (KNum n)).
  { intros n B. destruct (conv_num n B) as (x & H1 & H2 & H3 & _ & H4 & H5 & H6 & H7). exists x. auto 10. }
  destruct r; simpl in K; try contradiction; simpl denotes.
  - destruct (N (f64_of_Z z)) as (x & H); [|exists x; exact H].
    simpl in O. unfold f64_of_Z. assert (G : forall k, k <= 2147483648 -> f64_of_N k < p63).
    { intros k H. unfold f64_of_N. destruct (N.eqb_spec k 0); [reflexivity|].
      assert (L : N.log2 k <= 31) by (change 31 with (N.log2 2147483648); apply N.log2_le_mono; auto).
      destruct (N.leb_spec (N.log2 k) 52); [|lia].
      pose proof (N.log2_spec k ltac:(lia)) as [_ L2].
      assert (X2 : 2 ^ N.succ (N.log2 k) * 2 ^ (52 - N.log2 k) = 2 * p52).
      { rewrite <- N.pow_add_r. replace (N.succ (N.log2 k) + (52 - N.log2 k)) with 53 by lia. reflexivity. }
      assert (P : 0 < 2 ^ (52 - N.log2 k)) by (apply N.neq_0_lt_0, N.pow_nonzero; lia).
      assert (Y2 : k * 2 ^ (52 - N.log2 k) < 2 * p52) by (rewrite <- X2; apply N.mul_lt_mono_pos_r; auto).
      unfold p63, p52 in *. nia. }
    change two64 with (p63 + p63). destruct (Z.ltb_spec z 0).
    + pose proof (G (Z.to_N (- z)) ltac:(lia)). lia.
    + pose proof (G (Z.to_N z) ltac:(lia)). unfold p63 in *. lia.
  - exists (VI64 z). do 6 (split; [simpl; auto; reflexivity|]). left; auto.
  - destruct (N bits) as (x & H); [exact O|exists x; exact H].
  - exists VTrue. do 6 (split; [simpl; auto; reflexivity|]). left; auto.
  - exists VFalse. do 6 (split; [simpl; auto; reflexivity|]). left; auto.
  - exists VNull. do 6 (split; [simpl; auto; reflexivity|]). left; auto.
  - exists VUndefined. do 6 (split; [simpl; auto; reflexivity|]). left; auto.
  - exists (VVec b). do 3 (split; [simpl; auto; reflexivity|]). split; [auto|]. split; [exact T|]. split; [exact Logic.I|]. left; auto.
  - exists (VString s). do 3 (split; [simpl; auto; reflexivity|]). split; [auto|]. split; [exact T|]. split; [exact Logic.I|]. left; auto.
  - exists (VJson j). split; [|split; [exact O|split; [exact Sm|split; [exact Logic.I|split; [exact T|split; [exact K|left; auto]]]]]].
    pose proof (conv_json_ok j O J) as C. simpl js_of_val.
    destruct j; try contradiction; cbn [denotes_json conv_val] in *; rewrite C; auto.
Qed.

Section Access.
  Variable S : Type.
  Variable eget : S -> jval -> bytes -> option jval.
  Variable eset : S -> jval -> bytes -> jval -> option S.
  Variable ecall : S -> jval -> bytes -> list jval -> S * option jval.
  Variable enode : S -> Z -> option jval.
  Variables api window document : jval.
  Variable lossy : bytes -> bytes.
  Notation walk := (walk S eget eset ecall enode api window document).
  Notation fetch := (fetch S eget eset ecall enode api window document lossy).
  Notation runs := (runs S eget eset ecall).

  Lemma walk_runs s w l s1 v : runs s w l s1 v -> all step_ok l ->
    walk s w (map js_of_val (map step_cmd l)) = (s1, NOk v).
  Proof.
    induction 1 as [| | |s w n args s1 v t s' r E R IH]; intros O; simpl in O.
    - reflexivity.
    - destruct O as [O1 O2]. cbn [map step_cmd BridgeModel.b_get js_of_val walk].
      cbn [BridgeModel.walk]. change (next _ _ _ _ _ _ _ _ s w _) with (s, next_get S eget s w [SVStr n]). cbn [next_get]. rewrite H. auto.
    - destruct O as [[O1 [O3 [O4 O5]]] O2]. cbn [map step_cmd b_set js_of_val BridgeModel.walk].
      change (next _ _ _ _ _ _ _ _ s w _) with (next_set S eset s w [SVStr n; js_of_val x]). cbn [next_set].
      rewrite conv_from_ok by auto. rewrite H. auto.
    - destruct O as [[O1 O3] O2]. cbn [map step_cmd b_call js_of_val BridgeModel.walk].
      change (next _ _ _ _ _ _ _ _ s w _) with (next_call S ecall s w (SVStr n :: map js_of_val args)). cbn [next_call].
      rewrite map_map. rewrite (map_ext_in _ denotes).
      + rewrite E. auto.
      + intros a A. destruct (all_In _ _ _ O3 A) as [A1 [A2 A3]]. apply conv_from_ok; auto.
  Qed.

  Lemma sendable_cmds r l : start_ok r -> all step_ok l -> sendable (VList (builder r l)).
  Proof.
    intros R O. assert (ST : forall c, step_ok c -> sendable (step_cmd c)).
    { intros c C. destruct c; simpl in C.
      - destruct C as [C1 C2]. unfold sendable. cbn.
        split; [|split; [auto|]]; (split; [try (unfold rust_string; cbn; repeat split; reflexivity); try (intros ? ?; discriminate)|split; [auto|auto]]).
      - destruct C as [[C1 C2] [C3 [C4 C5]]]. unfold sendable. cbn.
        split; [|split]; (split; [try (unfold rust_string; cbn; repeat split; reflexivity); try (intros ? ?; discriminate); auto|split; auto]).
      - destruct C as [[C1 C2] C3]. unfold sendable. cbn.
        assert (X : all val_ok args /\ all val_small args /\ all val_plain args).
        { induction args as [|a args IH]; simpl in *; auto. destruct C3 as [[? [? ?]] C3]. destruct (IH C3) as [? [? ?]]. auto 10. }
        destruct X as [X1 [X2 X3]].
        split; [|split]; (split; [try (unfold rust_string; cbn; repeat split; reflexivity); try (intros ? ?; discriminate); auto|split; auto]). }
    assert (SR : sendable (start_cmd r)).
    { destruct r; unfold sendable; cbn; simpl in R;
      (split; [|split]); repeat split; auto; try reflexivity; try (intros ? ?; discriminate). }
    unfold builder, sendable in *. destruct SR as [R1 [R2 R3]].
    assert (X : all val_ok (map step_cmd l) /\ all val_small (map step_cmd l) /\ all val_plain (map step_cmd l)).
    { clear -ST O. induction l as [|a l IH]; simpl in *; auto. destruct O as [O1 O2]. destruct (IH O2) as [? [? ?]].
      destruct (ST a O1) as [? [? ?]]. auto 10. }
    destruct X as [X1 [X2 X3]]. split; [|split]; split; auto.
  Qed.

  (** The access is decoded in JavaScript as it was written in Rust. *)
  Lemma access_decoded r l : start_ok r -> all step_ok l -> val_total (VList (builder r l)) < two32 ->
    exists blk, to_snapshot (VList (builder r l)) = Some blk /\
      js_value_decode lossy (w_out blk) = ROk (SVArr (js_of_val (start_cmd r) :: map js_of_val (map step_cmd l))).
  Proof.
    intros R O T. destruct (sendable_cmds r l R O) as [S1 [S2 S3]].
    destruct (C15_rust_to_js_partial lossy _ S1 S2 S3 T) as (blk & B1 & B2).
    exists blk. split; auto.
  Qed.

  Lemma reads_back v : readable v -> exists x,
    get_by_ptr (match conv_val v with
                | None => DThrow
                | Some x => match js_save_to_buffer x with
                            | None => DThrow | Some None => DZero | Some (Some b) => DBlock b end
                end) = FVal x /\ kind x /\ same (denotes x) v.
  Proof.
    intros H. destruct (conv_ok v H) as (x & C & O & Sm & N & T & K & E). rewrite C.
    assert (D : x = VUndefined \/ x <> VUndefined) by (destruct x; auto; right; discriminate).
    destruct D as [->|D].
    - exists VUndefined. split; [reflexivity|auto].
    - destruct (C16_js_to_rust_partial x O Sm N T D) as (b & B1 & B2). rewrite B1. simpl. rewrite B2.
      exists x. auto.
  Qed.

  Lemma first_step s r w l : starts S enode api window document s r w ->
    match r with Element _ => False | _ => True end ->
    walk s KNull (js_of_val (start_cmd r) :: l) = walk s w l.
  Proof. intros H R. destruct H; try contradiction; reflexivity. Qed.
End Access.

(** *** C57, the part that holds: an access that starts from the api, the window or the document does the
    steps on the values its arguments stand for, and gives the value they end with, when that is a readable one.
    Missing: accesses that start from an element (C58), values no Rust value stands for that [fetch] could produce
    (host objects, functions, objects holding an undefined, bigints out of range: see the refutation). *)
Theorem C57_access_partial S eget eset ecall enode api window document lossy (s : S) r steps w s1 v :
  starts S enode api window document s r w -> runs S eget eset ecall s w steps s1 v ->
  match r with Element _ => False | _ => True end -> readable v ->
  all step_ok steps -> val_total (VList (builder r steps)) < two32 ->
  exists x, fetch S eget eset ecall enode api window document lossy s (builder r steps) = (s1, FVal x) /\
            kind x /\ same (denotes x) v.
Proof.
  intros ST R E V O T.
  destruct (access_decoded lossy r steps) as (blk & B1 & B2); auto; [destruct r; simpl; auto; contradiction|].
  unfold fetch. rewrite B1. unfold dom_access. rewrite B2.
  rewrite first_step with (w := w) by auto. rewrite (walk_runs _ _ _ _ _ _ _ _ _ _ _ _ _ R O).
  destruct (reads_back v V) as (x & X & Y). exists x. split; auto.
  rewrite <- X. destruct (conv_val v); auto. destruct (js_save_to_buffer j) as [[?|]|]; auto.
Qed.

(** *** C58: a reference to an element gives [undefined] and does nothing, whatever page it is and whatever is asked. *)
Theorem C58_element_unreached S eget eset ecall enode api window document lossy (s : S) id steps :
  id < two64 -> all step_ok steps -> val_total (VList (builder (Element id) steps)) < two32 ->
  fetch S eget eset ecall enode api window document lossy s (builder (Element id) steps) = (s, FVal VUndefined).
Proof.
  intros I O T. destruct (access_decoded lossy (Element id) steps) as (blk & B1 & B2); auto.
  unfold fetch. rewrite B1. unfold dom_access. rewrite B2. reflexivity.
Qed.

(** ** A page *)
Module Demo.
  (** The state is the text of an input with id 7 and the number of times its [focus] was called. *)
  Definition st : Type := (bytes * N)%type.
  Definition node : jval := KHost 1.
  Definition win : jval := KHost 2.
  Definition is_host (v : jval) (n : N) : bool := match v with KHost m => m =? n | _ => false end.
  Definition get (s : st) (v : jval) (n : bytes) : option jval :=
    if is_host v 1 then
      if bytes_eqb n (str "value") then Some (KStr (fst s)) else Some KUndef
    else if is_host v 2 then
      if bytes_eqb n (str "width") then Some (KNum (f64_of_N 1280))
      else if bytes_eqb n (str "bag") then Some (KObj [(str "a", KNum (f64_of_N 5)); (str "b", KArr [KBool true; KNull])])
      else if bytes_eqb n (str "hole") then Some (KObj [(str "a", KNum (f64_of_N 5)); (str "b", KUndef)])
      else if bytes_eqb n (str "big") then Some (KBig 9223372036854775808)
      else if bytes_eqb n (str "input") then Some node else Some KUndef
    else None.
  Definition set (s : st) (v : jval) (n : bytes) (x : jval) : option st :=
    if is_host v 1 then match x with KStr t => Some (t, snd s) | _ => Some s end else None.
  Definition call (s : st) (v : jval) (n : bytes) (args : list jval) : st * option jval :=
    if is_host v 1 then ((fst s, snd s + N.of_nat (length args)), Some KUndef) else (s, None).
  Definition nodes (s : st) (id : Z) : option jval := if (id =? 7)%Z then Some node else None.
  Definition ex_fetch := fetch st get set call nodes KNull win KNull (fun b => b).
  Definition ex_runs := runs st get set call.
  Definition ex_starts := starts st nodes KNull win KNull.
End Demo.
Import Demo.

Lemma str_ok : rust_string (str "value") /\ no_bom (str "value").
Proof. split; [vm_compute; repeat split|intros ? ?; discriminate]. Qed.

(** The hypotheses of C57 are met, with an effect and with a result that is not trivial. *)
Example ex_C57_call : ex_fetch (str "hi", 0) (builder Window [Get (str "input"); Call (str "focus") [VI32 1; VTrue]])
  = ((str "hi", 2), FVal VUndefined).
Proof. vm_compute. reflexivity. Qed.
Example ex_C57_hyp : ex_starts (str "hi", 0) Window win /\
  ex_runs (str "hi", 0) win [Get (str "bag")] (str "hi", 0)
    (KObj [(str "a", KNum (f64_of_N 5)); (str "b", KArr [KBool true; KNull])]) /\
  readable (KObj [(str "a", KNum (f64_of_N 5)); (str "b", KArr [KBool true; KNull])]) /\
  all step_ok [Get (str "bag")] /\ val_total (VList (builder Window [Get (str "bag")])) < two32 /\
  ex_fetch (str "hi", 0) (builder Window [Get (str "bag")]) =
    ((str "hi", 0), FVal (VJson (JObject [(str "a", JNumber (f64_of_N 5)); (str "b", JList [JTrue; JNull])]))).
Proof.
  split; [constructor|]. split; [eapply runs_get; [vm_compute; reflexivity|constructor]|].
  split.
  { exists (VJson (JObject [(str "a", JNumber (f64_of_N 5)); (str "b", JList [JTrue; JNull])])).
    split; [reflexivity|]. split; [exact Logic.I|].
    split. { split. { repeat constructor; simpl; intuition discriminate. } vm_compute; repeat split. }
    split; [vm_compute; repeat split|]. split; [reflexivity|]. vm_compute; repeat split; discriminate. }
  split; [vm_compute; repeat split; intros; discriminate|]. split; [reflexivity|]. vm_compute. reflexivity.
Qed.

(** *** C57 refuted: an object that holds an undefined is read as undefined; a bigint of 2^63 is read as its opposite;
    a property read with [get_props] is read as an object that describes it. *)
Theorem C57_access_refuted : ~ C57_statement.
Proof.
  intros H. destruct (H st get set call nodes KNull win KNull (fun b => b) (str "hi", 0) Window [Get (str "hole")] win
    (str "hi", 0) (KObj [(str "a", KNum (f64_of_N 5)); (str "b", KUndef)])) as (x & X & Y).
  - constructor.
  - eapply runs_get; [vm_compute; reflexivity|constructor].
  - exact Logic.I.
  - vm_compute; repeat split; intros; discriminate.
  - reflexivity.
  - assert (E : x = VUndefined).
    { change (ex_fetch (str "hi", 0) (builder Window [Get (str "hole")]) = ((str "hi", 0), FVal x)) in X.
      vm_compute in X. congruence. }
    subst x. destruct Y as [Y|[Y _]]; discriminate Y.
Qed.

Theorem C57_bigint_refuted : exists s, get s win (str "big") = Some (KBig 9223372036854775808) /\
  ex_fetch s (builder Window [Get (str "big")]) = (s, FVal (VI64 (-9223372036854775808))).
Proof. exists ([], 0). split; vm_compute; reflexivity. Qed.

Theorem C57_get_props_refuted : exists s,
  get s win (str "width") = Some (KNum (f64_of_N 1280)) /\
  ex_fetch s (builder Window [Get (str "width")]) = (s, FVal (VI32 1280)) /\
  ex_fetch s [b_root (str "window"); b_get_props [str "width"]] =
    (s, FVal (VJson (JObject [(str "width", JObject [(str "type", JNumber (f64_of_N 2)); (str "value", JNumber (f64_of_N 1280))])]))).
Proof. exists ([], 0). split; [vm_compute; reflexivity|]. split; vm_compute; reflexivity. Qed.

(** A typed array inside of an object is read as an object with a number for every byte. *)
Theorem C57_bytes_refuted :
  fetch unit (fun _ _ _ => Some (KObj [(str "a", KBytes [7; 8])])) (fun _ _ _ _ => None) (fun _ _ _ _ => (tt, None)) (fun _ _ => None) KNull win KNull (fun b => b)
    tt (builder Window [Get (str "x")]) =
  (tt, FVal (VJson (JObject [(str "a", JObject [(str "0", JNumber (f64_of_N 7)); (str "1", JNumber (f64_of_N 8))])]))).
Proof. vm_compute. reflexivity. Qed.

(** *** C58 refuted as a property: the node is there, the same steps on it give its text, the reference gives nothing. *)
Theorem C58_element_refuted : exists s id steps v,
  ex_starts s (Element id) node /\ ex_runs s node steps s v /\ readable v /\ v = KStr (str "hi") /\
  ex_fetch s (builder (Element id) steps) = (s, FVal VUndefined).
Proof.
  exists (str "hi", 0), 7, [Get (str "value")], (KStr (str "hi")).
  split; [constructor; reflexivity|]. split; [eapply runs_get; [vm_compute; reflexivity|constructor]|].
  split.
  { exists (VString (str "hi")). split; [reflexivity|]. split; [exact Logic.I|].
    split; [vm_compute; repeat split|]. split; [exact Logic.I|]. split; [reflexivity|exact Logic.I]. }
  split; [reflexivity|]. vm_compute. reflexivity.
Qed.

(** The hypotheses of [C58_element_unreached] are met. *)
Example ex_C58 : 7 < two64 /\ all step_ok [Get (str "value"); Call (str "focus") [VI32 1]] /\
  val_total (VList (builder (Element 7) [Get (str "value"); Call (str "focus") [VI32 1]])) < two32.
Proof. split; [reflexivity|]. split; [|reflexivity]. vm_compute. repeat split; intros; discriminate. Qed.
