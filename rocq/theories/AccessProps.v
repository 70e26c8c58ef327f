(** What [window!] and [document!] reach: specification and theorems (C99). *)
From Coq Require Import String List NArith ZArith Bool Lia.
From Verif Require Import CodecModel CodecSpec CodecProofs DomWire FloatModel JsonModel JsonProofs BridgeModel BridgeProps ApiModel AccessModel.
Import ListNotations.
Local Open Scope string_scope.
Local Open Scope list_scope.
Local Open Scope N_scope.

(** ** Specification *)

(** The text a literal stands for, by the reference of Rust: a raw one its body; an ordinary one its body with the escapes replaced. *)
Inductive hex : N -> N -> Prop :=
| hex_digit n : n < 10 -> hex (48 + n) n
| hex_lower n : n < 6 -> hex (97 + n) (10 + n)
| hex_upper n : n < 6 -> hex (65 + n) (10 + n).
Inductive cooked : bytes -> bytes -> Prop :=
| ck_nil : cooked [] []
| ck_char c b s : c <> 34 -> c <> 92 -> cooked b s -> cooked (c :: b) (c :: s)
| ck_newline b s : cooked b s -> cooked (92 :: 110 :: b) (10 :: s)
| ck_return b s : cooked b s -> cooked (92 :: 114 :: b) (13 :: s)
| ck_tab b s : cooked b s -> cooked (92 :: 116 :: b) (9 :: s)
| ck_null b s : cooked b s -> cooked (92 :: 48 :: b) (0 :: s)
| ck_backslash b s : cooked b s -> cooked (92 :: 92 :: b) (92 :: s)
| ck_quote b s : cooked b s -> cooked (92 :: 34 :: b) (34 :: s)
| ck_apostrophe b s : cooked b s -> cooked (92 :: 39 :: b) (39 :: s)
| ck_byte h l x y b s : hex h x -> hex l y -> x < 8 -> cooked b s -> cooked (92 :: 120 :: h :: l :: b) (16 * x + y :: s).
Inductive says : literal -> bytes -> Prop :=
| says_cooked b s : cooked b s -> says (Cooked b) s
| says_raw n b : says (Raw n b) b.

(** The JavaScript value a Rust argument stands for: numbers are numbers. *)
Definition stands (a : arg) : jval :=
  match a with
  | AccessModel.AInt _ z => KNum (f64_of_Z z)
  | AFloat b => KNum b
  | AText s => KStr s
  | AccessModel.ABool b => KBool b
  | AObject m => KObj (map (fun e => (fst e, denotes (snd e))) m)
  | AValue v => denotes v
  end.
(** Arguments there are in Rust: integers within their type, texts, objects with distinct keys. *)
Definition bounds (t : int_type) : Z * Z :=
  match t with
  | I8 => (-128, 128) | I16 => (-32768, 32768) | I32 => (-2147483648, 2147483648)
  | I64 | ISize => (-9223372036854775808, 9223372036854775808)
  | U8 => (0, 256) | U16 => (0, 65536) | U32 => (0, 4294967296) | U64 | USize => (0, 18446744073709551616)
  end%Z.
Definition possible (a : arg) : Prop :=
  match a with
  | AccessModel.AInt t z => (fst (bounds t) <= z < snd (bounds t))%Z
  | AFloat b => b < two64
  | AText s => rust_string s /\ no_bom s
  | AccessModel.ABool _ => True
  | AObject m => sendable (VObject m)
  | AValue v => sendable v
  end.
(** Integers of at most 32 bits. *)
Definition narrow (a : arg) : Prop :=
  match a with AccessModel.AInt (I64 | ISize | U64 | USize) _ => False | _ => True end.

(** Where a macro starts from. *)
Definition start_of (g : global) : start := match g with GWindow => Window | GDocument => Document end.
Definition object_of (g : global) (window document : jval) : jval := match g with GWindow => window | GDocument => document end.
(** What a parameter is as a Rust value, when literals mean what [unescape] says. *)
Inductive worth (unescape : literal -> bytes) : param -> arg -> Prop :=
| worth_text l : worth unescape (PString l) (AText (unescape l))
| worth_other a : worth unescape (POther a) a.
(** A name of JavaScript as text of Rust. *)
Definition a_name (s : bytes) : Prop := rust_string s /\ no_bom s.
(** The path is short enough to be sent. *)
Definition fits (g : global) (c : step) : Prop := val_total (VList (BridgeProps.builder (start_of g) [c])) < two32.

(** *** C99, full statement: the macro calls the method its first literal names, with what its arguments stand for, and gives what it returned. *)
Definition C99_statement : Prop :=
  forall S eget eset ecall enode api window document lossy unescape g l name args (s : S) s1 v,
  says l (name ++ str "()") -> a_name name -> Forall possible args ->
  ecall s (object_of g window document) name (map stands args) = (s1, Some v) -> readable v ->
  fits g (Call name (map from_arg args)) ->
  exists b x, expand unescape g (PString l :: map POther args) = Some b /\
    fetch S eget eset ecall enode api window document lossy s b = (s1, FVal x) /\ same (denotes x) v.

(** ** Proofs *)

Lemma trim_front_id s : ~ In 34 s -> trim_front s = s.
Proof. destruct s as [|c s]; auto. intros H. cbn. destruct (N.eqb_spec c 34); auto. subst. exfalso. apply H. left. reflexivity. Qed.

Lemma trim_plain b : ~ In 34 b -> trim_matches (token (Cooked b)) = b.
Proof.
  intros H. unfold trim_matches, token. cbn [trim_front]. rewrite N.eqb_refl.
  destruct b as [|c b]; [reflexivity|]. assert (C : c <> 34) by (intros ->; apply H; left; reflexivity).
  cbn [app trim_front]. rewrite (proj2 (N.eqb_neq _ _) C). change (c :: b ++ [34]) with ((c :: b) ++ [34]).
  rewrite rev_app_distr. cbn [rev app trim_front]. rewrite N.eqb_refl. change (rev b ++ [c]) with (rev (c :: b)).
  rewrite trim_front_id; [apply rev_involutive|]. intros I. apply in_rev in I. auto.
Qed.

Lemma strip_call_app s : strip_call (s ++ str "()") = Some s.
Proof. unfold strip_call. rewrite rev_app_distr. cbn. rewrite rev_involutive. reflexivity. Qed.

Lemma strip_call_some s f : strip_call s = Some f -> s = f ++ str "()".
Proof.
  unfold strip_call. intros H. rewrite <- (rev_involutive s). destruct (rev s) as [|x [|y t]] eqn:E;
    repeat (try discriminate H; match type of H with context [match ?n with _ => _ end] => is_var n; destruct n end).
  injection H as <-. cbn [rev]. rewrite <- app_assoc. reflexivity.
Qed.

Lemma root_cmd g : b_root (root_name g) = start_cmd (start_of g).
Proof. destruct g; reflexivity. Qed.

Lemma starts_of S enode api window document (s : S) g : starts S enode api window document s (start_of g) (object_of g window document).
Proof. destruct g; constructor. Qed.

Lemma from_stands a : possible a -> narrow a -> denotes (from_arg a) = stands a.
Proof.
  destruct a as [t z| | |[]|m|]; intros P W; auto.
  - destruct t; try contradiction W; cbn in P |- *; auto; unfold f64_of_Z; f_equal; destruct z; try reflexivity; lia.
  - cbn [from_arg]. destruct P as ((D & _) & _). rewrite hash_from_id by assumption. reflexivity.
Qed.

Lemma from_sendable a : possible a -> sendable (from_arg a).
Proof.
  destruct a as [t z| | |[]|m|]; intros P; cbn [from_arg]; try (repeat split; exact Logic.I); try exact P.
  - destruct t; cbn in P |- *; repeat split; try exact Logic.I; cbn [val_ok]; unfold two32, two64 in *; lia.
  - repeat split; try exact Logic.I. exact P.
  - destruct P as [P Q]. repeat split; try exact Logic.I; apply P || exact Q.
  - pose proof P as ((D & _) & _). rewrite hash_from_id by assumption. exact P.
Qed.

Lemma all_from args : Forall possible args -> all sendable (map from_arg args).
Proof. induction 1; cbn; auto. split; auto. apply from_sendable. assumption. Qed.

Lemma map_from args : Forall possible args -> Forall narrow args -> map denotes (map from_arg args) = map stands args.
Proof. induction 1; intros W; cbn; auto. inversion W; subst. rewrite from_stands, IHForall by assumption. reflexivity. Qed.

Lemma worth_from u params args : Forall2 (worth u) params args -> map (argument u) params = map from_arg args.
Proof. induction 1; cbn [map]; auto. f_equal; auto. inversion H; reflexivity. Qed.

(** C99: the macro with a literal as one writes it (no backslash, no quote, not raw) calls that method with what its arguments stand for, and
    gives what it returned.  Partial: [C99_statement] is wider; escapes, raw literals and integers of 64 bits are refuted below. *)
Theorem C99_call_partial S eget eset ecall enode api window document lossy unescape g name params args (s : S) s1 v :
  Forall2 (worth unescape) params args -> ~ In 34 name -> ~ In 92 name -> a_name name -> Forall possible args -> Forall narrow args ->
  ecall s (object_of g window document) name (map stands args) = (s1, Some v) -> readable v ->
  fits g (Call name (map from_arg args)) ->
  exists b x, expand unescape g (PString (Cooked (name ++ str "()")) :: params) = Some b /\
    fetch S eget eset ecall enode api window document lossy s b = (s1, FVal x) /\ same (denotes x) v.
Proof.
  intros Wo Q B N P W C V F. unfold expand.
  rewrite trim_plain by (intros I; apply in_app_or in I; destruct I as [I|I]; [auto|cbn in I; intuition discriminate]).
  rewrite strip_call_app, (worth_from _ _ _ Wo), root_cmd.
  destruct (C57_access_partial S eget eset ecall enode api window document lossy s (start_of g) [Call name (map from_arg args)]
              (object_of g window document) s1 v) as (x & E & _ & M); auto.
  - apply starts_of.
  - econstructor; [|constructor]. rewrite map_from by assumption. exact C.
  - destruct g; exact Logic.I.
  - cbn. split; auto. split; [exact N|]. apply all_from. assumption.
  - exists (BridgeProps.builder (start_of g) [Call name (map from_arg args)]), x. auto.
Qed.

(** C99: without the brackets it reads the property. *)
Theorem C99_get_partial S eget eset ecall enode api window document lossy unescape g name (s : S) v :
  ~ In 34 name -> ~ In 92 name -> a_name name -> (forall f, name <> f ++ str "()") ->
  eget s (object_of g window document) name = Some v -> readable v -> fits g (Get name) ->
  exists b x, expand unescape g [PString (Cooked name)] = Some b /\
    fetch S eget eset ecall enode api window document lossy s b = (s, FVal x) /\ same (denotes x) v.
Proof.
  intros Q B N NB C V F. unfold expand. rewrite trim_plain by assumption.
  destruct (strip_call name) as [f|] eqn:E; [apply strip_call_some in E; exfalso; apply (NB f E)|]. rewrite root_cmd.
  destruct (C57_access_partial S eget eset ecall enode api window document lossy s (start_of g) [Get name]
              (object_of g window document) s v) as (x & X & _ & M); auto.
  - apply starts_of.
  - econstructor; [exact C|constructor].
  - destruct g; exact Logic.I.
  - cbn. split; auto.
  - exists (BridgeProps.builder (start_of g) [Get name]), x. auto.
Qed.

(** C99: arguments without brackets, and a first parameter that is no literal, are errors of the compiler. *)
Theorem C99_errors : forall unescape g,
  (forall name a args, ~ In 34 name -> (forall f, name <> f ++ str "()") -> expand unescape g (PString (Cooked name) :: a :: args) = None) /\
  (forall a args, expand unescape g (POther a :: args) = None) /\ expand unescape g [] = None.
Proof.
  intros u g. split; [|split; reflexivity]. intros name a args Q NB. unfold expand. rewrite trim_plain by assumption.
  destruct (strip_call name) as [f|] eqn:E; [apply strip_call_some in E; exfalso; apply (NB f E)|reflexivity].
Qed.

(** C99: while rendering on the server a macro does nothing and gives [undefined], whatever it names. *)
Theorem C99_server : forall unescape g params b url env now, expand unescape g params = Some b ->
  respond url env now (dispatch (VList b)) = ([], VUndefined).
Proof.
  intros u g params b url env now E. unfold expand in E. destruct params as [|[l|a] rest]; try discriminate E.
  destruct (strip_call (trim_matches (token l))) as [f|]; [|destruct rest; [|discriminate E]]; injection E as <-.
  - destruct g; reflexivity.
  - generalize (trim_matches (token l)). intros n. destruct g; [|reflexivity].
    assert (R : m_test_list ["root"; "window"] [b_root (root_name GWindow); BridgeModel.b_get n] = Some [BridgeModel.b_get n]) by reflexivity.
    assert (G : forall p, m_test_list ["get"; p] [BridgeModel.b_get n] = Some [] \/ m_test_list ["get"; p] [BridgeModel.b_get n] = None).
    { intros p. cbn -[str bytes_eqb]. destruct (_ && _); auto. }
    assert (L : match_log (VList [b_root (root_name GWindow); BridgeModel.b_get n]) = None).
    { unfold match_log. cbn [m_new ApiModel.obind]. rewrite R. cbn [ApiModel.obind]. destruct (G "console") as [-> | ->]; reflexivity. }
    assert (D : match_date_now (VList [b_root (root_name GWindow); BridgeModel.b_get n]) = None).
    { unfold match_date_now. cbn [m_new ApiModel.obind]. rewrite R. cbn [ApiModel.obind]. destruct (G "Date") as [-> | ->]; reflexivity. }
    unfold dispatch, branches. cbn [first_of]. rewrite L, D. reflexivity.
Qed.

(** ** Refutations *)

(** A page whose window has the method [alert] and nothing else; what was said is kept. *)
Module Page.
  Definition win : jval := KHost 1.
  Definition get (s : list (list jval)) (v : jval) (n : bytes) : option jval := Some KUndef.
  Definition set (s : list (list jval)) (v : jval) (n : bytes) (x : jval) : option (list (list jval)) := Some s.
  Definition call (s : list (list jval)) (v : jval) (n : bytes) (args : list jval) : list (list jval) * option jval :=
    if bytes_eqb n (str "alert") then (s ++ [args], Some KUndef) else (s, None).
  Definition run := fetch (list (list jval)) get set call (fun _ _ => None) KNull win KNull (fun b => b).
  Definition plain (l : literal) : bytes := match l with Cooked b => b | Raw _ b => b end.
End Page.

(** C99 fails for raw literals and for escapes: [window!(r"alert()", "hi")] and [window!("\x61lert()", "hi")] call nothing. *)
Theorem C99_raw_refuted : exists l b, says l (str "alert" ++ str "()") /\
  expand Page.plain GWindow [PString l; POther (AText (str "hi"))] = Some b /\ fst (Page.run [] b) = [].
Proof.
  exists (Raw 0 (str "alert()")). eexists. split; [apply (says_raw 0 (str "alert()"))|split; [reflexivity|vm_compute; reflexivity]].
Qed.
Theorem C99_escape_refuted : exists l b, says l (str "alert" ++ str "()") /\
  expand Page.plain GWindow [PString l; POther (AText (str "hi"))] = Some b /\ fst (Page.run [] b) = [].
Proof.
  exists (Cooked (str "\x61lert()")). eexists. split; [|split; [reflexivity|vm_compute; reflexivity]].
  constructor. apply (ck_byte 54 49 6 1 (str "lert()") (str "lert()")); try lia.
  - apply (hex_digit 6). lia.
  - apply (hex_digit 1). lia.
  - cbn. repeat (apply ck_char; [discriminate|discriminate|]). constructor.
Qed.
(** C99 fails for integers of 64 bits, the type of lengths and indices: JavaScript is given a bigint where it expects a number. *)
Theorem C99_wide_refuted : exists a b, possible a /\ stands a = KNum (f64_of_N 3) /\
  expand Page.plain GWindow [PString (Cooked (str "alert()")); POther a] = Some b /\ fst (Page.run [] b) = [[KBig 3]].
Proof.
  exists (AccessModel.AInt USize 3). eexists. split; [cbn; lia|split; [reflexivity|split; [reflexivity|vm_compute; reflexivity]]].
Qed.
Theorem C99_statement_refuted : ~ C99_statement.
Proof.
  intros H.
  destruct (H _ Page.get Page.set Page.call (fun _ _ => None) KNull Page.win KNull (fun b => b) Page.plain GWindow (Raw 0 (str "alert()")) (str "alert")
              [] [] [[]] KUndef) as (b & x & E & F & _).
  - apply (says_raw 0 (str "alert()")).
  - split; [split; [cbn; repeat split; lia|reflexivity]|intros r; discriminate].
  - constructor.
  - reflexivity.
  - exists VUndefined. repeat split; exact Logic.I || reflexivity.
  - reflexivity.
  - injection E as <-. vm_compute in F. discriminate.
Qed.

(** The hypotheses are met: [window!("alert()", "hi", 3, true)] and [document!("title")]. *)
Example C99_call_example : let args := [AText (str "hi"); AccessModel.AInt I32 3; AccessModel.ABool true] in
  ~ In 34 (str "alert") /\ ~ In 92 (str "alert") /\ a_name (str "alert") /\ Forall possible args /\ Forall narrow args /\
  readable KUndef /\ fits GWindow (Call (str "alert") (map from_arg args)) /\
  (exists b, let params := PString (Cooked (str "hi")) :: map POther (tl args) in Forall2 (worth Page.plain) params args /\
     expand Page.plain GWindow (PString (Cooked (str "alert()")) :: params) = Some b /\
     Page.run [] b = ([[KStr (str "hi"); KNum (f64_of_N 3); KBool true]], FVal VUndefined)).
Proof.
  cbv zeta. split; [cbn; intuition discriminate|]. split; [cbn; intuition discriminate|].
  split; [split; [split; [cbn; repeat split; lia|reflexivity]|intros r; discriminate]|].
  split; [|split; [repeat constructor|split; [|split; [reflexivity|]]]].
  - repeat constructor; try (cbn; lia); try (intros r; discriminate).
  - exists VUndefined. repeat split; exact Logic.I || reflexivity.
  - eexists. cbv zeta. split; [|split; [reflexivity|vm_compute; reflexivity]]. constructor; [exact (worth_text Page.plain (Cooked (str "hi")))|repeat constructor].
Qed.
Example C99_get_example : a_name (str "title") /\ (forall f, str "title" <> f ++ str "()") /\ fits GDocument (Get (str "title")) /\
  expand Page.plain GDocument [PString (Cooked (str "title"))] = Some [b_root (str "document"); BridgeModel.b_get (str "title")] /\
  expand Page.plain GDocument [PString (Cooked (str "title")); POther (AText (str "x"))] = None.
Proof.
  split; [split; [split; [cbn; repeat split; lia|reflexivity]|intros r; discriminate]|].
  split; [|repeat split; reflexivity]. intros f E. apply (f_equal (@rev N)) in E. rewrite rev_app_distr in E. discriminate.
Qed.
Example C99_server_example : expand Page.plain GWindow [PString (Cooked (str "console"))] =
  Some [b_root (str "window"); BridgeModel.b_get (str "console")].
Proof. reflexivity. Qed.
