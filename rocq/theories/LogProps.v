(** What becomes of the log records of an application in the browser and on the server (C96). *)
From Coq Require Import String List NArith ZArith Bool Lia.
From Coq Require Import DecimalString.
From Coq Require Decimal.
From Verif Require Import CodecModel CodecJsModel CodecSpec CodecUtf8 CodecProps DomWire FetchModel BridgeModel BridgeProps ApiModel LogModel.
Import ListNotations.
Local Open Scope string_scope.
Local Open Scope list_scope.
Local Open Scope N_scope.

(** ** Specification *)

(** What the reader of the console should see: the level, the place and the message as it was written. *)
Definition lines_wanted (level place msg : bytes) : list bytes := [level; 32 :: place; 32 :: msg].

(** A text with no percent sign, and one with no two of them side by side. *)
Definition no_percent (s : bytes) : Prop := ~ In 37 s.
Definition no_double (s : bytes) : Prop := forall a b, s <> a ++ 37 :: 37 :: b.

(** Where a record says it comes from: the file, or the module when there is none. *)
Definition source (e : entry) : bytes := match e_file e with Some f => f | None => e_target e end.

(** The function of the console each level is for (Console Standard: debug, log, info, warn, error). *)
Inductive meant_for : severity -> string -> Prop :=
| for_error : meant_for SError "error"
| for_warn : meant_for SWarn "warn"
| for_info : meant_for SInfo "info"
| for_debug : meant_for SDebug "log".

(** ** Proofs *)

Section Shown.
  Variable collapse : bool.
  Variable show : N -> bytes -> bytes.
  Notation runs_of := (runs_of collapse show).

  Lemma runs_plain style acc s t args : no_percent s ->
    runs_of style acc (s ++ 37 :: 99 :: t) args = runs_of style (acc ++ s) (37 :: 99 :: t) args.
  Proof.
    intros NP. revert acc. induction s as [|x s IH]; intros acc; [rewrite app_nil_r; reflexivity|].
    assert (X : (x =? 37) = false) by (apply N.eqb_neq; intros ->; apply NP; left; reflexivity).
    assert (N' : no_percent s) by (intros I; apply NP; right; exact I).
    transitivity (runs_of style (acc ++ [x]) (s ++ 37 :: 99 :: t) args).
    - cbn [app LogModel.runs_of]. destruct (s ++ 37 :: 99 :: t) eqn:E; [destruct s; discriminate|]. rewrite X. reflexivity.
    - rewrite (IH N' (acc ++ [x])). rewrite <- app_assoc. reflexivity.
  Qed.

  Lemma runs_style style acc t a rest : runs_of style acc (37 :: 99 :: t) (a :: rest) = (style, acc) :: runs_of a [] t rest.
  Proof. cbn [LogModel.runs_of]. reflexivity. Qed.

  Lemma no_double_tail x s : no_double (x :: s) -> no_double s.
  Proof. intros H a b E. apply (H (x :: a) b). rewrite E. reflexivity. Qed.

  (** Without arguments left the text stays as it is. *)
  Lemma runs_rest n : forall s style acc, (length s <= n)%nat -> collapse = false \/ no_double s ->
    runs_of style acc s [] = [(style, acc ++ s)].
  Proof.
    induction n as [|n IH]; intros s style acc L H.
    - destruct s; [|simpl in L; lia]. cbn [LogModel.runs_of]. rewrite app_nil_r. reflexivity.
    - destruct s as [|x s]; [cbn [LogModel.runs_of]; rewrite app_nil_r; reflexivity|].
      assert (H1 : collapse = false \/ no_double s) by (destruct H; [left; auto|right; eapply no_double_tail; eauto]).
      assert (K : runs_of style (acc ++ [x]) s [] = [(style, acc ++ x :: s)])
        by (rewrite IH; [rewrite <- app_assoc; reflexivity|simpl in L; lia|exact H1]).
      cbn [LogModel.runs_of]. destruct s as [|c t]; [exact K|].
      assert (K2 : runs_of style (acc ++ [x; c]) t [] = [(style, acc ++ x :: c :: t)]).
      { rewrite IH; [rewrite <- app_assoc; reflexivity|simpl in L; lia|].
        destruct H1; [left; auto|right; eapply no_double_tail; eauto]. }
      destruct (N.eqb_spec x 37) as [->|]; [|exact K].
      destruct ((c =? 37) && collapse) eqn:D.
      { apply andb_prop in D. destruct D as [D1 D2]. apply N.eqb_eq in D1. subst c.
        destruct H as [H|H]; [congruence|]. exfalso. apply (H [] t). reflexivity. }
      destruct (c =? 99); [exact K2|]. destruct (specifier c); [exact K2|exact K].
  Qed.
End Shown.

Lemma digits_plain u : no_percent (str (NilZero.string_of_uint u)).
Proof.
  assert (G : forall u, no_percent (str (NilEmpty.string_of_uint u))).
  { intros v. induction v; simpl; intros I; try (destruct I as [I|I]; [discriminate|auto]); auto. }
  destruct u; try apply (G (_ u)). intros [I|[]]. discriminate.
Qed.

Lemma no_percent_app a b : no_percent a -> no_percent b -> no_percent (a ++ b).
Proof. intros A B I. apply in_app_or in I. destruct I; auto. Qed.

Lemma place_plain e : no_percent (source e) -> no_percent (place e).
Proof.
  intros H. unfold place. apply no_percent_app; [exact H|]. apply no_percent_app; [intros [I|[]]; discriminate|].
  destruct (e_line e); [apply digits_plain|]. vm_compute. intuition discriminate.
Qed.

(** *** C96, the console: a record is shown as its level, its place and its message, letter by letter, whatever the
    message contains: percent signs in it are not taken for directives. *)
Theorem C96_shown collapse show e : no_percent (source e) -> collapse = false \/ no_double (e_args e) ->
  map snd (console_shows collapse show (format_string e) [level_style (e_level e); place_style; args_style]) =
  lines_wanted (severity_name (e_level e)) (source e ++ str ":" ++ match e_line e with Some n => dec n | None => str "[Unknown]" end)
    (e_args e).
Proof.
  intros P D. unfold console_shows, format_string.
  change (str "%c" ++ severity_name (e_level e) ++ str "%c " ++ place e ++ str "%c" ++ str " " ++ e_args e)
    with (37 :: 99 :: severity_name (e_level e) ++ 37 :: 99 :: 32 :: place e ++ 37 :: 99 :: 32 :: e_args e).
  rewrite runs_style. rewrite runs_plain by (destruct (e_level e); vm_compute; intuition discriminate).
  rewrite runs_style.
  change (32 :: place e ++ 37 :: 99 :: 32 :: e_args e) with ((32 :: place e) ++ 37 :: 99 :: 32 :: e_args e).
  rewrite runs_plain.
  2:{ intros [I|I]; [discriminate|]. apply (place_plain e P I). }
  rewrite runs_style. rewrite (runs_rest collapse show (length (32 :: e_args e))); [|reflexivity|].
  2:{ destruct D as [D|D]; [left; exact D|right]. intros [|y a] b E; [discriminate|].
      injection E as _ E. apply (D a b E). }
  destruct (e_level e); reflexivity.
Qed.

Lemma utf8_app a b : utf8_valid a = true -> utf8_valid b = true -> utf8_valid (a ++ b) = true.
Proof.
  intros A B. apply C17_strings_are_utf8 in A. apply C17_strings_are_utf8 in B.
  destruct A as (x & X & ->), B as (y & Y & ->). apply C17_strings_are_utf8. exists (x ++ y).
  split; [apply Forall_app; auto|]. rewrite flat_map_app. reflexivity.
Qed.

Lemma rust_app a b : rust_string a -> rust_string b -> rust_string (a ++ b).
Proof.
  intros [A1 A2] [B1 B2]. split; [|apply utf8_app; auto].
  clear A2 B2. induction a as [|x a IH]; simpl in *; [exact B1|]. destruct A1. auto.
Qed.

Lemma digits_rust u : rust_string (str (NilZero.string_of_uint u)).
Proof.
  assert (C : forall n s, n < 128 -> rust_string s -> rust_string (n :: s)).
  { intros n s L S. change (n :: s) with ([n] ++ s). apply rust_app; auto. split; [simpl; split; [lia|auto]|].
    cbn [utf8_valid]. destruct (N.leb_spec n 127); [reflexivity|lia]. }
  assert (G : forall u, rust_string (str (NilEmpty.string_of_uint u))).
  { intros v. induction v; [split; [exact Logic.I|reflexivity]|..]; simpl; apply C; auto; reflexivity. }
  destruct u; try apply (G (_ u)). split; [vm_compute; auto|reflexivity].
Qed.

Lemma format_rust e : rust_string (source e) -> rust_string (e_args e) -> rust_string (format_string e).
Proof.
  intros F A. assert (W : forall w, forallb (fun b => b <? 256) (str w) = true -> utf8_valid (str w) = true -> rust_string (str w)).
  { intros w B V. split; [|exact V]. clear V. induction (str w) as [|x l IH]; simpl in *; auto.
    apply andb_prop in B. destruct B as [B1 B2]. apply N.ltb_lt in B1. auto. }
  unfold format_string, place. repeat apply rust_app; auto; try (apply W; reflexivity).
  - destruct (e_level e); apply W; reflexivity.
  - destruct (e_line e); [apply digits_rust|apply W; reflexivity].
Qed.

Lemma path_of l a b c d : ApiModel.builder (CConsole l a b c d) =
  BridgeProps.builder Window [Get (str "console"); Call (str (level_str l)) [VString a; VString b; VString c; VString d]].
Proof. reflexivity. Qed.

(** *** C96, in a browser: a record of level debug or above calls, once, the function of the console meant for its
    level, with arguments that the console shows as the level, the place and the message as it was written.
    Missing: records of level trace (see the refutation). *)
Theorem C96_browser_partial S eget eset ecall enode api window document lossy e :
  e_level e <> STrace -> rust_string (source e) -> rust_string (e_args e) -> len (format_string e) < 4294960000 ->
  exists c name target styles,
    logged e = Some c /\ meant_for (e_level e) name /\
    (forall (s : S) con s1, eget s window (str "console") = Some con ->
       ecall s con (str name) (map KStr (target :: styles)) = (s1, Some KUndef) ->
       fetch S eget eset ecall enode api window document lossy s (ApiModel.builder c) = (s1, FVal VUndefined)) /\
    (forall collapse show, no_percent (source e) -> collapse = false \/ no_double (e_args e) ->
       map snd (console_shows collapse show target styles) =
       lines_wanted (severity_name (e_level e)) (source e ++ str ":" ++ match e_line e with Some n => dec n | None => str "[Unknown]" end)
         (e_args e)).
Proof.
  intros T F A Z. exists (CConsole (console_level (e_level e)) (format_string e) (level_style (e_level e)) place_style args_style).
  exists (level_str (console_level (e_level e))), (format_string e), [level_style (e_level e); place_style; args_style].
  split; [unfold logged; destruct (e_level e); auto; congruence|].
  split; [destruct (e_level e); try constructor; congruence|].
  split; [|intros; apply C96_shown; auto].
  intros s con s1 G C. rewrite path_of.
  destruct (C57_access_partial S eget eset ecall enode api window document lossy s Window
    [Get (str "console"); Call (str (level_str (console_level (e_level e))))
      [VString (format_string e); VString (level_style (e_level e)); VString place_style; VString args_style]] window s1 KUndef)
    as (x & X & K & SM).
  - constructor.
  - eapply runs_get; [exact G|]. eapply runs_call; [exact C|]. constructor.
  - exact Logic.I.
  - exists VUndefined. repeat split.
  - assert (Q : forall w, rust_string (str w) -> no_bom (str w) -> sendable (VString (str w))).
    { intros w R B. split; [exact R|]. split; [exact Logic.I|exact B]. }
    split; [split; [vm_compute; repeat split|intros ? ?; discriminate]|]. split; [|exact Logic.I].
    split; [destruct (e_level e); (split; [vm_compute; repeat split|intros ? ?; discriminate])|].
    split; [split; [apply format_rust; auto|split; [exact Logic.I|intros ? ?; discriminate]]|].
    split; [destruct (e_level e); (split; [vm_compute; repeat split|split; [exact Logic.I|intros ? ?; discriminate]])|].
    split; [split; [vm_compute; repeat split|split; [exact Logic.I|intros ? ?; discriminate]]|].
    split; [split; [vm_compute; repeat split|split; [exact Logic.I|intros ? ?; discriminate]]|exact Logic.I].
  - revert Z. generalize (format_string e). intros f Z. destruct (e_level e);
      cbn [BridgeProps.builder start_cmd map step_cmd b_root BridgeModel.b_get b_call val_total fold_right];
      repeat match goal with |- context [len (?f ?x)] => let v := eval vm_compute in (len (f x)) in change (len (f x)) with v end;
      repeat match goal with |- context [len ?x] => let v := eval vm_compute in (len x) in
        lazymatch v with context [f] => fail | _ => change (len x) with v end end;
      change two32 with 4294967296; lia.
  - rewrite X. f_equal. f_equal. destruct x; simpl in SM; destruct SM as [SM|[SM SM2]]; try discriminate; auto.
    destruct j; simpl in SM; discriminate.
Qed.

(** A warning of an upload that stopped half way, with percent signs of every kind in its message. *)
Definition upload : entry :=
  Entry SWarn (str "app") (Some (str "src/upload.rs")) (Some 42) (str "%s stopped at 50% of %c").

Lemma upload_ok : rust_string (source upload) /\ rust_string (e_args upload) /\ no_percent (source upload) /\ no_double (e_args upload).
Proof.
  split; [split; [vm_compute; repeat split|reflexivity]|]. split; [split; [vm_compute; repeat split|reflexivity]|].
  split; [vm_compute; intuition discriminate|].
  intros a b E. unfold upload, e_args in E. vm_compute in E.
  repeat (destruct a as [|? a]; [simpl in E; discriminate|]; simpl in E; injection E as _ E). destruct a; discriminate.
Qed.

Example C96_browser_case : e_level upload <> STrace /\ len (format_string upload) < 4294960000 /\
  console_shows true (fun _ a => a) (format_string upload) [level_style SWarn; place_style; args_style] =
  [(level_style SWarn, str "WARN"); (place_style, str " src/upload.rs:42"); (args_style, str " %s stopped at 50% of %c")].
Proof. split; [discriminate|]. split; vm_compute; reflexivity. Qed.

(** *** C96 fails for records of level trace: nothing is shown, whatever they say. *)
Theorem C96_trace_refuted : exists e, e_args e <> [] /\ logged e = None.
Proof. exists (Entry STrace (str "app") None None (str "here")). split; [discriminate|reflexivity]. Qed.

(** *** C96 fails in a browser that shows two percent signs as one: the message is not what was written. *)
Theorem C96_percent_refuted : exists e, e_level e = SInfo /\ e_args e = str "100%%" /\ no_percent (source e) /\
  map snd (console_shows true (fun _ a => a) (format_string e) [level_style SInfo; place_style; args_style]) =
  lines_wanted (str "INFO") (str "a.rs:1") (str "100%").
Proof.
  exists (Entry SInfo (str "app") (Some (str "a.rs")) (Some 1) (str "100%%")).
  do 2 (split; [reflexivity|]). split; [vm_compute; intuition discriminate|]. vm_compute. reflexivity.
Qed.

(** *** C96, on the server: a record of level debug or above is one line of the server's log that ends with the
    message as it was written; a record of level error is a warning there, every other one an info. *)
Theorem C96_server_partial e : e_level e <> STrace ->
  exists l pre, server_line e = Some (l, pre ++ e_args e) /\
    (e_level e = SError -> l = SWarn) /\ (e_level e <> SError -> l = SInfo).
Proof.
  intros T. exists (match e_level e with SError => SWarn | _ => SInfo end).
  exists (str "%c" ++ severity_name (e_level e) ++ str "%c " ++ place e ++ str "%c" ++ str " ").
  split; [|split; intros H; destruct (e_level e); congruence || reflexivity].
  rewrite <- !app_assoc. unfold server_line, logged. fold (format_string e).
  destruct (e_level e); try congruence; reflexivity.
Qed.

Example C96_server_case : server_line upload = Some (SInfo, str "%cWARN%c src/upload.rs:42%c %s stopped at 50% of %c").
Proof. vm_compute. reflexivity. Qed.

(** *** C96 fails on the server for the level: of a warning and an error, neither keeps its level. *)
Theorem C96_level_refuted : exists e1 e2, e_level e1 = SWarn /\ e_level e2 = SError /\
  (exists m, server_line e1 = Some (SInfo, m)) /\ (exists m, server_line e2 = Some (SWarn, m)).
Proof.
  exists upload, (Entry SError (str "app") None None (str "lost")). do 2 (split; [reflexivity|]).
  split; eexists; vm_compute; reflexivity.
Qed.

(** *** C96 fails on the server for the text: the directives meant for the console are written out. *)
Theorem C96_marks_refuted : exists e a b, no_percent (source e) /\ no_percent (e_args e) /\
  server_line e = Some (SInfo, a ++ str "%c" ++ b).
Proof.
  exists (Entry SInfo (str "app") None None (str "hello")), [], (str "INFO%c app:[Unknown]%c hello").
  do 2 (split; [vm_compute; intuition discriminate|]). vm_compute. reflexivity.
Qed.
