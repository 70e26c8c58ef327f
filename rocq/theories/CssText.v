(** * What becomes of the text of a style

    Properties C35 (nothing written is lost), C36 (panics) and C53 (nested
    rules keep their content). *)

From Coq Require Import String List NArith Bool Lia.
From Verif Require Import CodecModel DomWire CssModel.
Import ListNotations.
Local Open Scope string_scope.
Local Open Scope list_scope.
Local Open Scope N_scope.

(** ** Trimming *)

Definition all_ws (w : txt) : Prop := Forall (fun c => is_ws c = true) w.

Lemma trim_start_ws : forall w s, all_ws w -> trim_start (w ++ s) = trim_start s.
Proof.
  induction w as [|c w IH]; intros s H; [reflexivity|].
  inversion H as [|? ? Hc Hw]; subst. cbn [app trim_start]. rewrite Hc. apply IH, Hw.
Qed.

Lemma trim_start_split : forall s, exists w, all_ws w /\ s = w ++ trim_start s.
Proof.
  induction s as [|c s [w [Hw E]]]; [exists []; split; [constructor|reflexivity]|].
  cbn [trim_start]. destruct (is_ws c) eqn:Ec.
  - exists (c :: w). split; [constructor; assumption|]. cbn [app]. now rewrite <- E.
  - exists []. split; [constructor|reflexivity].
Qed.

Lemma trim_start_head : forall s,
  trim_start s = [] \/ exists c r, trim_start s = c :: r /\ is_ws c = false.
Proof.
  induction s as [|c s IH]; [now left|].
  cbn [trim_start]. destruct (is_ws c) eqn:E; [exact IH|]. right. now exists c, s.
Qed.

Lemma trim_start_idem : forall s, trim_start (trim_start s) = trim_start s.
Proof.
  intros s. destruct (trim_start_head s) as [E|[c [r [E Hc]]]]; rewrite E; [reflexivity|].
  cbn [trim_start]. now rewrite Hc.
Qed.

Lemma all_ws_rev : forall w, all_ws w -> all_ws (rev w).
Proof. intros w H. apply Forall_rev, H. Qed.

Lemma trim_end_ws : forall w s, all_ws w -> trim_end (s ++ w) = trim_end s.
Proof.
  intros w s H. unfold trim_end. rewrite rev_app_distr.
  now rewrite trim_start_ws by now apply all_ws_rev.
Qed.

Lemma trim_end_split : forall s, exists w, all_ws w /\ s = trim_end s ++ w.
Proof.
  intros s. destruct (trim_start_split (rev s)) as [w [Hw E]].
  exists (rev w). split; [now apply all_ws_rev|].
  unfold trim_end. rewrite <- rev_app_distr, <- E. now rewrite rev_involutive.
Qed.

Lemma trim_end_idem : forall s, trim_end (trim_end s) = trim_end s.
Proof.
  intros s. unfold trim_end. rewrite rev_involutive, trim_start_idem. reflexivity.
Qed.

Lemma trim_start_all : forall w, all_ws w -> trim_start w = [].
Proof. intros w H. rewrite <- (app_nil_r w). now rewrite trim_start_ws. Qed.

(** A text that keeps a character keeps what surrounds it in order. *)
Lemma trim_start_app : forall a c b, is_ws c = false ->
  trim_start (a ++ c :: b) = trim_start a ++ c :: b.
Proof.
  induction a as [|x a IH]; intros c b H; cbn [app trim_start].
  - now rewrite H.
  - destruct (is_ws x); [now apply IH|reflexivity].
Qed.

Lemma trim_end_app : forall a c b, is_ws c = false ->
  trim_end (a ++ c :: b) = a ++ c :: trim_end b.
Proof.
  intros a c b H. unfold trim_end.
  rewrite rev_app_distr. cbn [rev]. rewrite <- app_assoc. cbn [app].
  rewrite trim_start_app by assumption.
  rewrite rev_app_distr. cbn [rev]. now rewrite rev_involutive, <- app_assoc.
Qed.

Lemma trim_app : forall a c b, is_ws c = false ->
  trim (a ++ c :: b) = trim_start a ++ c :: trim_end b.
Proof. intros a c b H. unfold trim. now rewrite trim_start_app, trim_end_app. Qed.

(** Leading white space goes first or last. *)
Lemma trim_swap : forall s, trim_end (trim_start s) = trim_start (trim_end s).
Proof.
  intros s. destruct (trim_start_head s) as [E|[c [r [E Hc]]]].
  - rewrite E. destruct (trim_start_split s) as [w [Hw Es]].
    rewrite E, app_nil_r in Es. subst s.
    assert (G : trim_end w = []).
    { unfold trim_end. rewrite (trim_start_all (rev w)) by now apply all_ws_rev. reflexivity. }
    now rewrite G.
  - destruct (trim_start_split s) as [w [Hw Es]]. rewrite E in *. subst s.
    change (c :: r) with ([] ++ c :: r) at 1.
    rewrite !trim_end_app, trim_start_app by assumption.
    now rewrite trim_start_all by assumption.
Qed.

Lemma trim_start_trim : forall s, trim (trim_start s) = trim s.
Proof. intros s. unfold trim. now rewrite trim_start_idem. Qed.

Lemma trim_trim_end : forall s, trim (trim_end s) = trim s.
Proof. intros s. unfold trim. now rewrite trim_swap, trim_end_idem, trim_swap. Qed.

Lemma trim_idem : forall s, trim (trim s) = trim s.
Proof. intros s. unfold trim at 2. now rewrite trim_trim_end, trim_start_trim. Qed.

Lemma trim_ws_l : forall w s, all_ws w -> trim (w ++ s) = trim s.
Proof. intros w s H. unfold trim. now rewrite trim_start_ws. Qed.

Lemma trim_ws_r : forall w s, all_ws w -> trim (s ++ w) = trim s.
Proof. intros w s H. rewrite <- (trim_trim_end (s ++ w)), trim_end_ws, trim_trim_end by assumption. reflexivity. Qed.

Lemma trim_nil_ws : forall s, trim s = [] -> all_ws s.
Proof.
  intros s H. destruct (trim_start_split s) as [w [Hw E]].
  destruct (trim_end_split (trim_start s)) as [v [Hv E2]].
  unfold trim in H. rewrite H in E2. cbn [app] in E2. rewrite E2 in E. subst s.
  apply Forall_app. now split.
Qed.

Lemma trim_ws : forall w, all_ws w -> trim w = [].
Proof. intros w H. unfold trim. now rewrite trim_start_all. Qed.

Lemma Forall_trim_start : forall (P : N -> Prop) s, Forall P s -> Forall P (trim_start s).
Proof.
  intros P s H. destruct (trim_start_split s) as [w [_ E]]. rewrite E in H.
  now apply Forall_app in H.
Qed.

Lemma Forall_trim_end : forall (P : N -> Prop) s, Forall P s -> Forall P (trim_end s).
Proof.
  intros P s H. destruct (trim_end_split s) as [w [_ E]]. rewrite E in H.
  now apply Forall_app in H.
Qed.

Lemma Forall_trim : forall (P : N -> Prop) s, Forall P s -> Forall P (trim s).
Proof. intros P s H. now apply Forall_trim_end, Forall_trim_start. Qed.

(** ** Splitting into rows *)

(** The scan of a piece of text that ends no row. *)
Fixpoint quiet (s : side) (x : txt) : option side :=
  match x with
  | [] => Some s
  | c :: r =>
      match side_step s c with
      | None => None
      | Some s' => if (c =? c_semi) && is_right s' then None else quiet s' r
      end
  end.

Lemma quiet_app : forall x y s,
  quiet s (x ++ y) = match quiet s x with None => None | Some s' => quiet s' y end.
Proof.
  induction x as [|c x IH]; intros y s; [reflexivity|].
  cbn [app quiet]. destruct (side_step s c) as [s'|]; [|reflexivity].
  destruct ((c =? c_semi) && is_right s'); [reflexivity|apply IH].
Qed.

Lemma split_quiet : forall x s s' cur r,
  quiet s x = Some s' -> split_loop s cur (x ++ r) = split_loop s' (cur ++ x) r.
Proof.
  induction x as [|c x IH]; intros s s' cur r H; cbn [quiet] in H.
  - injection H as <-. now rewrite app_nil_r.
  - cbn [app split_loop]. destruct (side_step s c) as [s1|]; [|discriminate].
    destruct ((c =? c_semi) && is_right s1); [discriminate|].
    rewrite (IH _ _ _ _ H), <- app_assoc. reflexivity.
Qed.

Lemma split_semi : forall cur r,
  split_loop Right cur (c_semi :: r)
  = match split_loop Left [] r with None => None | Some rows => Some (trim cur :: rows) end.
Proof. reflexivity. Qed.

Lemma side_step_ws : forall c s, is_ws c = true -> side_step s c = Some s.
Proof.
  intros c s H. unfold side_step, is_ws in *.
  destruct (N.eqb_spec c c_open) as [E|E]; [subst; discriminate|].
  destruct (N.eqb_spec c c_close) as [E1|E1]; [subst; discriminate|].
  destruct (N.eqb_spec c c_colon) as [E2|E2]; [subst; discriminate|].
  destruct (N.eqb_spec c c_dot) as [E3|E3]; [subst; discriminate|].
  reflexivity.
Qed.

Lemma ws_not_semi : forall c, is_ws c = true -> (c =? c_semi) = false.
Proof. intros c H. destruct (N.eqb_spec c c_semi); [subst; discriminate|reflexivity]. Qed.

Lemma quiet_ws : forall w s, all_ws w -> quiet s w = Some s.
Proof.
  induction w as [|c w IH]; intros s H; [reflexivity|].
  inversion H as [|? ? Hc Hw]; subst. cbn [quiet].
  rewrite side_step_ws, ws_not_semi by assumption. cbn [andb]. now apply IH.
Qed.

(** White space in front of the first row does not matter. *)
Lemma split_ws_cur : forall x s w cur, all_ws w ->
  split_loop s (w ++ cur) x = split_loop s cur x.
Proof.
  induction x as [|c x IH]; intros s w cur H; cbn [split_loop].
  - now rewrite trim_ws_l.
  - destruct (side_step s c) as [s'|]; [|reflexivity].
    rewrite trim_ws_l by assumption.
    destruct ((c =? c_semi) && is_right s'); [reflexivity|].
    rewrite <- app_assoc. now apply IH.
Qed.

Lemma split_ws_end : forall x s w cur, all_ws w ->
  split_loop s cur (x ++ w) = split_loop s cur x.
Proof.
  induction x as [|c x IH]; intros s w cur H.
  - cbn [app]. rewrite <- (app_nil_r w) at 1.
    rewrite (split_quiet w s s) by now apply quiet_ws.
    cbn [split_loop]. now rewrite trim_ws_r.
  - cbn [app split_loop]. destruct (side_step s c) as [s'|]; [|reflexivity].
    destruct ((c =? c_semi) && is_right s').
    + now rewrite IH.
    + now apply IH.
Qed.

Lemma split_rows_trim : forall x, css_split_rows (trim x) = css_split_rows x.
Proof.
  intros x.
  destruct (trim_start_split x) as [w [Hw E]].
  destruct (trim_end_split (trim_start x)) as [v [Hv E2]].
  fold (trim x) in E2. rewrite E2 in E.
  assert (G : split_loop Left [] x = split_loop Left [] (trim x)).
  { transitivity (split_loop Left [] (w ++ trim x ++ v)); [now rewrite <- E|].
    rewrite (split_quiet w Left Left) by now apply quiet_ws.
    cbn [app]. rewrite <- (app_nil_r w) at 1. rewrite split_ws_cur by assumption.
    now apply split_ws_end. }
  unfold css_split_rows. now rewrite G.
Qed.

(** ** Pieces of text *)

(** No separator of rows and no brace. *)
Definition calm (c : N) : Prop := c <> c_semi /\ c <> c_open /\ c <> c_close.

Lemma calm_step : forall c, calm c ->
  (c =? c_semi) = false /\ (c =? c_open) = false /\ (c =? c_close) = false.
Proof. intros c [A [B C]]. now repeat split; apply N.eqb_neq. Qed.

Lemma quiet_right : forall x, Forall calm x -> quiet Right x = Some Right.
Proof.
  induction x as [|c x IH]; intros H; [reflexivity|].
  inversion H as [|? ? Hc Hx]; subst. apply calm_step in Hc. destruct Hc as [A [B C]].
  cbn [quiet]. unfold side_step. rewrite A, B, C. cbn [andb].
  destruct ((c =? c_colon) || (c =? c_dot)); now apply IH.
Qed.

Lemma quiet_left : forall x, Forall calm x ->
  quiet Left x = Some Left \/ quiet Left x = Some Right.
Proof.
  induction x as [|c x IH]; intros H; [now left|].
  inversion H as [|? ? Hc Hx]; subst. apply calm_step in Hc. destruct Hc as [A [B C]].
  cbn [quiet]. unfold side_step. rewrite A, B, C. cbn [andb].
  destruct ((c =? c_colon) || (c =? c_dot)); [right; now apply quiet_right|now apply IH].
Qed.

(** A text with a colon or a point, as far as the scan is concerned. *)
Definition pointed (x : txt) : Prop := In c_colon x \/ In c_dot x.

Lemma quiet_pointed : forall x, Forall calm x -> pointed x -> quiet Left x = Some Right.
Proof.
  induction x as [|c x IH]; intros H P; [destruct P as [[]|[]]|].
  inversion H as [|? ? Hc Hx]; subst. pose proof (calm_step _ Hc) as [A [B C]].
  cbn [quiet]. unfold side_step. rewrite A, B, C. cbn [andb].
  destruct ((c =? c_colon) || (c =? c_dot)) eqn:E; [now apply quiet_right|].
  apply orb_false_iff in E. destruct E as [E1 E2].
  apply N.eqb_neq in E1. apply N.eqb_neq in E2.
  apply IH; [assumption|].
  destruct P as [[P|P]|[P|P]]; [congruence|now left|congruence|now right].
Qed.

(** A text whose braces match, nested at most [d] deep. *)
Inductive nest : nat -> txt -> Prop :=
| nest_nil : forall d, nest d []
| nest_char : forall d c r, c <> c_open -> c <> c_close -> nest d r -> nest d (c :: r)
| nest_block : forall d b r, nest d b -> nest (S d) r ->
    nest (S d) (c_open :: b ++ c_close :: r).

Lemma quiet_nest : forall d x, nest d x -> forall n,
  1 <= n -> n + N.of_nat d < 65536 -> quiet (Brackets n) x = Some (Brackets n).
Proof.
  intros d x H. induction H as [d|d c r Ho Hc Hr IH|d b r Hb IHb Hr IHr]; intros n H1 H2.
  - reflexivity.
  - cbn [quiet]. unfold side_step.
    rewrite (proj2 (N.eqb_neq _ _) Ho), (proj2 (N.eqb_neq _ _) Hc).
    replace (if (c =? c_colon) || (c =? c_dot) then Some (Brackets n) else Some (Brackets n))
      with (Some (Brackets n)) by now destruct ((c =? c_colon) || (c =? c_dot)).
    cbn [is_right]. rewrite andb_false_r. now apply IH.
  - cbn [quiet]. unfold side_step at 1. rewrite N.eqb_refl.
    rewrite N.mod_small by lia.
    change (c_open =? c_semi) with false. cbn [andb].
    rewrite quiet_app, IHb by lia.
    cbn [quiet]. unfold side_step at 1.
    change (c_close =? c_open) with false. rewrite N.eqb_refl.
    replace (1 <? n + 1) with true by (symmetry; apply N.ltb_lt; lia).
    change (c_close =? c_semi) with false. cbn [andb].
    replace (n + 1 - 1) with n by lia. now apply IHr.
Qed.

(** A row with a block: a head, a block, and calm text behind it. *)
Lemma quiet_block : forall h b z d,
  Forall calm h -> pointed h -> nest d b -> N.of_nat d < 65535 -> Forall calm z ->
  quiet Left (h ++ c_open :: b ++ c_close :: z) = Some Right.
Proof.
  intros h b z d Hh Hp Hb Hd Hz.
  rewrite quiet_app, quiet_pointed by assumption.
  cbn [quiet]. unfold side_step at 1. rewrite N.eqb_refl.
  change (c_open =? c_semi) with false. cbn [andb].
  rewrite quiet_app, (quiet_nest d) by (assumption || lia).
  cbn [quiet]. unfold side_step at 1.
  change (c_close =? c_open) with false. rewrite N.eqb_refl.
  change (1 <? 1) with false. change (c_close =? c_semi) with false. cbn [andb].
  now apply quiet_right.
Qed.

(** ** The rows of a list of pieces *)

Lemma split_pieces : forall l w,
  Forall (fun x => quiet Left x = Some Right) l -> all_ws w ->
  split_loop Left [] (flat_map (fun x => x ++ [c_semi]) l ++ w)
  = Some (map trim l ++ [[]]).
Proof.
  induction l as [|x l IH]; intros w H Hw.
  - cbn [flat_map app map]. rewrite <- (app_nil_r w).
    rewrite (split_quiet w Left Left) by now apply quiet_ws.
    cbn [split_loop app]. now rewrite trim_ws.
  - inversion H as [|? ? Hx Hl]; subst. cbn [flat_map map].
    rewrite <- !app_assoc. rewrite (split_quiet x Left Right) by assumption.
    cbn [app]. rewrite split_semi, IH by assumption. reflexivity.
Qed.

Lemma split_pieces_last : forall l y,
  Forall (fun x => quiet Left x = Some Right) l -> quiet Left y <> None ->
  split_loop Left [] (flat_map (fun x => x ++ [c_semi]) l ++ y)
  = Some (map trim l ++ [trim y]).
Proof.
  induction l as [|x l IH]; intros y H Hy.
  - cbn [flat_map app map]. destruct (quiet Left y) as [s|] eqn:E; [|congruence].
    rewrite <- (app_nil_r y) at 1. rewrite (split_quiet y Left s) by assumption. reflexivity.
  - inversion H as [|? ? Hx Hl]; subst. cbn [flat_map map].
    rewrite <- !app_assoc. rewrite (split_quiet x Left Right) by assumption.
    cbn [app]. rewrite split_semi, IH by assumption. reflexivity.
Qed.

(** ** Brackets *)

Definition ascii (c : N) : Prop := c < 128.

Lemma first_index_app : forall x a r, ~ In x a ->
  first_index x (a ++ x :: r) = Some (N.of_nat (length a)).
Proof.
  induction a as [|c a IH]; intros r H; cbn [app first_index].
  - now rewrite N.eqb_refl.
  - destruct (N.eqb_spec c x) as [E|E]; [exfalso; apply H; now left|].
    rewrite IH by (intros G; apply H; now right). f_equal. cbn [length]. lia.
Qed.

Lemma first_index_none : forall x a, ~ In x a -> first_index x a = None.
Proof.
  induction a as [|c a IH]; intros H; [reflexivity|]. cbn [first_index].
  destruct (N.eqb_spec c x) as [E|E]; [exfalso; apply H; now left|].
  rewrite IH; [reflexivity|]. intros G; apply H; now right.
Qed.

Lemma last_index_app : forall x a r, ~ In x r ->
  last_index x (a ++ x :: r) = Some (N.of_nat (length a)).
Proof.
  intros x a r H. unfold last_index.
  rewrite rev_app_distr. cbn [rev]. rewrite <- app_assoc. cbn [app].
  rewrite first_index_app by (now rewrite <- in_rev).
  f_equal. rewrite app_length, rev_length. cbn [length]. lia.
Qed.

Lemma last_index_none : forall x a, ~ In x a -> last_index x a = None.
Proof.
  intros x a H. unfold last_index. rewrite first_index_none; [reflexivity|].
  now rewrite <- in_rev.
Qed.

Lemma drop_ascii : forall a r, Forall ascii a ->
  drop_bytes (N.of_nat (length a)) (a ++ r) = Some r.
Proof.
  induction a as [|c a IH]; intros r H; [now destruct r|].
  inversion H as [|? ? Hc Ha]; subst.
  cbn [length app drop_bytes]. unfold ascii in Hc. unfold utf8_len.
  rewrite (proj2 (N.ltb_lt _ _) Hc).
  destruct (N.eqb_spec (N.of_nat (S (length a))) 0); [lia|].
  destruct (N.leb_spec 1 (N.of_nat (S (length a)))); [|lia].
  replace (N.of_nat (S (length a)) - 1) with (N.of_nat (length a)) by lia. now apply IH.
Qed.

Lemma take_ascii : forall a r, Forall ascii a ->
  take_bytes (N.of_nat (length a)) (a ++ r) = Some a.
Proof.
  induction a as [|c a IH]; intros r H; [now destruct r|].
  inversion H as [|? ? Hc Ha]; subst.
  cbn [length app take_bytes]. unfold ascii in Hc. unfold utf8_len.
  rewrite (proj2 (N.ltb_lt _ _) Hc).
  destruct (N.eqb_spec (N.of_nat (S (length a))) 0); [lia|].
  destruct (N.leb_spec 1 (N.of_nat (S (length a)))); [|lia].
  replace (N.of_nat (S (length a)) - 1) with (N.of_nat (length a)) by lia.
  now rewrite IH.
Qed.

(** ** C53: what a block contains *)

(** For every head, block and trailing text, if everything up to the closing
    brace is ASCII then the three parts are found. *)
Theorem C53_parts_partial : forall h b z,
  ~ In c_open h -> ~ In c_close z -> Forall ascii (h ++ c_open :: b) ->
  find_brackets (h ++ c_open :: b ++ c_close :: z) = Some (Some (trim h, trim b, trim z)).
Proof.
  intros h b z Hh Hz Ha. unfold find_brackets.
  rewrite first_index_app by assumption.
  rewrite (app_comm_cons b), (app_assoc h (c_open :: b)).
  rewrite last_index_app by assumption.
  assert (Hha : Forall ascii h) by (apply Forall_app in Ha; tauto).
  assert (Hba : Forall ascii b).
  { apply Forall_app in Ha. destruct Ha as [_ Ha]. now inversion Ha. }
  unfold slice.
  replace (0 <=? N.of_nat (length h)) with true by (symmetry; apply N.leb_le; lia).
  replace (drop_bytes 0 ((h ++ c_open :: b) ++ c_close :: z))
    with (Some ((h ++ c_open :: b) ++ c_close :: z))
    by (destruct ((h ++ c_open :: b) ++ c_close :: z); reflexivity).
  rewrite N.sub_0_r.
  rewrite <- app_assoc at 1. rewrite take_ascii by assumption.
  replace (N.of_nat (length h) + 1) with (N.of_nat (length (h ++ [c_open])))
    by (rewrite app_length; cbn [length]; lia).
  destruct (N.leb_spec (N.of_nat (length (h ++ [c_open]))) (N.of_nat (length (h ++ c_open :: b))))
    as [_|L]; [|rewrite !app_length in L; cbn [length] in L; lia].
  assert (E1 : (h ++ c_open :: b) ++ c_close :: z = (h ++ [c_open]) ++ (b ++ c_close :: z))
    by now rewrite <- !app_assoc.
  rewrite E1 at 1. rewrite drop_ascii
    by (apply Forall_app; split; [assumption|constructor; [reflexivity|constructor]]).
  replace (N.of_nat (length (h ++ c_open :: b)) - N.of_nat (length (h ++ [c_open])))
    with (N.of_nat (length b)) by (rewrite !app_length; cbn [length]; lia).
  rewrite take_ascii by assumption.
  replace (N.of_nat (length (h ++ c_open :: b)) + 1)
    with (N.of_nat (length ((h ++ c_open :: b) ++ [c_close])))
    by (rewrite app_length; cbn [length]; lia).
  assert (E2 : (h ++ c_open :: b) ++ c_close :: z = ((h ++ c_open :: b) ++ [c_close]) ++ z)
    by now rewrite <- !app_assoc.
  rewrite E2, drop_ascii
    by (apply Forall_app; split; [assumption|constructor; [reflexivity|constructor]]).
  reflexivity.
Qed.

(** Without a brace there is nothing to find, and no panic. *)
Lemma find_brackets_none : forall s, ~ In c_open s -> find_brackets s = Some None.
Proof. intros s H. unfold find_brackets. now rewrite first_index_none. Qed.

Lemma find_brackets_none_close : forall s, ~ In c_close s -> find_brackets s = Some None.
Proof.
  intros s H. unfold find_brackets. rewrite last_index_none by assumption.
  now destruct (first_index c_open s).
Qed.

(** ** Style sheets as one writes them *)

(** White space around a piece of text. *)
Definition pad := (txt * txt)%type.

Definition padded (p : pad) (x : txt) : txt := fst p ++ x ++ snd p.

(** Every item of a style is a declaration, a nested rule, an animation with
    its frames, or a media query with declarations and nested rules. *)
Inductive entry :=
| EDecl (p1 : pad) (key : txt) (p2 : pad) (value : txt)
| ERule (p1 : pad) (head : txt) (p2 : pad) (body : txt) (after : txt).

Inductive item :=
| Entry (e : entry)
| Anim (p0 p1 : pad) (before : txt) (p2 : pad) (frames : txt) (p3 : pad) (after : txt)
| Media (p1 : pad) (head : txt) (entries : list entry) (inner after : txt).

(** The text of each. *)
Definition entry_text (e : entry) : txt :=
  match e with
  | EDecl p1 k p2 v => padded p1 k ++ str ":" ++ padded p2 v
  | ERule p1 h p2 b z => padded p1 h ++ str "{" ++ padded p2 b ++ str "}" ++ z
  end.

(** Items, each closed by a semicolon; the last may go without, or white space
    may follow. *)
Definition sheet {A} (text : A -> txt) (l : list A) (rest : txt) : txt :=
  flat_map (fun i => text i ++ str ";") l ++ rest.

Definition item_text (i : item) : txt :=
  match i with
  | Entry e => entry_text e
  | Anim p0 p1 b p2 f p3 a =>
      padded p0 (str "animation") ++ str ":" ++ padded p1 b ++ str "{" ++ padded p2 f
      ++ str "}" ++ padded p3 a
  | Media p1 h es w z =>
      padded p1 h ++ str "{" ++ sheet entry_text es w ++ str "}" ++ z
  end.

(** *** Which items are meant *)

Definition ws_pad (p : pad) : Prop := all_ws (fst p) /\ all_ws (snd p).

(** No white space at either end. *)
Definition edged (x : txt) : Prop :=
  (forall c r, x = c :: r -> is_ws c = false)
  /\ (forall c r, x = r ++ [c] -> is_ws c = false).

(** A block of text with matching braces. *)
Definition block (x : txt) : Prop := exists d, nest d x /\ (d <= 400)%nat.

(** The names of declarations: no colon, no separator, not the start of a
    nested rule. *)
Definition key_ok (k : txt) : Prop :=
  edged k /\ k <> [] /\ Forall calm k /\ ~ In c_colon k
  /\ (forall r, k <> c_square :: r) /\ (forall r, k <> str "@media" ++ r).

Definition head_ok (first : N -> Prop) (h : txt) : Prop :=
  edged h /\ Forall calm h /\ pointed h /\ (exists c r, h = c :: r /\ first c)
  /\ Forall ascii h.

Definition ascii_pad (p : pad) : Prop := Forall ascii (fst p) /\ Forall ascii (snd p).

Definition entry_ok (first : N -> Prop) (e : entry) : Prop :=
  match e with
  | EDecl p1 k p2 v =>
      ws_pad p1 /\ key_ok k /\ ws_pad p2 /\ edged v /\ Forall calm v
  | ERule p1 h p2 b z =>
      ws_pad p1 /\ ascii_pad p1 /\ head_ok first h /\ ws_pad p2 /\ ascii_pad p2
      /\ edged b /\ block b /\ Forall ascii b /\ all_ws z
  end.

Definition top_start (c : N) : Prop := c = c_colon \/ c = c_square.
Definition media_start (c : N) : Prop := c = c_colon.

Definition media_entry_ok (e : entry) : Prop :=
  entry_ok media_start e /\ Forall ascii (entry_text e)
  /\ match e with EDecl _ _ _ v => v <> [] | ERule _ _ _ _ _ => True end.

Definition item_ok (i : item) : Prop :=
  match i with
  | Entry e => entry_ok top_start e
  | Anim p0 p1 b p2 f p3 a =>
      ws_pad p0 /\ ws_pad p1 /\ ws_pad p2 /\ ws_pad p3
      /\ ascii_pad p1 /\ ascii_pad p2
      /\ edged b /\ Forall calm b /\ Forall ascii b
      /\ edged f /\ block f /\ Forall ascii f
      /\ edged a /\ Forall calm a
  | Media p1 h es w z =>
      ws_pad p1 /\ ascii_pad p1 /\ edged h /\ Forall calm h /\ pointed h /\ Forall ascii h
      /\ (exists q, h = str "@media" ++ q)
      /\ Forall media_entry_ok es /\ all_ws w /\ Forall ascii w /\ all_ws z
  end.

(** *** What they mean *)

(** The declarations inside a media query, as they are written. *)
Definition plain_rows (es : list entry) : list txt :=
  flat_map (fun e => match e with
                     | EDecl p1 k p2 v => [k ++ snd p1 ++ str ":" ++ fst p2 ++ v]
                     | _ => []
                     end) es.

(** The nested rules inside a media query. *)
Definition nested_sets (sel : txt) (es : list entry) : list txt :=
  flat_map (fun e => match e with
                     | ERule _ h _ b _ => [sel ++ h ++ str " { " ++ b ++ str " }"]
                     | _ => []
                     end) es.

Definition media_meaning (sel : txt) (es : list entry) : txt :=
  join [10] ((match plain_rows es with
              | [] => []
              | rows => [sel ++ str " { " ++ join (str ";") rows ++ str " }"]
              end) ++ nested_sets sel es).

(** The declarations for the class itself, the further rules in the order in
    which they are written, and the counter behind them. *)
Fixpoint meaning (sel : txt) (l : list item) (n : N) : list txt * list (txt * txt) * N :=
  match l with
  | [] => ([], [], n)
  | i :: r =>
      match i with
      | Entry (EDecl _ k _ v) =>
          match meaning sel r n with
          | (out, docs, m) => ((k ++ str ": " ++ v) :: out, docs, m)
          end
      | Entry (ERule _ h _ b _) =>
          match meaning sel r n with
          | (out, docs, m) => (out, (sel ++ h, b) :: docs, m)
          end
      | Anim _ _ b _ f _ a =>
          match meaning sel r (n + 1) with
          | (out, docs, m) =>
              ((str "animation: " ++ b ++ str " " ++ get_selector (n + 1) ++ str " " ++ a) :: out,
               (str "@keyframes " ++ get_selector (n + 1), f) :: docs, m)
          end
      | Media _ h es _ _ =>
          match meaning sel r n with
          | (out, docs, m) =>
              (out, match es with [] => docs | _ => (h, media_meaning sel es) :: docs end, m)
          end
      end
  end.

(** *** Lemmas *)

Lemma edged_trim_start : forall x, edged x -> trim_start x = x.
Proof.
  intros [|c r] [H _]; [reflexivity|]. cbn [trim_start]. now rewrite (H c r eq_refl).
Qed.

Lemma edged_trim_end : forall x, edged x -> trim_end x = x.
Proof.
  intros x [_ H]. unfold trim_end. destruct (rev x) as [|c r] eqn:E.
  - cbn. rewrite <- (rev_involutive x), E. reflexivity.
  - cbn [trim_start]. rewrite (H c (rev r)).
    + rewrite <- E. apply rev_involutive.
    + rewrite <- (rev_involutive x), E. reflexivity.
Qed.

Lemma edged_trim : forall x, edged x -> trim x = x.
Proof. intros x H. unfold trim. now rewrite edged_trim_start, edged_trim_end. Qed.

Lemma trim_padded : forall p x, ws_pad p -> edged x -> trim (padded p x) = x.
Proof.
  intros [a b] x [Ha Hb] H. unfold padded. cbn [fst snd] in *.
  rewrite trim_ws_l, trim_ws_r by assumption. now apply edged_trim.
Qed.

Lemma calm_ws : forall c, is_ws c = true -> calm c.
Proof. intros c H. repeat split; intros ->; discriminate. Qed.

Lemma calm_all_ws : forall w, all_ws w -> Forall calm w.
Proof. intros w H. eapply Forall_impl; [|exact H]. intros c. apply calm_ws. Qed.

Lemma calm_padded : forall p x, ws_pad p -> Forall calm x -> Forall calm (padded p x).
Proof.
  intros [a b] x [Ha Hb] H. unfold padded. cbn [fst snd] in *.
  repeat (apply Forall_app; split); auto using calm_all_ws.
Qed.

Lemma ascii_padded : forall p x, ascii_pad p -> Forall ascii x -> Forall ascii (padded p x).
Proof.
  intros [a b] x [Ha Hb] H. unfold padded. cbn [fst snd] in *.
  repeat (apply Forall_app; split); auto.
Qed.

Lemma calm_not_in : forall x, Forall calm x -> ~ In c_open x /\ ~ In c_close x.
Proof.
  intros x H. rewrite Forall_forall in H.
  split; intros G; apply H in G; destruct G as [_ [A B]]; congruence.
Qed.

Lemma ws_not_in : forall x c, all_ws x -> is_ws c = false -> ~ In c x.
Proof.
  intros x c H Hc G. unfold all_ws in H. rewrite Forall_forall in H.
  apply H in G. congruence.
Qed.

Lemma pointed_padded : forall p x, pointed x -> pointed (padded p x).
Proof.
  intros p x [H|H]; unfold padded; [left|right];
    rewrite !in_app_iff; auto.
Qed.

Lemma nest_le : forall d x, nest d x -> forall e, (d <= e)%nat -> nest e x.
Proof.
  intros d x H. induction H as [d|d c r Ho Hc Hr IH|d b r Hb IHb Hr IHr]; intros e He.
  - constructor.
  - constructor; auto.
  - destruct e as [|e]; [lia|]. apply nest_block; [apply IHb; lia|apply IHr; lia].
Qed.

Lemma nest_app : forall d x, nest d x -> forall y, nest d y -> nest d (x ++ y).
Proof.
  intros d x H. induction H as [d|d c r Ho Hc Hr IH|d b r Hb IHb Hr IHr]; intros y Hy.
  - exact Hy.
  - cbn [app]. constructor; auto.
  - cbn [app]. rewrite <- app_assoc. cbn [app]. apply nest_block; auto.
Qed.

Lemma nest_calm : forall d x, Forall (fun c => c <> c_open /\ c <> c_close) x -> nest d x.
Proof.
  intros d x H. induction H as [|c r [A B] Hr IH]; constructor; auto.
Qed.

Lemma calm_braces : forall x, Forall calm x -> Forall (fun c => c <> c_open /\ c <> c_close) x.
Proof. intros x H. eapply Forall_impl; [|exact H]. intros c [_ G]. exact G. Qed.

Lemma nest_ws : forall d x, all_ws x -> nest d x.
Proof. intros d x H. now apply nest_calm, calm_braces, calm_all_ws. Qed.

Lemma nest_padded : forall d p x, ws_pad p -> nest d x -> nest d (padded p x).
Proof.
  intros d [a b] x [Ha Hb] H. unfold padded. cbn [fst snd] in *.
  apply nest_app; [now apply nest_ws|]. apply nest_app; [assumption|now apply nest_ws].
Qed.

Lemma padded_cons_app : forall p x y, padded p x ++ y = fst p ++ x ++ snd p ++ y.
Proof. intros p x y. unfold padded. now rewrite <- !app_assoc. Qed.

(** The rows. *)
Definition decl_row (k : txt) (p1 p2 : pad) (v : txt) : txt :=
  k ++ snd p1 ++ c_colon :: trim_end (padded p2 v).

Lemma row_decl : forall p1 k p2 v, ws_pad p1 -> edged k -> k <> [] ->
  trim (entry_text (EDecl p1 k p2 v)) = decl_row k p1 p2 v.
Proof.
  intros p1 k p2 v [A B] Ek Hk. cbn [entry_text].
  change (str ":" ++ padded p2 v) with (c_colon :: padded p2 v).
  rewrite trim_app by reflexivity. unfold padded at 1, decl_row.
  rewrite trim_start_ws by assumption.
  assert (E : trim_start (k ++ snd p1) = k ++ snd p1).
  { destruct k as [|c k]; [congruence|]. cbn [app trim_start].
    rewrite (proj1 Ek c k eq_refl). reflexivity. }
  rewrite E, <- app_assoc. reflexivity.
Qed.

Lemma row_block : forall p1 h b z, ws_pad p1 -> edged h -> h <> [] -> all_ws z ->
  trim (padded p1 h ++ str "{" ++ b ++ str "}" ++ z)
  = (h ++ snd p1) ++ c_open :: b ++ c_close :: [].
Proof.
  intros p1 h b z [A B] Eh Hh Hz.
  change (str "{" ++ b ++ str "}" ++ z) with (c_open :: b ++ c_close :: z).
  rewrite trim_app by reflexivity.
  rewrite trim_end_app by reflexivity.
  rewrite <- (app_nil_l z), trim_end_ws by assumption.
  unfold padded. rewrite trim_start_ws by assumption.
  assert (E : trim_start (h ++ snd p1) = h ++ snd p1).
  { destruct h as [|c h]; [congruence|]. cbn [app trim_start].
    rewrite (proj1 Eh c h eq_refl). reflexivity. }
  now rewrite E.
Qed.

Lemma quiet_entry : forall first e, entry_ok first e ->
  quiet Left (entry_text e) = Some Right.
Proof.
  intros first [p1 k p2 v|p1 h p2 b z]; cbn [entry_ok entry_text].
  - intros [A [[Ek [Hk [Ck [Nk _]]]] [B [Ev Cv]]]].
    apply quiet_pointed.
    + apply Forall_app. split; [now apply calm_padded|].
      constructor; [repeat split; discriminate|now apply calm_padded].
    + left. rewrite !in_app_iff. right. left. now left.
  - intros [A [_ [[Eh [Ch [Ph [_ _]]]] [B [_ [Eb [[d [Hd Ld]] [_ Hz]]]]]]]].
    apply (quiet_block _ (padded p2 b) z d).
    + now apply calm_padded.
    + now apply pointed_padded.
    + now apply nest_padded.
    + lia.
    + now apply calm_all_ws.
Qed.

Lemma nest_entry : forall first e, entry_ok first e ->
  nest 401 (entry_text e).
Proof.
  intros first [p1 k p2 v|p1 h p2 b z]; cbn [entry_ok entry_text].
  - intros [A [[Ek [Hk [Ck [Nk _]]]] [B [Ev Cv]]]].
    apply nest_app; [apply nest_padded, nest_calm, calm_braces; assumption|].
    apply nest_app; [apply nest_char; [discriminate|discriminate|constructor]|].
    apply nest_padded, nest_calm, calm_braces; assumption.
  - intros [A [_ [[Eh [Ch [Ph [_ _]]]] [B [_ [Eb [[d [Hd Ld]] [_ Hz]]]]]]]].
    apply nest_app; [apply nest_padded, nest_calm, calm_braces; assumption|].
    apply nest_block; [|now apply nest_ws].
    apply nest_padded; [assumption|]. apply (nest_le d); assumption.
Qed.

Lemma nest_sheet : forall es w, Forall media_entry_ok es -> all_ws w ->
  nest 401 (sheet entry_text es w).
Proof.
  intros es w H Hw. unfold sheet. apply nest_app; [|now apply nest_ws].
  induction H as [|e es [He _] Hes IH]; [constructor|].
  cbn [flat_map]. apply nest_app; [|exact IH].
  apply nest_app; [now apply (nest_entry media_start)|].
  apply nest_char; [discriminate|discriminate|constructor].
Qed.

Lemma quiet_item : forall i, item_ok i -> quiet Left (item_text i) = Some Right.
Proof.
  intros [e|p0 p1 b p2 f p3 a|p1 h es w z]; cbn [item_ok item_text].
  - apply quiet_entry.
  - intros [W0 [W1 [W2 [W3 [A1 [A2 [Eb [Cb [Ab [Ef [[d [Hd Ld]] [Af [Ea Ca]]]]]]]]]]]]].
    replace (padded p0 (str "animation") ++ str ":" ++ padded p1 b ++ str "{" ++ padded p2 f
      ++ str "}" ++ padded p3 a)
      with ((padded p0 (str "animation") ++ c_colon :: padded p1 b) ++ c_open :: padded p2 f
            ++ c_close :: padded p3 a)
      by (rewrite <- app_assoc; reflexivity).
    apply (quiet_block _ (padded p2 f) (padded p3 a) d).
    + apply Forall_app. split.
      * apply calm_padded; [assumption|]. repeat constructor; discriminate.
      * constructor; [repeat split; discriminate|now apply calm_padded].
    + left. rewrite in_app_iff. right. now left.
    + now apply nest_padded.
    + lia.
    + now apply calm_padded.
  - intros [W1 [A1 [Eh [Ch [Ph [Ah [_ [Hes [Hw [Aw Hz]]]]]]]]]].
    apply (quiet_block _ (sheet entry_text es w) z 401).
    + now apply calm_padded.
    + now apply pointed_padded.
    + now apply nest_sheet.
    + reflexivity.
    + now apply calm_all_ws.
Qed.

Lemma split_on_cons : forall x s, exists h t, split_on x s = h :: t.
Proof.
  intros x [|c r]; cbn [split_on]; [now exists [], []|].
  destruct (c =? x); [now exists [], (split_on x r)|].
  destruct (split_on x r) as [|h t]; [now exists [c], []|now exists (c :: h), t].
Qed.

Lemma split_on_first : forall x a r, ~ In x a ->
  split_on x (a ++ x :: r) = a :: split_on x r.
Proof.
  induction a as [|c a IH]; intros r H; cbn [app split_on].
  - now rewrite N.eqb_refl.
  - destruct (N.eqb_spec c x) as [E|E]; [exfalso; apply H; now left|].
    rewrite IH by (intros G; apply H; now right). reflexivity.
Qed.

Lemma join_split : forall x s, join [x] (split_on x s) = s.
Proof.
  induction s as [|c s IH]; [reflexivity|]. cbn [split_on].
  destruct (N.eqb_spec c x) as [E|E].
  - destruct (split_on_cons x s) as [h [t Es]]. rewrite Es in *.
    transitivity (x :: join [x] (h :: t)); [reflexivity|]. now rewrite IH, E.
  - destruct (split_on_cons x s) as [h [t Es]]. rewrite Es in *.
    transitivity (c :: join [x] (h :: t)); [now destruct t|]. now rewrite IH.
Qed.

Lemma pair_row : forall a r, ~ In c_colon a ->
  css_row_split_to_pair (a ++ c_colon :: r) = Some (trim a, trim r).
Proof.
  intros a r H. unfold css_row_split_to_pair. rewrite split_on_first by assumption.
  destruct (split_on_cons c_colon r) as [h [t Es]].
  pose proof (join_split c_colon r) as J. rewrite Es in *. now rewrite J.
Qed.

Lemma txt_eqb_refl : forall a, txt_eqb a a = true.
Proof. induction a as [|x a IH]; [reflexivity|]. cbn. now rewrite N.eqb_refl. Qed.

Lemma txt_eqb_eq : forall a b, txt_eqb a b = true <-> a = b.
Proof.
  induction a as [|x a IH]; intros [|y b]; cbn; split; try congruence; try discriminate.
  - intros H. apply andb_true_iff in H. destruct H as [H1 H2].
    apply N.eqb_eq in H1. apply IH in H2. congruence.
  - intros H. injection H as -> ->. now rewrite N.eqb_refl, (proj2 (IH b) eq_refl).
Qed.

Lemma starts_with_spec : forall p s, starts_with p s = true <-> exists r, s = p ++ r.
Proof.
  induction p as [|x p IH]; intros s; cbn [starts_with].
  - split; [intros _; now exists s|reflexivity].
  - destruct s as [|y s].
    + split; [discriminate|]. intros [r Hr]. discriminate.
    + rewrite andb_true_iff, N.eqb_eq, IH. split.
      * intros [-> [r ->]]. now exists r.
      * intros [r Hr]. injection Hr as -> ->. split; [reflexivity|now exists r].
Qed.

Lemma starts_with_app : forall p a r, (length p <= length a)%nat ->
  starts_with p (a ++ r) = starts_with p a.
Proof.
  induction p as [|x p IH]; intros [|y a] r H; cbn [starts_with app]; try reflexivity.
  - cbn in H. lia.
  - rewrite IH; [reflexivity|]. cbn in H. lia.
Qed.

Lemma trim_inner : forall p1 h, ws_pad p1 -> edged h -> trim (h ++ snd p1) = h.
Proof. intros p1 h [_ B] H. rewrite trim_ws_r by assumption. now apply edged_trim. Qed.

Lemma find_row : forall p1 h b z,
  ws_pad p1 -> ascii_pad p1 -> edged h -> Forall calm h -> Forall ascii h ->
  Forall ascii b -> Forall calm z ->
  find_brackets ((h ++ snd p1) ++ c_open :: b ++ c_close :: z) = Some (Some (h, trim b, trim z)).
Proof.
  intros p1 h b z W1 A1 Eh Ch Ah Ab Cz. rewrite C53_parts_partial.
  - now rewrite trim_inner.
  - apply calm_not_in. apply Forall_app. split; [assumption|]. apply calm_all_ws, W1.
  - now apply calm_not_in.
  - apply Forall_app. split.
    + apply Forall_app. split; [assumption|apply A1].
    + constructor; [reflexivity|assumption].
Qed.

Lemma head_nonempty : forall first h, head_ok first h -> h <> [].
Proof. intros first h [_ [_ [_ [[c [r [-> _]]] _]]]]. discriminate. Qed.

Lemma selector_row : forall first p1 h p2 b z sel,
  entry_ok first (ERule p1 h p2 b z) ->
  transform_css_selector_value (trim (entry_text (ERule p1 h p2 b z))) sel
  = Some (Some (sel ++ h, b)).
Proof.
  intros first p1 h p2 b z sel [W1 [A1 [Hh [W2 [A2 [Eb [Bb [Ab Hz]]]]]]]].
  pose proof (head_nonempty _ _ Hh) as Nh.
  destruct Hh as [Eh [Ch [_ [_ Ah]]]].
  cbn [entry_text]. rewrite row_block by assumption.
  unfold transform_css_selector_value.
  rewrite find_row; try assumption; [|now apply ascii_padded|constructor].
  now rewrite trim_padded.
Qed.

Lemma rule_row_start : forall first p1 h p2 b z,
  entry_ok first (ERule p1 h p2 b z) ->
  exists c r, trim (entry_text (ERule p1 h p2 b z)) = c :: r /\ first c.
Proof.
  intros first p1 h p2 b z [W1 [A1 [Hh [W2 [A2 [Eb [Bb [Ab Hz]]]]]]]].
  pose proof (head_nonempty _ _ Hh) as Nh.
  destruct Hh as [Eh [Ch [_ [[c [r [E Hc]]] Ah]]]].
  cbn [entry_text]. rewrite row_block by assumption. subst h.
  exists c, ((r ++ snd p1) ++ c_open :: padded p2 b ++ [c_close]). split; [|assumption].
  reflexivity.
Qed.

(** *** Media queries *)

Lemma media_rows_ok : forall sel es, Forall media_entry_ok es ->
  media_rows sel (map (fun e => trim (entry_text e)) es)
  = Some (plain_rows es, nested_sets sel es).
Proof.
  intros sel es H. induction H as [|e es [He [_ Hv]] Hes IH]; [reflexivity|].
  cbn [map media_rows]. destruct e as [p1 k p2 v|p1 h p2 b z].
  - destruct He as [W1 [[Ek [Nk [Ck [Kk _]]]] [W2 [Ev Cv]]]].
    rewrite row_decl by assumption.
    assert (S : starts_colon (decl_row k p1 p2 v) = false).
    { unfold decl_row. destruct k as [|c k]; [congruence|]. cbn [app starts_colon].
      apply N.eqb_neq. intros ->. apply Kk. now left. }
    rewrite S, IH. cbn [plain_rows nested_sets flat_map app]. fold (plain_rows es).
    do 3 f_equal. unfold decl_row, padded. cbn [app]. do 3 f_equal.
    destruct v as [|c v]; [congruence|]. destruct W2 as [W2 W2'].
    rewrite app_assoc, trim_end_ws by assumption.
    rewrite trim_end_app by (now apply (proj1 Ev c v)).
    f_equal. f_equal. pose proof (edged_trim_end _ Ev) as T.
    change (c :: v) with ([] ++ c :: v) in T. rewrite trim_end_app in T
      by (now apply (proj1 Ev c v)). cbn [app] in T. rewrite T. reflexivity.
  - destruct (rule_row_start _ _ _ _ _ _ He) as [c [r [E Hc]]].
    assert (S : starts_colon (trim (entry_text (ERule p1 h p2 b z))) = true).
    { rewrite E. cbn. apply N.eqb_eq. exact Hc. }
    rewrite S, (selector_row _ _ _ _ _ _ sel He), IH.
    cbn [plain_rows nested_sets flat_map app]. fold (nested_sets sel es).
    do 3 f_equal. now rewrite <- !app_assoc.
Qed.

Lemma media_add_join : forall sets c, c <> [] -> Forall (fun s => s <> []) sets ->
  media_add c sets = join [10] (c :: sets).
Proof.
  induction sets as [|s sets IH]; intros c Hc Hs; [reflexivity|].
  inversion Hs as [|? ? Hs1 Hs2]; subst.
  cbn [media_add]. destruct c as [|x c]; [congruence|]. cbn [is_nil].
  rewrite IH; [|now destruct c|assumption].
  cbn [join]. destruct sets; cbn [join]; now rewrite <- !app_assoc.
Qed.

Lemma nested_nonempty : forall sel es, Forall media_entry_ok es ->
  Forall (fun s => s <> []) (nested_sets sel es).
Proof.
  intros sel es H. unfold nested_sets. apply Forall_forall. intros s Hs.
  apply in_flat_map in Hs. destruct Hs as [[p1 k p2 v|p1 h p2 b z] [_ Hs]]; [destruct Hs|].
  destruct Hs as [<-|[]]. intros E. apply app_eq_nil in E. destruct E as [_ E].
  apply app_eq_nil in E. destruct E as [_ E]. discriminate.
Qed.

Lemma media_content_ok : forall sel es, Forall media_entry_ok es ->
  media_content sel (plain_rows es) (nested_sets sel es) = media_meaning sel es.
Proof.
  intros sel es H. unfold media_content, media_meaning.
  pose proof (nested_nonempty sel es H) as N.
  destruct (plain_rows es) as [|r rows]; cbn [is_nil].
  - cbn [app]. destruct (nested_sets sel es) as [|s sets]; [reflexivity|].
    inversion N; subst. cbn [media_add is_nil app]. now rewrite media_add_join.
  - rewrite media_add_join; [reflexivity| |assumption].
    intros E. apply app_eq_nil in E. destruct E as [_ E]. discriminate.
Qed.

Lemma filter_rows : forall l : list txt, Forall (fun r => trim r <> []) l ->
  filter (fun row => negb (is_nil (trim row))) l = l.
Proof.
  intros l H. induction H as [|r l Hr Hl IH]; [reflexivity|].
  cbn [filter]. destruct (trim r); [congruence|]. cbn [is_nil negb]. now rewrite IH.
Qed.

Lemma trim_nonempty : forall s s', quiet Left s = Some s' -> s' <> Left -> trim (trim s) <> [].
Proof.
  intros s s' H Hs E. rewrite trim_idem in E. apply trim_nil_ws in E.
  rewrite quiet_ws in H by assumption. congruence.
Qed.

Lemma map_filter_ok : forall A (text : A -> txt) l w,
  Forall (fun x => quiet Left (text x) = Some Right) l -> all_ws w ->
  css_split_rows (sheet text l w) = Some (map (fun x => trim (text x)) l).
Proof.
  intros A text l w H Hw. unfold css_split_rows, sheet.
  replace (flat_map (fun i => text i ++ str ";") l)
    with (flat_map (fun x => x ++ [c_semi]) (map text l)).
  2:{ rewrite flat_map_concat_map, map_map, <- flat_map_concat_map. reflexivity. }
  rewrite split_pieces; [|now apply Forall_map|assumption].
  rewrite map_map. f_equal. rewrite filter_app, app_nil_r. apply filter_rows.
  apply Forall_map. eapply Forall_impl; [|exact H].
  intros x Hx. cbn beta. apply (trim_nonempty _ Right); [exact Hx|discriminate].
Qed.

Lemma map_filter_last : forall A (text : A -> txt) l y,
  Forall (fun x => quiet Left (text x) = Some Right) l -> quiet Left (text y) = Some Right ->
  css_split_rows (sheet text l (text y)) = Some (map (fun x => trim (text x)) (l ++ [y])).
Proof.
  intros A text l y H Hy. unfold css_split_rows, sheet.
  replace (flat_map (fun i => text i ++ str ";") l)
    with (flat_map (fun x => x ++ [c_semi]) (map text l)).
  2:{ rewrite flat_map_concat_map, map_map, <- flat_map_concat_map. reflexivity. }
  rewrite split_pieces_last; [|now apply Forall_map|congruence].
  f_equal. rewrite map_map, map_app. cbn [map]. apply filter_rows.
  apply Forall_app. split.
  - apply Forall_map. eapply Forall_impl; [|exact H].
    intros x Hx. cbn beta. apply (trim_nonempty _ Right); [exact Hx|discriminate].
  - constructor; [|constructor]. apply (trim_nonempty _ Right); [exact Hy|discriminate].
Qed.

Lemma media_ok : forall sel p1 h es w z, item_ok (Media p1 h es w z) ->
  transform_css_media_query (trim (item_text (Media p1 h es w z))) sel
  = Some (match es with [] => [] | _ => [(h, media_meaning sel es)] end).
Proof.
  intros sel p1 h es w z [W1 [A1 [Eh [Ch [Ph [Ah [[q Hq] [Hes [Hw [Aw Hz]]]]]]]]]].
  cbn [item_text].
  assert (Nh : h <> []) by (rewrite Hq; discriminate).
  rewrite row_block by assumption.
  unfold transform_css_media_query.
  rewrite find_row; try assumption; [| |constructor].
  2:{ unfold sheet. apply Forall_app. split; [|assumption].
      clear Hw. induction Hes as [|e es [_ [He _]] Hes IH]; [constructor|].
      cbn [flat_map]. apply Forall_app. split; [|exact IH].
      apply Forall_app. split; [exact He|]. constructor; [reflexivity|constructor]. }
  rewrite split_rows_trim, map_filter_ok.
  - rewrite media_rows_ok, media_content_ok by assumption.
    destruct es as [|e es]; [reflexivity|].
    destruct e as [p1' k p2 v|p1' h' p2 b z'].
    + reflexivity.
    + cbn [plain_rows nested_sets flat_map app]. now rewrite andb_false_r.
  - eapply Forall_impl; [|exact Hes]. intros e [He _]. now apply (quiet_entry media_start).
  - assumption.
Qed.

(** *** All items *)

Lemma word_continues : forall s t r p k, ~ In c_colon p -> (forall x, In x p -> is_ws x = false) ->
  all_ws s -> k ++ s ++ c_colon :: t = p ++ r -> exists r', k = p ++ r'.
Proof.
  intros s t r. induction p as [|x p IH]; intros k Hp Hw Hs E; [now exists k|].
  destruct k as [|y k].
  - cbn [app] in E. destruct s as [|y s].
    + cbn [app] in E. injection E as E _. exfalso. apply Hp. now left.
    + cbn [app] in E. injection E as E _. inversion Hs as [|? ? Hy _]; subst.
      rewrite Hw in Hy; [discriminate|now left].
  - cbn [app] in E. injection E as -> E. destruct (IH k) as [r' ->].
    + intros G; apply Hp; now right.
    + intros z Hz. apply Hw. now right.
    + exact Hs.
    + exact E.
    + now exists r'.
Qed.

Lemma decl_row_plain : forall k p1 p2 v, key_ok k -> ws_pad p1 ->
  starts_selector (decl_row k p1 p2 v) = false
  /\ starts_with (str "@media") (decl_row k p1 p2 v) = false.
Proof.
  intros k p1 p2 v [Ek [Nk [Ck [Kk [Sk Mk]]]]] [_ W]. split.
  - unfold decl_row. destruct k as [|c k]; [congruence|]. cbn [app starts_selector].
    apply orb_false_iff. split; apply N.eqb_neq.
    + intros ->. apply Kk. now left.
    + intros ->. now apply (Sk k).
  - unfold decl_row. destruct (starts_with (str "@media") _) eqn:E; [|reflexivity].
    exfalso. apply starts_with_spec in E. destruct E as [r E].
    apply word_continues in E; [|intros G; cbn in G; intuition discriminate| |exact W].
    + destruct E as [r' E]. now apply (Mk r').
    + intros x G. cbn in G. repeat (destruct G as [<-|G]; [reflexivity|]). destruct G.
Qed.

Lemma colon_not_in_ws : forall w, all_ws w -> ~ In c_colon w.
Proof. intros w H. now apply ws_not_in. Qed.

Lemma calm_find_none : forall v, Forall calm v -> find_brackets v = Some None.
Proof. intros v H. apply find_brackets_none. now apply calm_not_in. Qed.

Theorem transform_rows_ok : forall sel l n, Forall item_ok l ->
  transform_rows sel (map (fun i => trim (item_text i)) l) n = Some (meaning sel l n).
Proof.
  intros sel l n H. revert n. induction H as [|i l Hi Hl IH]; intros n; [reflexivity|].
  cbn [map transform_rows].
  destruct i as [[p1 k p2 v|p1 h p2 b z]|p0 p1 b p2 f p3 a|p1 h es w z].
  - destruct Hi as [W1 [Kk [W2 [Ev Cv]]]].
    pose proof (decl_row_plain k p1 p2 v Kk W1) as [S1 S2].
    cbn [item_text]. rewrite row_decl; [|assumption|apply Kk|apply Kk].
    rewrite S1, S2. unfold decl_row. rewrite app_assoc.
    rewrite pair_row.
    2:{ rewrite in_app_iff. intros [G|G]; [now apply Kk in G|].
        revert G. apply colon_not_in_ws, W1. }
    rewrite trim_inner by (assumption || apply Kk).
    rewrite trim_trim_end, trim_padded by assumption.
    rewrite (edged_trim k) by apply Kk.
    replace (if txt_eqb k (str "animation") then transform_css_animation_value v n
             else Some (v, None, n)) with (Some (v, @None (txt * txt), n)).
    2:{ destruct (txt_eqb k (str "animation")); [|reflexivity].
        unfold transform_css_animation_value. now rewrite calm_find_none. }
    rewrite IH. cbn [meaning]. now destruct (meaning sel l n) as [[out docs] m].
  - cbn [item_text]. destruct (rule_row_start _ _ _ _ _ _ Hi) as [c [r [E Hc]]].
    assert (S : starts_selector (trim (entry_text (ERule p1 h p2 b z))) = true).
    { rewrite E. cbn. apply orb_true_iff. destruct Hc as [->| ->]; [now left|now right]. }
    rewrite S, (selector_row _ _ _ _ _ _ sel Hi), IH.
    cbn [meaning]. now destruct (meaning sel l n) as [[out docs] m].
  - destruct Hi as [W0 [W1 [W2 [W3 [A1 [A2 [Eb [Cb [Ab [Ef [Bf [Af [Ea Ca]]]]]]]]]]]]].
    assert (R : trim (item_text (Anim p0 p1 b p2 f p3 a))
            = (str "animation" ++ snd p0) ++ c_colon :: trim_end (padded p1 b ++ c_open :: padded p2 f
                ++ c_close :: padded p3 a)).
    { cbn [item_text].
      change (str ":" ++ padded p1 b ++ str "{" ++ padded p2 f ++ str "}" ++ padded p3 a)
        with (c_colon :: padded p1 b ++ c_open :: padded p2 f ++ c_close :: padded p3 a).
      rewrite trim_app by reflexivity. f_equal. unfold padded.
      rewrite trim_start_ws by apply W0. reflexivity. }
    rewrite R.
    replace (starts_selector _) with false by reflexivity.
    replace (starts_with _ _) with false by reflexivity.
    rewrite pair_row.
    2:{ rewrite in_app_iff. intros [G|G]; [cbn in G; intuition discriminate|].
        revert G. apply colon_not_in_ws, W0. }
    rewrite trim_inner; [|assumption|].
    2:{ split; intros c r E.
        - injection E as <- _. reflexivity.
        - assert (L : last (str "animation") 0 = c) by (rewrite E; apply last_last).
          rewrite <- L. reflexivity. }
    change (trim (str "animation")) with (str "animation").
    rewrite txt_eqb_refl, trim_trim_end.
    rewrite trim_app, trim_end_app by reflexivity.
    unfold transform_css_animation_value. rewrite C53_parts_partial.
    + rewrite trim_start_trim, trim_trim_end, !trim_padded by assumption.
      unfold get_next_id. rewrite IH. cbn [meaning].
      destruct (meaning sel l (n + 1)) as [[out docs] m].
      reflexivity.
    + apply calm_not_in. now apply Forall_trim_start, calm_padded.
    + apply calm_not_in. now apply Forall_trim_end, calm_padded.
    + apply Forall_app. split.
      * now apply Forall_trim_start, ascii_padded.
      * constructor; [reflexivity|now apply ascii_padded].
  - assert (S1 : exists r, trim (item_text (Media p1 h es w z)) = str "@media" ++ r).
    { destruct Hi as [W1 [A1 [Eh [Ch [Ph [Ah [[q Hq] [Hes [Hw [Aw Hz]]]]]]]]]].
      cbn [item_text]. rewrite row_block; try assumption; [|rewrite Hq; discriminate].
      rewrite Hq, <- !app_assoc. eexists. reflexivity. }
    assert (S2 : starts_selector (trim (item_text (Media p1 h es w z))) = false)
      by (destruct S1 as [r ->]; reflexivity).
    assert (S3 : starts_with (str "@media") (trim (item_text (Media p1 h es w z))) = true)
      by (apply starts_with_spec; exact S1).
    rewrite S2, S3, media_ok by assumption. rewrite IH.
    cbn [meaning]. destruct (meaning sel l n) as [[out docs] m]. now destruct es.
Qed.

(** ** C35: a style means what is written

    For every list of items, the class gets exactly the declarations written,
    in order, and every nested rule, animation and media query becomes a
    document of its own, in order. *)
Theorem C35_means : forall l w n, Forall item_ok l -> all_ws w ->
  transform_css (sheet item_text l w) n
  = match meaning (str "." ++ get_selector (n + 1)) l (n + 1) with
    | (out, docs, m) =>
        Some (n + 1, docs ++ [(str "." ++ get_selector (n + 1), join (str "; ") out)], m)
    end.
Proof.
  intros l w n H Hw. unfold transform_css, get_next_id.
  rewrite map_filter_ok; [|eapply Forall_impl; [|exact H]; intros i; apply quiet_item|assumption].
  rewrite transform_rows_ok by assumption.
  now destruct (meaning (str "." ++ get_selector (n + 1)) l (n + 1)) as [[out docs] m].
Qed.

(** The semicolon behind the last item may be left out. *)
Theorem C35_means_last : forall l i n, Forall item_ok (l ++ [i]) ->
  transform_css (sheet item_text l (item_text i)) n
  = match meaning (str "." ++ get_selector (n + 1)) (l ++ [i]) (n + 1) with
    | (out, docs, m) =>
        Some (n + 1, docs ++ [(str "." ++ get_selector (n + 1), join (str "; ") out)], m)
    end.
Proof.
  intros l i n H. unfold transform_css, get_next_id.
  pose proof (proj1 (Forall_app _ _ _) H) as [H1 H2]. inversion H2; subst.
  rewrite map_filter_last;
    [|eapply Forall_impl; [|exact H1]; intros j; apply quiet_item|now apply quiet_item].
  rewrite transform_rows_ok by assumption.
  now destruct (meaning (str "." ++ get_selector (n + 1)) (l ++ [i]) (n + 1)) as [[out docs] m].
Qed.

(** ** C36: panics *)

(** The full claim, [forall css n, transform_css css n <> None], is false: *)
Theorem C36_refuted : exists b n, transform_css (str "@media print { " ++ b ++ str " };") n = None /\ transform_css (str "@media (print:x) { " ++ b ++ str " };") n <> None.
Proof. exists (str "color: black;"), 0. split; [vm_compute; reflexivity|]. vm_compute. discriminate. Qed.

(** A rule for an attribute, a stray brace, and a letter outside ASCII in a
    selector panic as well. *)
Theorem C36_refuted_square : exists css n, transform_css css n = None /\ Forall ascii css
  /\ exists r, css = str "[disabled] { " ++ r ++ str " };".
Proof.
  exists (str "[disabled] { color: gray; };"), 0.
  split; [vm_compute; reflexivity|]. split; [|exists (str "color: gray;"); reflexivity].
  repeat constructor.
Qed.

Theorem C36_refuted_letter : exists c b n, 128 <= c
  /\ transform_css ([c_colon; c] ++ str "{" ++ b ++ str "}") n = None
  /\ transform_css (str ":h" ++ str "{" ++ b ++ str "}") n <> None.
Proof.
  exists 233, (str "x"), 0. split; [discriminate|]. split; [vm_compute; reflexivity|].
  vm_compute. discriminate.
Qed.

Definition no_brace (c : N) : Prop := c <> c_open /\ c <> c_close.

Lemma no_brace_split : forall x s cur, Forall no_brace x -> Forall no_brace cur ->
  exists rows, split_loop s cur x = Some rows /\ Forall (Forall no_brace) rows.
Proof.
  induction x as [|c x IH]; intros s cur Hx Hc; cbn [split_loop].
  - exists [trim cur]. split; [reflexivity|]. constructor; [now apply Forall_trim|constructor].
  - inversion Hx as [|? ? [H1 H2] Hx']; subst.
    assert (S : exists s', side_step s c = Some s').
    { unfold side_step. rewrite (proj2 (N.eqb_neq _ _) H1), (proj2 (N.eqb_neq _ _) H2).
      destruct ((c =? c_colon) || (c =? c_dot)); [destruct s|]; eauto. }
    destruct S as [s' ->]. destruct ((c =? c_semi) && is_right s').
    + destruct (IH Left []) as [rows [-> Hr]]; [assumption|constructor|].
      exists (trim cur :: rows). split; [reflexivity|]. constructor; [now apply Forall_trim|assumption].
    + apply IH; [assumption|]. apply Forall_app. split; [assumption|].
      constructor; [now split|constructor].
Qed.

Lemma Forall_split_on : forall (P : N -> Prop) x s, Forall P s -> Forall (Forall P) (split_on x s).
Proof.
  intros P x s H. induction H as [|c s Hc Hs IH]; [repeat constructor|].
  cbn [split_on]. destruct (c =? x); [constructor; [constructor|exact IH]|].
  destruct (split_on x s) as [|h t]; [repeat constructor; assumption|].
  inversion IH; subst. constructor; [constructor; assumption|assumption].
Qed.

Lemma Forall_join : forall (P : N -> Prop) sep l, Forall P sep -> Forall (Forall P) l ->
  Forall P (join sep l).
Proof.
  intros P sep l Hs H. induction H as [|x l Hx Hl IH]; [constructor|].
  destruct l as [|y l]; [exact Hx|].
  change (join sep (x :: y :: l)) with (x ++ sep ++ join sep (y :: l)).
  repeat (apply Forall_app; split); assumption.
Qed.

Lemma pair_forall : forall (P : N -> Prop) row k v, P c_colon ->
  css_row_split_to_pair row = Some (k, v) -> Forall P row -> Forall P k /\ Forall P v.
Proof.
  intros P row k v Pc E H. unfold css_row_split_to_pair in E.
  pose proof (Forall_split_on P c_colon row H) as G.
  destruct (split_on c_colon row) as [|h [|x r]]; try discriminate.
  injection E as <- <-. inversion G as [|? ? G1 G2]; subst.
  split; apply Forall_trim; [assumption|].
  change (Forall P (join [c_colon] (x :: r))).
  apply Forall_join; [constructor; [assumption|constructor]|assumption].
Qed.

Lemma no_brace_find : forall s, Forall no_brace s -> find_brackets s = Some None.
Proof.
  intros s H. apply find_brackets_none. intros G. rewrite Forall_forall in H.
  apply H in G. destruct G as [G _]. now apply G.
Qed.

Lemma no_brace_rows : forall rows sel n, Forall (Forall no_brace) rows ->
  transform_rows sel rows n <> None.
Proof.
  intros rows sel n H. revert n. induction H as [|row rows Hr Hrs IH]; intros n; [discriminate|].
  cbn [transform_rows].
  assert (T : forall n, exists out docs m, transform_rows sel rows n = Some (out, docs, m)).
  { intros k. destruct (transform_rows sel rows k) as [[[out docs] m]|] eqn:E; [eauto|].
    now apply IH in E. }
  destruct (T n) as [out [docs [m E]]].
  unfold transform_css_selector_value, transform_css_media_query.
  rewrite no_brace_find by assumption.
  destruct (starts_selector row); [rewrite E; discriminate|].
  destruct (starts_with (str "@media") row); [rewrite E; discriminate|].
  destruct (css_row_split_to_pair row) as [[k v]|] eqn:Ep; [|rewrite E; discriminate].
  apply (pair_forall no_brace) in Ep; [|split; discriminate|assumption].
  unfold transform_css_animation_value. rewrite no_brace_find by apply Ep.
  destruct (txt_eqb (trim k) (str "animation")); rewrite E; discriminate.
Qed.

(** A text without braces never panics, whatever its letters. *)
Theorem C36_plain_partial : forall css n,
  ~ In c_open css -> ~ In c_close css -> transform_css css n <> None.
Proof.
  intros css n H1 H2.
  assert (H : Forall no_brace css).
  { apply Forall_forall. intros c Hc. split; intros ->; contradiction. }
  unfold transform_css, css_split_rows.
  destruct (no_brace_split css Left [] H) as [rows [-> Hr]]; [constructor|].
  destruct (transform_rows _ _ _) as [[[out docs] m]|] eqn:E; [discriminate|].
  exfalso. revert E. apply no_brace_rows.
  apply Forall_forall. intros r Hin. apply filter_In in Hin.
  rewrite Forall_forall in Hr. now apply Hr.
Qed.

(** Nor does a style written item by item (C35_means). *)
Theorem C36_items_partial : forall l w n, Forall item_ok l -> all_ws w ->
  transform_css (sheet item_text l w) n <> None.
Proof.
  intros l w n H Hw. rewrite C35_means by assumption.
  destruct (meaning (str "." ++ get_selector (n + 1)) l (n + 1)) as [[out docs] m]. discriminate.
Qed.

(** *** In ASCII, only misplaced braces panic *)

(** No closing brace comes before all opening ones. *)
Definition opens_first (x : txt) : Prop :=
  forall p q, x = p ++ c_close :: q -> In c_open p.

Lemma first_split : forall (x : N) s, In x s -> exists a b, s = a ++ x :: b /\ ~ In x a.
Proof.
  induction s as [|c s IH]; intros H; [destruct H|].
  destruct (N.eq_dec c x) as [E|E].
  - exists [], s. split; [now subst|intros []].
  - destruct H as [H|H]; [congruence|]. destruct (IH H) as [a [b [-> Ha]]].
    exists (c :: a), b. split; [reflexivity|]. intros [G|G]; [congruence|contradiction].
Qed.

Lemma last_split : forall (x : N) s, In x s -> exists a b, s = a ++ x :: b /\ ~ In x b.
Proof.
  intros x s H. apply in_rev in H. destruct (first_split x (rev s) H) as [a [b [E Ha]]].
  exists (rev b), (rev a). split.
  - rewrite <- (rev_involutive s), E, rev_app_distr. cbn [rev]. now rewrite <- app_assoc.
  - now rewrite <- in_rev.
Qed.

Lemma find_ascii : forall s, Forall ascii s -> opens_first s -> find_brackets s <> None.
Proof.
  intros s Ha Ho. destruct (in_dec N.eq_dec c_close s) as [Hc|Hc].
  2:{ rewrite find_brackets_none_close by assumption. discriminate. }
  destruct (last_split _ _ Hc) as [p [z [E Hz]]].
  pose proof (Ho _ _ E) as Hp. destruct (first_split _ _ Hp) as [h [b [-> Hh]]].
  subst s. rewrite <- app_assoc. cbn [app]. rewrite C53_parts_partial; [discriminate| | |].
  - assumption.
  - assumption.
  - apply Forall_app in Ha. apply Ha.
Qed.

Lemma opens_trim : forall x, opens_first x -> opens_first (trim x).
Proof.
  intros x H p q E.
  destruct (trim_start_split x) as [w [Hw E1]].
  destruct (trim_end_split (trim_start x)) as [v [Hv E2]].
  fold (trim x) in E2. rewrite E in E2. rewrite E2 in E1.
  specialize (H (w ++ p) (q ++ v)). rewrite in_app_iff in H.
  destruct H as [G|G]; [rewrite E1; now rewrite <- !app_assoc| |exact G].
  exfalso. revert G. now apply ws_not_in.
Qed.

Lemma opens_snoc : forall x c, opens_first x -> (c = c_close -> In c_open x) ->
  opens_first (x ++ [c]).
Proof.
  intros x c H Hc p q E. destruct q as [|d q] using rev_ind.
  - apply app_inj_tail in E. destruct E as [-> ->]. now apply Hc.
  - clear IHq. rewrite app_comm_cons, app_assoc in E. apply app_inj_tail in E.
    destruct E as [-> _]. now apply (H p q).
Qed.

Lemma split_opens : forall x s cur rows,
  opens_first cur -> (forall n, s = Brackets n -> In c_open cur) ->
  split_loop s cur x = Some rows -> Forall opens_first rows.
Proof.
  induction x as [|c x IH]; intros s cur rows Ho Hb E; cbn [split_loop] in E.
  - injection E as <-. constructor; [now apply opens_trim|constructor].
  - destruct (side_step s c) as [s'|] eqn:Es; [|discriminate].
    destruct ((c =? c_semi) && is_right s').
    + destruct (split_loop Left [] x) as [r|] eqn:Er; [|discriminate]. injection E as <-.
      constructor; [now apply opens_trim|]. apply (IH Left [] r); [|discriminate|exact Er].
      intros p q G. destruct p; discriminate.
    + apply (IH s' (cur ++ [c]) rows); [| |exact E].
      * apply opens_snoc; [assumption|]. intros ->. unfold side_step in Es.
        change (c_close =? c_open) with false in Es. rewrite N.eqb_refl in Es.
        destruct s as [| |k]; try discriminate. now apply (Hb k).
      * intros k ->. rewrite in_app_iff. unfold side_step in Es.
        destruct (N.eqb_spec c c_open) as [->|N1]; [right; now left|left].
        destruct (c =? c_close).
        -- destruct s as [| |j]; try discriminate. now apply (Hb j).
        -- destruct ((c =? c_colon) || (c =? c_dot)).
           ++ destruct s as [| |j]; try discriminate. now apply (Hb j).
           ++ injection Es as ->. now apply (Hb k).
Qed.

Lemma split_forall : forall (P : N -> Prop) x s cur rows, Forall P x -> Forall P cur ->
  split_loop s cur x = Some rows -> Forall (Forall P) rows.
Proof.
  intros P. induction x as [|c x IH]; intros s cur rows Hx Hc E; cbn [split_loop] in E.
  - injection E as <-. constructor; [now apply Forall_trim|constructor].
  - inversion Hx; subst. destruct (side_step s c) as [s'|]; [|discriminate].
    destruct ((c =? c_semi) && is_right s').
    + destruct (split_loop Left [] x) as [r|] eqn:Er; [|discriminate]. injection E as <-.
      constructor; [now apply Forall_trim|]. now apply (IH Left [] r).
    + apply (IH s' (cur ++ [c]) rows); [assumption| |exact E].
      apply Forall_app. split; [assumption|]. now repeat constructor.
Qed.

Lemma rows_good : forall css rows, Forall ascii css -> css_split_rows css = Some rows ->
  Forall (fun r => Forall ascii r /\ opens_first r) rows.
Proof.
  intros css rows Ha E. unfold css_split_rows in E.
  destruct (split_loop Left [] css) as [l|] eqn:El; [|discriminate]. injection E as <-.
  pose proof (split_forall ascii _ _ _ _ Ha (Forall_nil _) El) as G1.
  assert (G2 : Forall opens_first l).
  { apply (split_opens css Left [] l); [|discriminate|exact El].
    intros p q G. destruct p; discriminate. }
  apply Forall_forall. intros r Hr. apply filter_In in Hr. destruct Hr as [Hr _].
  rewrite Forall_forall in G1, G2. split; [now apply G1|now apply G2].
Qed.

Lemma find_parts_ascii : forall s a b c, Forall ascii s -> opens_first s ->
  find_brackets s = Some (Some (a, b, c)) -> Forall ascii b.
Proof.
  intros s a b c Ha Ho E. destruct (in_dec N.eq_dec c_close s) as [Hc|Hc].
  2:{ rewrite find_brackets_none_close in E by assumption. discriminate. }
  destruct (last_split _ _ Hc) as [p [z [Es Hz]]].
  pose proof (Ho _ _ Es) as Hp. destruct (first_split _ _ Hp) as [h [d [-> Hh]]].
  subst s. rewrite <- app_assoc in E. cbn [app] in E.
  assert (Hd : Forall ascii (h ++ c_open :: d)) by (apply Forall_app in Ha; apply Ha).
  rewrite C53_parts_partial in E by assumption. injection E as _ <- _.
  apply Forall_trim. apply Forall_app in Hd. destruct Hd as [_ Hd]. now inversion Hd.
Qed.

Lemma media_rows_ascii : forall sel rows,
  Forall (fun r => Forall ascii r /\ opens_first r) rows -> media_rows sel rows <> None.
Proof.
  intros sel rows H. induction H as [|r rows [H1 H2] Hr IH]; [discriminate|].
  cbn [media_rows]. destruct (media_rows sel rows) as [[reg pse]|]; [|congruence].
  pose proof (find_ascii r H1 H2) as F. unfold transform_css_selector_value.
  destruct (starts_colon r); [|discriminate].
  destruct (find_brackets r) as [[[[x y] z]|]|]; [discriminate|discriminate|congruence].
Qed.

Lemma opens_value : forall row k v, opens_first row -> ~ In c_open k ->
  css_row_split_to_pair row = Some (k, v) ->
  (forall x, In x (fst (match split_on c_colon row with h :: _ => (h, tt) | [] => ([], tt) end)) ->
   x = c_open -> False) ->
  opens_first v.
Proof.
  intros row k v Ho Hk E Hh. unfold css_row_split_to_pair in E.
  pose proof (join_split c_colon row) as J.
  destruct (split_on c_colon row) as [|h [|x r]]; try discriminate.
  injection E as _ <-. apply opens_trim. cbn [fst] in Hh.
  change (opens_first (join [c_colon] (x :: r))).
  change (join [c_colon] (h :: x :: r)) with (h ++ c_colon :: join [c_colon] (x :: r)) in J.
  intros p q G. rewrite G in J.
  assert (In c_open (h ++ c_colon :: p)).
  { apply (Ho _ q). now rewrite <- J, <- app_assoc. }
  rewrite in_app_iff in H. destruct H as [H|[H|H]]; [|discriminate|exact H].
  exfalso. now apply (Hh c_open).
Qed.

(** If an ASCII text panics, the split of the text into rows panics, or the
    split of the block of one of its media queries does. *)
Theorem C36_ascii_partial : forall css n, Forall ascii css -> transform_css css n = None ->
  css_split_rows css = None
  \/ exists rows row query block rest,
       css_split_rows css = Some rows /\ In row rows
       /\ (exists r, row = str "@media" ++ r)
       /\ find_brackets row = Some (Some (query, block, rest))
       /\ css_split_rows block = None.
Proof.
  intros css n Ha E. unfold transform_css in E.
  destruct (css_split_rows css) as [rows|] eqn:Er; [right|now left].
  pose proof (rows_good _ _ Ha Er) as G.
  destruct (transform_rows _ rows _) as [[[out docs] m]|] eqn:Et; [discriminate|]. clear E.
  cut (exists row query block rest, In row rows
       /\ (exists r, row = str "@media" ++ r)
       /\ find_brackets row = Some (Some (query, block, rest))
       /\ css_split_rows block = None).
  { intros [row [query [block [rest [H1 [H2 [H3 H4]]]]]]].
    now exists rows, row, query, block, rest. }
  clear Er. revert Et. generalize (get_next_id n) at 2. generalize (str "." ++ get_selector (get_next_id n)).
  intros sel k. revert k. induction G as [|row rows [Ga Go] G IH]; intros k Et; [discriminate|].
  assert (IH' : forall k, transform_rows sel rows k = None -> exists row0 query block rest,
       In row0 (row :: rows) /\ (exists r, row0 = str "@media" ++ r)
       /\ find_brackets row0 = Some (Some (query, block, rest))
       /\ css_split_rows block = None).
  { intros j Hj. destruct (IH j Hj) as [r0 [q [b [rest [H1 H2]]]]].
    exists r0, q, b, rest. split; [now right|exact H2]. }
  cbn [transform_rows] in Et.
  pose proof (find_ascii row Ga Go) as F.
  destruct (starts_selector row).
  { unfold transform_css_selector_value in Et.
    destruct (find_brackets row) as [[[[x y] z]|]|]; [| |congruence];
      destruct (transform_rows sel rows k) as [[[out docs] m]|] eqn:Ek; try discriminate;
      now apply (IH' k). }
  destruct (starts_with (str "@media") row) eqn:Em.
  { apply starts_with_spec in Em. unfold transform_css_media_query in Et.
    destruct (find_brackets row) as [[[[q b] z]|]|] eqn:Ef; [| |congruence].
    - pose proof (find_parts_ascii row q b z Ga Go Ef) as Hb.
      destruct (css_split_rows b) as [ir|] eqn:Eb.
      2:{ exists row, q, b, z. split; [now left|]. repeat split; assumption. }
      pose proof (media_rows_ascii sel ir (rows_good _ _ Hb Eb)) as M.
      destruct (media_rows sel ir) as [[reg pse]|]; [|congruence].
      apply (IH' k).
      destruct (is_nil reg && is_nil pse);
        destruct (transform_rows sel rows k) as [[[out docs] m]|]; try discriminate; reflexivity.
    - apply (IH' k).
      destruct (transform_rows sel rows k) as [[[out docs] m]|]; [discriminate|reflexivity]. }
  destruct (css_row_split_to_pair row) as [[name v]|] eqn:Ep.
  2:{ apply (IH' k).
      destruct (transform_rows sel rows k) as [[[out docs] m]|]; [discriminate|reflexivity]. }
  destruct (txt_eqb (trim name) (str "animation")) eqn:Ea.
  2:{ apply (IH' k).
      destruct (transform_rows sel rows k) as [[[out docs] m]|]; [discriminate|reflexivity]. }
  apply txt_eqb_eq in Ea.
  assert (Hv : Forall ascii v)
    by (apply (pair_forall ascii) in Ep; [apply Ep|reflexivity|assumption]).
  assert (Hh : forall x, In x (fst (match split_on c_colon row with h :: _ => (h, tt) | [] => ([], tt) end)) ->
     x = c_open -> False).
  { intros x Hx ->. unfold css_row_split_to_pair in Ep.
    destruct (split_on c_colon row) as [|h [|y r]]; try discriminate.
    injection Ep as En _. cbn [fst] in Hx. subst name. rewrite trim_idem in Ea.
    destruct (trim_start_split h) as [w [Hw E1]].
    destruct (trim_end_split (trim_start h)) as [u [Hu E2]]. fold (trim h) in E2.
    rewrite E2, Ea in E1. rewrite E1, !in_app_iff in Hx.
    destruct Hx as [Hx|[Hx|Hx]].
    - revert Hx. now apply ws_not_in.
    - cbn in Hx. intuition discriminate.
    - revert Hx. now apply ws_not_in. }
  assert (Ov : opens_first v).
  { apply (opens_value row name v); try assumption. intros Hin.
    unfold css_row_split_to_pair in Ep.
    destruct (split_on c_colon row) as [|h [|y r]]; try discriminate.
    injection Ep as En _. cbn [fst] in Hh. apply (Hh c_open); [|reflexivity].
    subst name. destruct (trim_start_split h) as [w [Hw E1]].
    destruct (trim_end_split (trim_start h)) as [u [Hu E2]]. fold (trim h) in E2.
    rewrite E1, E2. rewrite !in_app_iff. right. now left. }
  pose proof (find_ascii v Hv Ov) as Fv. unfold transform_css_animation_value in Et.
  destruct (find_brackets v) as [[[[x y] z]|]|]; [| |congruence].
  - apply (IH' (get_next_id k)).
    destruct (transform_rows sel rows (get_next_id k)) as [[[out docs] m]|]; [discriminate|reflexivity].
  - apply (IH' k).
    destruct (transform_rows sel rows k) as [[[out docs] m]|]; [discriminate|reflexivity].
Qed.

(** ** C53: refuted outside ASCII

    The body of a nested rule that contains one letter outside ASCII loses its
    last byte. *)
Theorem C53_refuted : exists b n,
  nest 0 b /\ edged b
  /\ transform_css (str ":hover {" ++ b ++ str "};") n
     <> Some (n + 1, [(str "." ++ get_selector (n + 1) ++ str ":hover", b);
                      (str "." ++ get_selector (n + 1), [])], n + 1)
  /\ exists b', transform_css (str ":hover {" ++ b ++ str "};") n
     = Some (n + 1, [(str "." ++ get_selector (n + 1) ++ str ":hover", b');
                     (str "." ++ get_selector (n + 1), [])], n + 1)
     /\ (length b' < length b)%nat.
Proof.
  exists (str "content: 'caf" ++ [233] ++ str "'"), 0.
  split; [|split; [|split]].
  - apply nest_calm. repeat constructor; discriminate.
  - split; intros c r E.
    + injection E as <- _. reflexivity.
    + assert (L : last (str "content: 'caf" ++ [233] ++ str "'") 0 = c)
        by (rewrite E; apply last_last). rewrite <- L. reflexivity.
  - vm_compute. discriminate.
  - exists (str "content: 'caf" ++ [233]). split; [vm_compute; reflexivity|]. vm_compute. lia.
Qed.

(** A superfluous semicolon in front of a nested rule destroys it: the text of
    the rule ends up among the declarations. *)
Theorem C53_refuted_semicolon : exists n,
  transform_css (str "color: red;; :hover { color: blue; };") n
  = Some (n + 1, [(str "." ++ get_selector (n + 1),
                   str "color: red; ;: hover { color: blue; }")], n + 1).
Proof. exists 0. vm_compute. reflexivity. Qed.

(** ** A case *)

Module SheetDemo.
Definition sp : pad := (str " ", str " ").
Definition no : pad := ([], []).
Definition demo : list item :=
  [ Entry (EDecl no (str "color") sp (str "red"));
    Entry (ERule sp (str ":hover") sp
      (str "color: blue; @x " ++ c_open :: (str " y " ++ c_open :: str " z " ++ c_close :: str " ")
       ++ c_close :: []) []);
    Anim sp sp (str "1s linear") sp
      (str "from " ++ c_open :: str " top: 0 " ++ c_close :: str " to "
       ++ c_open :: str " top: 1px " ++ c_close :: []) no [];
    Media sp (str "@media screen and (min-width: 400px)")
      [EDecl sp (str "width") sp (str "60px"); ERule sp (str ":focus") sp (str "top: 2px") (str " ")]
      (str " ") [];
    Entry (EDecl sp (str "width") sp (str "40px")) ].
End SheetDemo.

Lemma edged_dec : forall x,
  negb (is_ws (hd 65 x)) && negb (is_ws (last x 65)) = true -> edged x.
Proof.
  intros x H. apply andb_true_iff in H. destruct H as [H1 H2].
  apply negb_true_iff in H1, H2. split; intros c r E; subst x; [exact H1|].
  now rewrite last_last in H2.
Qed.

Lemma calm_dec : forall x,
  forallb (fun c => negb (c =? c_semi) && negb (c =? c_open) && negb (c =? c_close)) x = true ->
  Forall calm x.
Proof.
  intros x H. apply Forall_forall. intros c Hc. rewrite forallb_forall in H. apply H in Hc.
  apply andb_true_iff in Hc. destruct Hc as [Hc H3]. apply andb_true_iff in Hc.
  destruct Hc as [H1 H2]. apply negb_true_iff in H1, H2, H3.
  repeat split; now apply N.eqb_neq.
Qed.

Lemma ascii_dec : forall x, forallb (fun c => c <? 128) x = true -> Forall ascii x.
Proof.
  intros x H. apply Forall_forall. intros c Hc. rewrite forallb_forall in H. apply H in Hc.
  now apply N.ltb_lt.
Qed.

Lemma key_dec : forall c k, edged (c :: k) -> Forall calm (c :: k) ->
  existsb (fun x => x =? c_colon) (c :: k) = false ->
  (c =? c_square) || (c =? 64) = false -> key_ok (c :: k).
Proof.
  intros c k H1 H2 H3 H4. apply orb_false_iff in H4. destruct H4 as [H4 H5].
  apply N.eqb_neq in H4, H5.
  split; [exact H1|]. split; [discriminate|]. split; [exact H2|].
  split.
  - intros G. assert (E : existsb (fun x => x =? c_colon) (c :: k) = true).
    { apply existsb_exists. exists c_colon. split; [exact G|reflexivity]. }
    congruence.
  - split; intros r E; injection E as E _; contradiction.
Qed.

Lemma head_dec : forall (first : N -> Prop) c h, edged (c :: h) -> Forall calm (c :: h) ->
  pointed (c :: h) -> first c -> Forall ascii (c :: h) -> head_ok first (c :: h).
Proof. intros first c h H1 H2 H3 H4 H5. repeat split; try assumption; try apply H1. now exists c, h. Qed.

Example C35_case :
  Forall item_ok SheetDemo.demo
  /\ transform_css (sheet item_text SheetDemo.demo (str " ")) 4
     = Some (5,
         [ (str ".autocss_5:hover", str "color: blue; @x { y { z } }");
           (str "@keyframes autocss_6", str "from { top: 0 } to { top: 1px }");
           (str "@media screen and (min-width: 400px)",
            str ".autocss_5 { width : 60px }" ++ [10] ++ str ".autocss_5:focus { top: 2px }");
           (str ".autocss_5",
            str "color: red; animation: 1s linear autocss_6 ; width: 40px") ], 6).
Proof.
  split; [|vm_compute; reflexivity].
  assert (Wsp : ws_pad SheetDemo.sp) by (split; repeat constructor).
  assert (Asp : ascii_pad SheetDemo.sp) by (split; repeat constructor).
  assert (Wno : ws_pad SheetDemo.no) by (split; constructor).
  assert (Ano : ascii_pad SheetDemo.no) by (split; constructor).
  assert (Ky : forall c k, negb (is_ws (hd 65 (c :: k))) && negb (is_ws (last (c :: k) 65)) = true ->
    forallb (fun c => negb (c =? c_semi) && negb (c =? c_open) && negb (c =? c_close)) (c :: k) = true ->
    existsb (fun x => x =? c_colon) (c :: k) = false ->
    (c =? c_square) || (c =? 64) = false -> key_ok (c :: k)).
  { intros c k H1 H2 H3 H4. apply key_dec; auto using edged_dec, calm_dec. }
  unfold SheetDemo.demo.
  apply Forall_cons; [|apply Forall_cons; [|apply Forall_cons; [|apply Forall_cons;
    [|apply Forall_cons; [|constructor]]]]].
  - split; [exact Wno|]. split; [now apply Ky|]. split; [exact Wsp|].
    split; [now apply edged_dec|now apply calm_dec].
  - split; [exact Wsp|]. split; [exact Asp|]. split.
    { apply head_dec; [now apply edged_dec|now apply calm_dec|left; now left|now left|
        now apply ascii_dec]. }
    split; [exact Wsp|]. split; [exact Asp|]. split; [now apply edged_dec|].
    split; [|split; [now apply ascii_dec|constructor]].
    exists 2%nat. split; [|lia].
    apply nest_app; [now apply nest_calm, Forall_forall; cbn; intuition (subst; discriminate)|].
    apply nest_block; [|constructor].
    apply nest_app; [apply nest_calm; repeat constructor; discriminate|].
    apply nest_block; apply nest_calm; repeat constructor; discriminate.
  - split; [exact Wsp|]. split; [exact Wsp|]. split; [exact Wsp|]. split; [exact Wno|].
    split; [exact Asp|]. split; [exact Asp|].
    split; [now apply edged_dec|]. split; [now apply calm_dec|]. split; [now apply ascii_dec|].
    split; [now apply edged_dec|]. split.
    + exists 1%nat. split; [|lia].
      apply nest_app; [apply nest_calm; repeat constructor; discriminate|].
      apply nest_block; [apply nest_calm; repeat constructor; discriminate|].
      apply nest_app; [apply nest_calm; repeat constructor; discriminate|].
      apply nest_block; apply nest_calm; repeat constructor; discriminate.
    + split; [now apply ascii_dec|]. split; [now apply edged_dec|constructor].
  - split; [exact Wsp|]. split; [exact Asp|]. split; [now apply edged_dec|].
    split; [now apply calm_dec|]. split; [left; cbn; tauto|]. split; [now apply ascii_dec|].
    split; [now exists (str " screen and (min-width: 400px)")|].
    split; [|repeat constructor].
    apply Forall_cons; [|apply Forall_cons; [|constructor]].
    + split; [|split; [now apply ascii_dec|discriminate]].
      split; [exact Wsp|]. split; [now apply Ky|]. split; [exact Wsp|].
      split; [now apply edged_dec|now apply calm_dec].
    + split; [|split; [now apply ascii_dec|exact Logic.I]].
      split; [exact Wsp|]. split; [exact Asp|]. split.
      { apply head_dec; [now apply edged_dec|now apply calm_dec|left; now left|reflexivity|
          now apply ascii_dec]. }
      split; [exact Wsp|]. split; [exact Asp|]. split; [now apply edged_dec|].
      split; [|split; [now apply ascii_dec|repeat constructor]].
      exists 0%nat. split; [|lia]. apply nest_calm; repeat constructor; discriminate.
  - split; [exact Wsp|]. split; [now apply Ky|]. split; [exact Wsp|].
    split; [now apply edged_dec|now apply calm_dec].
Qed.

(** The parts of a block with a head, as in a rule for a hovered element. *)
Example C53_case :
  find_brackets (str " :hover " ++ c_open :: str " color: red; " ++ c_close :: str " ")
  = Some (Some (str ":hover", str "color: red;", [])).
Proof.
  rewrite C53_parts_partial; [reflexivity| | |now apply ascii_dec];
    intros G; cbn in G; intuition discriminate.
Qed.

(** A text without braces with letters outside ASCII, and an ASCII text that
    panics because of the block of its media query. *)
Example C36_case :
  transform_css (str "content: 'caf" ++ [233] ++ str "'; :: ; ...") 0 <> None
  /\ transform_css (str "@media (a: b) { } } {") 0 = None
  /\ transform_css (str "@media (a: b) { c { d } }") 0 = None
  /\ css_split_rows (str "@media (a: b) { c { d } }") <> None.
Proof.
  split; [|repeat split; vm_compute; congruence].
  apply C36_plain_partial; intros G; cbn in G; intuition discriminate.
Qed.
