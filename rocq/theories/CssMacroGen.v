(** The [css!] macro: from the pairs of the parser to the text. *)
From Coq Require Import String List NArith PeanoNat Bool Lia.
From Verif Require Import CodecModel DomWire CssMacroModel CssMacroProps.
Import ListNotations.
Local Open Scope string_scope.
Local Open Scope list_scope.
Local Open Scope N_scope.

(** ** Keys *)

Inductive numbered : list (bytes * bytes) -> Prop :=
| num_nil : numbered []
| num_cons e k ps : numbered ps -> key (N.of_nat (length ps)) = Some k -> lookup e ps = None -> numbered ((e, k) :: ps).
Definition ext (ps P : list (bytes * bytes)) : Prop := (exists m, P = m ++ ps) /\ numbered P.

Lemma lookup_none e ps : lookup e ps = None <-> ~ In e (map fst ps).
Proof.
  induction ps as [|[a k] ps IH]; cbn; [tauto|]. destruct (list_eq_dec N.eq_dec e a) as [->|H]; [split; [discriminate|tauto]|].
  rewrite IH. split; [intros A [B|B]; congruence|tauto].
Qed.
Lemma numbered_nodup ps : numbered ps -> NoDup (map fst ps).
Proof. induction 1 as [|e k ps _ IH _ Hl]; [constructor|]. cbn. constructor; [apply lookup_none, Hl|exact IH]. Qed.
Lemma numbered_tail m ps : numbered (m ++ ps) -> numbered ps.
Proof. induction m as [|p m IH]; [auto|]. intros H. inversion H; subst. apply IH. assumption. Qed.
Lemma ext_lookup ps P e k : ext ps P -> lookup e ps = Some k -> lookup e P = Some k.
Proof.
  intros [[m ->] Hn] Hl. induction m as [|[a v] m IH]; [exact Hl|]. inversion Hn as [|? ? ? Hn' _ Hla]; subst. cbn.
  specialize (IH Hn'). destruct (list_eq_dec N.eq_dec e a) as [->|]; [congruence|exact IH].
Qed.
Lemma ext_refl ps : numbered ps -> ext ps ps.
Proof. split; [exists []; reflexivity|assumption]. Qed.
Lemma ext_trans a b c : ext a b -> ext b c -> ext a c.
Proof. intros [[m ->] _] [[m' ->] H]. split; [exists (m' ++ m); apply app_assoc|exact H]. Qed.
Lemma key_some i k : key i = Some k -> i < 676 /\ k = [97 + i / 26; 97 + i mod 26].
Proof. unfold key. destruct (N.ltb_spec i 676); [|discriminate]. intros [= <-]. auto. Qed.
Lemma key_inj i j k : key i = Some k -> key j = Some k -> i = j.
Proof.
  intros Hi Hj. apply key_some in Hi, Hj. destruct Hi as [_ ->]. destruct Hj as [_ E].
  pose proof (f_equal (hd 0) E) as E1. pose proof (f_equal (fun l => hd 0 (tl l)) E) as E2. cbn [hd tl] in E1, E2. clear E.
  rewrite (N.div_mod i 26), (N.div_mod j 26) by discriminate.
  assert (A : i / 26 = j / 26) by lia. assert (B : i mod 26 = j mod 26) by lia. rewrite A, B. reflexivity.
Qed.
Lemma key_chars i k : key i = Some k -> Forall (fun c => 97 <= c /\ c <= 122) k.
Proof.
  intros H. apply key_some in H. destruct H as [Hi ->]. pose proof (N.mod_lt i 26 ltac:(discriminate)).
  pose proof (N.div_lt_upper_bound i 26 26 ltac:(discriminate) Hi). constructor; [lia|]. constructor; [lia|constructor].
Qed.
Lemma lookup_key ps e k : numbered ps -> lookup e ps = Some k -> exists i, (i < length ps)%nat /\ key (N.of_nat i) = Some k.
Proof.
  induction 1 as [|a v ps _ IH Hk _]; cbn; [discriminate|]. destruct (list_eq_dec N.eq_dec e a).
  - intros [= <-]. exists (length ps). split; [lia|exact Hk].
  - intros H. destruct (IH H) as (i & Hi & Q). exists i. split; [lia|exact Q].
Qed.
Lemma by_key_ok ps e k : numbered ps -> lookup e ps = Some k -> by_key k ps = Some e.
Proof.
  induction 1 as [|a v ps Hn IH Hk Hl]; cbn; [discriminate|]. destruct (list_eq_dec N.eq_dec e a) as [->|Ne].
  - intros [= <-]. destruct (list_eq_dec N.eq_dec v v); [reflexivity|congruence].
  - intros H. destruct (list_eq_dec N.eq_dec k v) as [->|]; [|auto]. exfalso.
    destruct (lookup_key ps e v Hn H) as (i & Hi & Q). pose proof (key_inj _ _ _ Q Hk). lia.
Qed.

Section Gen.
  Variable E0 : list bytes.
  Hypothesis few : (length E0 <= 676)%nat.

  (** A step of the generator from any state: it adds references and keys, and what it gives is a function of the keys. *)
  Definition yields {X} (run : gen -> option (gen * X)) (refs es : list bytes) (o : list (bytes * bytes) -> X) : Prop :=
    forall ps rs, numbered ps -> incl (map fst ps) E0 -> exists ps' x,
      run (Gen ps rs) = Some (Gen ps' (rs ++ refs), x) /\ (forall P, ext ps' P -> x = o P) /\
      numbered ps' /\ incl (map fst ps') E0 /\ ext ps ps' /\ incl es (map fst ps').
  Definition key_of (P : list (bytes * bytes)) (e : bytes) : bytes := match lookup e P with Some k => k | None => [] end.
  Definition braced (P : list (bytes * bytes)) (e : bytes) : bytes := str "{" ++ key_of P e ++ str "}".

  Lemma yields_ret {X} (x : X) : yields (fun g => Some (g, x)) [] [] (fun _ => x).
  Proof.
    intros ps rs Hn Hi. exists ps, x. rewrite app_nil_r. split; [reflexivity|]. split; [auto|]. split; [exact Hn|]. split; [exact Hi|].
    split; [apply ext_refl, Hn|intros ? []].
  Qed.
  Lemma yields_insert e : In e E0 -> yields (fun g => insert g e) [] [e] (fun P => braced P e).
  Proof.
    intros He ps rs Hn Hi. unfold insert. cbn [g_params g_refs]. rewrite app_nil_r. destruct (lookup e ps) as [k|] eqn:L.
    - exists ps, (str "{" ++ k ++ str "}"). split; [reflexivity|]. split; [|split; [exact Hn|split; [exact Hi|split; [apply ext_refl, Hn|]]]].
      + intros P HP. unfold braced, key_of. rewrite (ext_lookup _ _ _ _ HP L). reflexivity.
      + intros x [<-|[]]. destruct (in_dec (list_eq_dec N.eq_dec) e (map fst ps)) as [I|I]; [exact I|]. apply lookup_none in I. congruence.
    - assert (Hl : (S (length ps) <= 676)%nat).
      { etransitivity; [|exact few]. rewrite <- (map_length fst ps). change (S (length (map fst ps))) with (length (e :: map fst ps)).
        apply NoDup_incl_length; [constructor; [apply lookup_none, L|apply numbered_nodup, Hn]|]. intros x [<-|I]; [exact He|apply Hi, I]. }
      assert (K : exists k, key (N.of_nat (length ps)) = Some k).
      { unfold key. destruct (N.ltb_spec (N.of_nat (length ps)) 676); [eauto|lia]. }
      destruct K as [k K]. rewrite K. exists ((e, k) :: ps), (str "{" ++ k ++ str "}"). split; [reflexivity|].
      assert (Hn' : numbered ((e, k) :: ps)) by (constructor; assumption).
      split; [|split; [exact Hn'|split; [|split; [split; [exists [(e, k)]; reflexivity|exact Hn']|]]]].
      + intros P HP. unfold braced, key_of. rewrite (ext_lookup _ _ e k HP); [reflexivity|]. cbn. destruct (list_eq_dec N.eq_dec e e); [reflexivity|congruence].
      + intros x [<-|I]; [exact He|apply Hi, I].
      + intros x [<-|[]]. left. reflexivity.
  Qed.
  Lemma yields_map {X Y} (run : gen -> option (gen * X)) refs es o (run' : gen -> option (gen * Y)) (f : X -> Y) :
    yields run refs es o -> (forall g, run' g = match run g with Some (g', x) => Some (g', f x) | None => None end) ->
    yields run' refs es (fun P => f (o P)).
  Proof.
    intros H Q ps rs Hn Hi. destruct (H ps rs Hn Hi) as (ps' & x & R & O & A). exists ps', (f x). rewrite Q, R. split; [reflexivity|].
    split; [|exact A]. intros P HP. rewrite (O P HP). reflexivity.
  Qed.
  Lemma yields_bind {X Y Z} (r1 : gen -> option (gen * X)) (r2 : gen -> option (gen * Y)) (r : gen -> option (gen * Z)) refs1 refs2 es1 es2 o1 o2 (f : X -> Y -> Z) :
    yields r1 refs1 es1 o1 -> yields r2 refs2 es2 o2 ->
    (forall g, r g = match r1 g with Some (g1, x) => match r2 g1 with Some (g2, y) => Some (g2, f x y) | None => None end | None => None end) ->
    yields r (refs1 ++ refs2) (es1 ++ es2) (fun P => f (o1 P) (o2 P)).
  Proof.
    intros H1 H2 Q ps rs Hn Hi. destruct (H1 ps rs Hn Hi) as (p1 & x & R1 & O1 & N1 & I1 & X1 & E1).
    destruct (H2 p1 (rs ++ refs1) N1 I1) as (p2 & y & R2 & O2 & N2 & I2 & X2 & E2).
    exists p2, (f x y). rewrite Q, R1, R2, <- app_assoc. split; [reflexivity|]. split; [|split; [exact N2|split; [exact I2|split; [eapply ext_trans; eassumption|]]]].
    - intros P HP. rewrite (O2 P HP), (O1 P); [reflexivity|]. eapply ext_trans; eassumption.
    - apply incl_app; [|exact E2]. intros e He. specialize (E1 e He). destruct X2 as [[m ->] _]. rewrite map_app. apply in_or_app. right. exact E1.
  Qed.
  Lemma yields_nil_collect f : yields (fun g => collect f g []) [] [] (fun _ => []).
  Proof. apply (yields_ret (@nil bytes)). Qed.
  Lemma yields_cons f p t r1 r2 e1 e2 o1 o2 : yields (fun g => f g p) r1 e1 o1 -> yields (fun g => collect f g t) r2 e2 o2 ->
    yields (fun g => collect f g (p :: t)) (r1 ++ r2) (e1 ++ e2) (fun P => o1 P ++ o2 P).
  Proof. intros H1 H2. eapply yields_bind; [exact H1|exact H2|]. intros g. reflexivity. Qed.
  Lemma yields_collect_app f a b r1 r2 e1 e2 o1 o2 : yields (fun g => collect f g a) r1 e1 o1 -> yields (fun g => collect f g b) r2 e2 o2 ->
    yields (fun g => collect f g (a ++ b)) (r1 ++ r2) (e1 ++ e2) (fun P => o1 P ++ o2 P).
  Proof.
    intros H1 H2. eapply yields_bind; [exact H1|exact H2|]. intros g. revert g. clear. induction a as [|p a IH]; intros g; cbn [collect app].
    - destruct (collect f g b) as [[g' x]|]; reflexivity.
    - destruct (f g p) as [[g1 x]|]; [|reflexivity]. rewrite IH. destruct (collect f g1 a) as [[g2 y]|]; [|reflexivity].
      destruct (collect f g2 b) as [[g3 z]|]; [|reflexivity]. rewrite app_assoc. reflexivity.
  Qed.

  (** *** Values *)

  Fixpoint val_texts (P : list (bytes * bytes)) (v : val) : list bytes :=
    match v with
    | VText t => [t]
    | VHex h => [str "#" ++ h]
    | VUrl t => [str "url('" ++ t ++ str "')"]
    | VUrlExpr _ e _ => [str "url('" ++ braced P e ++ str "')"]
    | VEnd _ e _ => [braced P e]
    | VThen _ e _ _ v => braced P e :: val_texts P v
    end.
  Definition gv (g : gen) (p : pair) : option (gen * list bytes) := single (gen_value g p).
  Lemma yields_same {X} (run : gen -> option (gen * X)) r1 r2 e1 e2 o1 o2 : yields run r1 e1 o1 -> r1 = r2 -> e1 = e2 -> (forall P, numbered P -> o1 P = o2 P) -> yields run r2 e2 o2.
  Proof. intros H -> -> Q ps rs Hn Hi. destruct (H ps rs Hn Hi) as (ps' & x & R & O & A). exists ps', x. split; [exact R|]. split; [|exact A]. intros P HP. rewrite <- Q by apply HP. apply O, HP. Qed.
  Lemma yields_gv_end p t : (forall g, gen_value g p = Some (g, t)) -> yields (fun g => collect gv g [p]) [] [] (fun _ => [t]).
  Proof.
    intros H. eapply yields_map with (f := fun _ => [t]); [apply (yields_ret tt)|]. intros g. cbn [collect]. unfold gv. rewrite H. reflexivity.
  Qed.
  Lemma yields_gv_expr w1 e w2 : In e E0 -> yields (fun g => gv g (expr_pair w1 e w2)) [] [e] (fun P => [braced P e]).
  Proof.
    intros He. eapply yields_map with (f := fun t => [t]); [apply (yields_insert e He)|]. intros g. unfold gv, expr_pair. cbn [gen_value first text].
    destruct (insert g e) as [[g' x]|]; reflexivity.
  Qed.
  Lemma yields_val v : incl (val_exprs v) E0 -> yields (fun g => collect gv g (val_pairs v)) [] (val_exprs v) (fun P => val_texts P v).
  Proof.
    induction v as [t|h|t|w1 e w2|w1 e w2|w1 e w2 w v IH]; cbn [val_exprs val_pairs val_texts]; intros Hi.
    - apply yields_gv_end. reflexivity.
    - apply yields_gv_end. reflexivity.
    - apply yields_gv_end. reflexivity.
    - eapply yields_map with (f := fun t => [str "url('" ++ t ++ str "')"]); [apply (yields_insert e); apply Hi; left; reflexivity|].
      intros g. cbn [collect]. unfold gv, expr_pair. cbn [gen_value first text]. destruct (insert g e) as [[g' x]|]; reflexivity.
    - eapply yields_same; [apply yields_cons; [apply yields_gv_expr; apply Hi; left; reflexivity|apply yields_nil_collect]|reflexivity|reflexivity|reflexivity].
    - eapply yields_same; [apply yields_cons; [apply yields_gv_expr; apply Hi; left; reflexivity|apply IH; intros x Hx; apply Hi; right; exact Hx]|reflexivity|reflexivity|reflexivity].
  Qed.
End Gen.

(** *** Texts in pieces *)

Inductive piece := T (t : bytes) | O | C | E (e : bytes) | R (r : bytes).
Definition render (P : list (bytes * bytes)) (x : piece) : bytes :=
  match x with T t => t | O => str "{{" | C => str "}}" | E e => braced P e | R r => ref_text r end.
Fixpoint val_pieces (v : val) : list piece :=
  match v with
  | VText t => [T t]
  | VHex h => [T (str "#" ++ h)]
  | VUrl t => [T (str "url('" ++ t ++ str "')")]
  | VUrlExpr _ e _ => [T (str "url('"); E e; T (str "')")]
  | VEnd _ e _ => [E e]
  | VThen _ e _ _ v => E e :: (if px v then [] else [T (str " ")]) ++ val_pieces v
  end.
Lemma repl_pass new p x y : ~ In 125 x -> replace (125 :: p) new (x ++ y) = x ++ replace (125 :: p) new y.
Proof.
  unfold replace. induction x as [|c x IH]; intros H; [reflexivity|]. cbn [app repl strip].
  destruct (N.eqb_spec 125 c) as [<-|]; [elim H; left; reflexivity|]. f_equal. apply IH. intros Q. apply H. right. exact Q.
Qed.
Lemma repl_none new p x : ~ In 125 x -> replace (125 :: p) new x = x.
Proof. intros H. rewrite <- (app_nil_r x) at 1. rewrite repl_pass by exact H. cbn. apply app_nil_r. Qed.
Lemma key_of_chars P e c : numbered P -> In c (key_of P e) -> 97 <= c /\ c <= 122.
Proof.
  intros HP. unfold key_of. destruct (lookup e P) as [k|] eqn:L; [|intros []].
  destruct (lookup_key P e k HP L) as (i & _ & K). apply key_chars in K. rewrite Forall_forall in K. apply K.
Qed.
Definition replace_px := replace (str "} px") (str "}px").
Lemma px_after x y : ~ In 125 x -> strip (str " px") y = None -> replace_px (x ++ 125 :: y) = x ++ 125 :: replace_px y.
Proof.
  intros Hk Hy. unfold replace_px. change (str "} px") with (125 :: str " px"). rewrite repl_pass by exact Hk. f_equal.
  unfold replace. cbn [repl]. change (strip (125 :: str " px") (125 :: y)) with (strip (str " px") y). rewrite Hy. reflexivity.
Qed.
Lemma px_match x t : ~ In 125 x -> ~ In 125 t -> replace_px (x ++ 125 :: str " px" ++ t) = x ++ 125 :: str "px" ++ t.
Proof.
  intros Hk Ht. unfold replace_px. change (str "} px") with (125 :: str " px"). rewrite repl_pass by exact Hk. f_equal.
  change (125 :: 112 :: 120 :: replace (125 :: str " px") (str "}px") t = 125 :: 112 :: 120 :: t). rewrite repl_none by exact Ht. reflexivity.
Qed.
Lemma braced_app P e y : braced P e ++ y = (123 :: key_of P e) ++ 125 :: y.
Proof. unfold braced. cbn. rewrite <- app_assoc. reflexivity. Qed.
Lemma braced_open P e : ~ In 125 (key_of P e) -> ~ In 125 (123 :: key_of P e).
Proof. intros H [Q|Q]; [discriminate Q|exact (H Q)]. Qed.
Lemma px_true v : px v = true -> exists t, v = VText (112 :: 120 :: t).
Proof.
  destruct v as [[|a l]| | | | |]; try discriminate. cbn. destruct a as [|p]; [discriminate|]. repeat (destruct p; try discriminate).
  destruct l as [|b l]; [discriminate|]. destruct b as [|p]; [discriminate|]. repeat (destruct p; try discriminate). exists l. reflexivity.
Qed.
Lemma val_texts_hd P v : ok_val v -> px v = false -> strip (str "px") (join (str " ") (val_texts P v)) = None.
Proof.
  intros Hv Hp. destruct v; cbn [val_texts join]; try reflexivity.
  - destruct t as [|a [|b t]]; try reflexivity.
    + change (strip (str "px") [a]) with (if 112 =? a then None else @None bytes). destruct (112 =? a); reflexivity.
    + change (strip (str "px") (a :: b :: t)) with (if 112 =? a then if 120 =? b then Some t else None else None).
      destruct (N.eqb_spec 112 a) as [<-|]; [|reflexivity]. destruct (N.eqb_spec 120 b) as [<-|]; [discriminate Hp|reflexivity].
  - destruct (val_texts P v); reflexivity.
Qed.
Lemma val_text_pieces P v : ok_val v -> (forall e, In e (val_exprs v) -> ~ In 125 (key_of P e)) ->
  replace_px (join (str " ") (val_texts P v)) = flat_map (render P) (val_pieces v).
Proof.
  induction v as [t|h|t|w1 e w2|w1 e w2|w1 e w2 w v IH]; cbn [ok_val val_texts val_pieces flat_map render val_exprs]; intros Hok Hk; rewrite ?app_nil_r.
  - unfold replace_px. apply repl_none. intros Q. destruct Hok as [[_ W] _]. apply (W 125 Q). cbn. auto.
  - unfold replace_px. apply repl_none. intros [Q|Q]; [discriminate Q|]. destruct Hok as [W _]. rewrite Forall_forall in W. specialize (W _ Q). unfold hex_char in W. lia.
  - unfold replace_px. apply repl_none. intros Q. apply in_app_or in Q. destruct Hok as [[_ W] _].
    destruct Q as [Q|Q]; [revert Q; notin|]. apply in_app_or in Q. destruct Q as [Q|Q]; [apply (W 125 Q); cbn; auto|revert Q; notin].
  - cbn [join]. unfold replace_px. change (str "} px") with (125 :: str " px"). rewrite repl_pass by notin. f_equal.
    change (125 :: str " px") with (str "} px"). fold (replace_px (braced P e ++ str "')")). rewrite braced_app.
    rewrite px_after; [reflexivity| |reflexivity]. apply braced_open, Hk. left. reflexivity.
  - cbn [join]. rewrite <- (app_nil_r (braced P e)), braced_app, px_after; [reflexivity| |reflexivity]. apply braced_open, Hk. left. reflexivity.
  - destruct Hok as (_ & _ & _ & Hv). assert (Hv' : ok_val v) by (destruct v; try contradiction; exact Hv).
    assert (K : ~ In 125 (123 :: key_of P e)) by (apply braced_open, Hk; left; reflexivity).
    assert (J : join (str " ") (braced P e :: val_texts P v) = braced P e ++ str " " ++ join (str " ") (val_texts P v)).
    { cbn [join]. destruct v; reflexivity. }
    rewrite J, !braced_app. destruct (px v) eqn:X.
    + destruct (px_true v X) as [t ->].
      cbn [val_texts join val_pieces flat_map render app]. rewrite app_nil_r.
      change (replace_px ((123 :: key_of P e) ++ 125 :: str " px" ++ t) = (123 :: key_of P e) ++ 125 :: str "px" ++ t).
      apply px_match; [exact K|]. intros Q. destruct Hv' as [[_ W] _]. apply (W 125); [right; right; exact Q|cbn; auto].
    + rewrite px_after; [|exact K|exact (val_texts_hd P v Hv' X)]. do 2 f_equal.
      unfold replace_px. change (str "} px") with (125 :: str " px"). rewrite repl_pass by notin. cbn [app flat_map render].
      change (125 :: str " px") with (str "} px"). fold (replace_px (join (str " ") (val_texts P v))). cbn.
      f_equal. apply IH; [exact Hv'|]. intros x Hx. apply Hk. right. exact Hx.
Qed.

Fixpoint pbetween (sep : list piece) (l : list (list piece)) : list piece :=
  match l with [] => [] | [x] => x | x :: t => x ++ sep ++ pbetween sep t end.
Definition sel_pieces (sel : option (bytes * option bytes)) (refs : list (bytes * bytes)) : list (list piece) :=
  match sel with None => [] | _ => [[T (print_sel sel)]] end ++ map (fun r => [R (snd r)]) refs.
Definition decl_pieces (d : decl) : list piece := match d with (_, (n, _, v)) => T (n ++ str ": ") :: val_pieces v ++ [T (str ";")] end.
Definition step_pieces (f : step_src) : list piece :=
  [T (s_num f ++ str "%"); T (str " "); O; T (str " ")] ++ pbetween [T [10]] (map decl_pieces (s_rules f)) ++ [T (str " "); C].
Fixpoint lines (i : item) : list (list piece) :=
  match i with
  | Decl n _ v => [T (n ++ str ": ") :: val_pieces v ++ [T (str ";")]]
  | Sub sel refs _ l _ _ =>
      [pbetween [T (str " ")] (sel_pieces sel refs) ++ [T (str " "); O; T (str " ")] ++
       pbetween [T [10]] (flat_map (fun p => lines (snd p)) l) ++ [T (str " "); C; T (str ";")]]
  | Media _ q _ l _ _ =>
      [T (str "@media " ++ q) :: [T (str " "); O; T (str " ")] ++
       pbetween [T (str " ")] (flat_map (fun p => lines (snd p)) l) ++ [T (str " "); C; T (str ";")]]
  | Comment _ _ _ => []
  | Anim _ p _ fr _ =>
      [T (str "animation: " ++ p) ::
       match fr with None => [] | Some (l, _) => [T (str " "); O; T (str " ")] ++ pbetween [T [10]] (map step_pieces l) ++ [T (str " "); C] end ++ [T (str ";")]]
  end.
Definition lines_all (l : list (bytes * item)) : list (list piece) := flat_map (fun p => lines (snd p)) l.
Lemma pbetween_flat f sep l : flat_map f (pbetween sep l) = join (flat_map f sep) (map (flat_map f) l).
Proof.
  induction l as [|x [|y l] IH]; [reflexivity|reflexivity|].
  change (pbetween sep (x :: y :: l)) with (x ++ sep ++ pbetween sep (y :: l)). rewrite !flat_map_app, IH. reflexivity.
Qed.

Section Gen2.
  Variable E0 : list bytes.
  Hypothesis few : (length E0 <= 676)%nat.
  Notation yields := (yields E0).

  Lemma yields_decl m n w v : ok_val v -> incl (val_exprs v) E0 ->
    yields (fun g => gen_rule (S m) g (decl_pair n w v)) [] (val_exprs v) (fun P => map (flat_map (render P)) (lines (Decl n w v))).
  Proof.
    intros Hv Hi. eapply yields_same.
    - eapply yields_map with (f := fun xs => [n ++ str ": " ++ replace_px (join (str " ") xs) ++ str ";"]); [apply (yields_val E0 few v Hi)|].
      intros g. unfold decl_pair. cbn [gen_rule gen_unknown text]. unfold gv.
      destruct (collect (fun g0 p => single (gen_value g0 p)) g (val_pairs v)) as [[g' xs]|]; reflexivity.
    - reflexivity.
    - reflexivity.
    - intros P HP. cbn [lines map flat_map render]. rewrite flat_map_app, val_text_pieces; [|exact Hv|].
      + cbn [flat_map render]. rewrite <- !app_assoc. reflexivity.
      + intros e _ Q. apply (key_of_chars P e) in Q; [lia|exact HP].
  Qed.
  Lemma yields_parts_app f a b r1 r2 e1 e2 o1 o2 : yields (fun g => gen_parts f g a) r1 e1 o1 -> yields (fun g => gen_parts f g b) r2 e2 o2 ->
    yields (fun g => gen_parts f g (a ++ b)) (r1 ++ r2) (e1 ++ e2) (fun P => (fst (o1 P) ++ fst (o2 P), snd (o1 P) ++ snd (o2 P))).
  Proof.
    intros H1 H2. eapply yields_bind with (f := fun x y => (fst x ++ fst y, snd x ++ snd y)); [exact H1|exact H2|].
    intros g. revert g. clear. induction a as [|p a IH]; intros g; cbn [gen_parts app].
    - destruct (gen_parts f g b) as [[g' [x y]]|]; reflexivity.
    - destruct (gen_part f g p) as [[g1 [x y]]|]; [|reflexivity]. rewrite IH. destruct (gen_parts f g1 a) as [[g2 [z u]]|]; [|reflexivity].
      destruct (gen_parts f g2 b) as [[g3 [z' u']]|]; [|reflexivity]. cbn [fst snd]. rewrite !app_assoc. reflexivity.
  Qed.
  Definition is_rule (p : pair) : Prop := match p with Pair RUnknown _ _ | Pair RSub _ _ | Pair RMedia _ _ | Pair RAnimation _ _ => True | _ => False end.
  Lemma items_rules l : Forall is_rule (flat_map (fun p : bytes * item => item_pairs (snd p)) l).
  Proof. induction l as [|[w i] l IH]; [constructor|]. cbn [flat_map snd]. apply Forall_app. split; [|exact IH]. destruct i; repeat constructor. Qed.
  Lemma parts_collect f l g : Forall is_rule l ->
    gen_parts f g l = match collect f g l with Some (g', x) => Some (g', ([], x)) | None => None end.
  Proof.
    intros H. revert g. induction H as [|p l Hp _ IH]; intros g; [reflexivity|]. cbn [gen_parts collect].
    assert (Q : gen_part f g p = match f g p with Some (g', xs) => Some (g', ([], xs)) | None => None end) by (destruct p as [[] t l']; try contradiction; reflexivity).
    rewrite Q. destruct (f g p) as [[g1 x]|]; [|reflexivity]. rewrite IH. destruct (collect f g1 l) as [[g2 y]|]; reflexivity.
  Qed.
  Lemma ref_trim r : ok_ref r -> is_ident (trim_brackets (ref_text r)) = true /\ trim_brackets (ref_text r) = r.
  Proof.
    intros H. destruct (ok_ref_chars r H) as [Hn Hc].
    assert (K : forall t, t <> [] -> (forall c, In c t -> In c r) -> trim_left t = t).
    { intros [|c t] Ht Hs; [congruence|]. cbn [trim_left]. assert (Q : In c r) by (apply Hs; left; reflexivity). rewrite Forall_forall in Hc. specialize (Hc c Q).
      destruct (N.eqb_spec c 91) as [->|]; [unfold ident_char in Hc; lia|]. destruct (N.eqb_spec c 93) as [->|]; [unfold ident_char in Hc; lia|]. reflexivity. }
    assert (Q : trim_brackets (ref_text r) = r).
    { unfold trim_brackets, ref_text. change (trim_left (str "[" ++ r ++ str "]")) with (trim_left (r ++ str "]")).
      assert (Q : trim_left (r ++ str "]") = r ++ str "]").
      { destruct r as [|c r]; [congruence|]. cbn [app trim_left]. rewrite Forall_forall in Hc. specialize (Hc c (or_introl eq_refl)).
        destruct (N.eqb_spec c 91) as [->|]; [unfold ident_char in Hc; lia|]. destruct (N.eqb_spec c 93) as [->|]; [unfold ident_char in Hc; lia|]. reflexivity. }
      rewrite Q, rev_app_distr. change (trim_left (rev (str "]") ++ rev r)) with (trim_left (rev r)). rewrite K; [apply rev_involutive| |].
      - intros E. apply (f_equal (@rev N)) in E. rewrite rev_involutive in E. cbn in E. congruence.
      - intros c Hin. apply in_rev. exact Hin. }
    split; [|exact Q]. rewrite Q. destruct r as [|c r]; [congruence|]. destruct H as [H1 H2]. cbn [is_ident]. apply andb_true_iff. split.
    - unfold ident_char, lower in *. destruct H1 as [[A B]|[[A B]|A]]; [apply N.leb_le in A, B; rewrite A, B; reflexivity|apply N.leb_le in A, B; rewrite A, B; rewrite ?orb_true_r; reflexivity|].
      subst c. reflexivity.
    - apply forallb_forall. intros d Hd. rewrite Forall_forall in H2. specialize (H2 d Hd). unfold ident_char, lower, is_digit in *.
      destruct H2 as [[[A B]|[[A B]|A]]|[A B]]; try (apply N.leb_le in A, B; rewrite A, B; rewrite ?orb_true_r; reflexivity). subst d. reflexivity.
  Qed.
  Lemma yields_refs f refs : Forall (fun r : bytes * bytes => ok_ref (snd r)) refs ->
    yields (fun g => gen_parts f g (map (fun r => ref_pair (snd r)) refs)) (map snd refs) [] (fun _ => (map (fun r => ref_text (snd r)) refs, [])).
  Proof.
    induction 1 as [|r refs Hr _ IH]; [apply (yields_ret E0 (@nil bytes, @nil bytes))|].
    destruct (ref_trim (snd r) Hr) as [T1 T2].
    assert (Y : yields (fun g => gen_part f g (ref_pair (snd r))) [snd r] [] (fun _ => ([ref_text (snd r)], []))).
    { intros ps rs Hn Hi. exists ps, ([ref_text (snd r)], []). unfold ref_pair. cbn [gen_part]. rewrite T1, T2. cbn [g_params g_refs].
      split; [reflexivity|]. split; [auto|]. split; [exact Hn|]. split; [exact Hi|]. split; [apply ext_refl, Hn|intros ? []]. }
    eapply yields_same; [eapply yields_bind with (f := fun x y => (fst x ++ fst y, snd x ++ snd y)); [exact Y|exact IH|]| | |].
    - intros g. cbn [map gen_parts]. destruct (gen_part f g (ref_pair (snd r))) as [[g1 [a b]]|]; [|reflexivity].
      destruct (gen_parts f g1 (map (fun r0 => ref_pair (snd r0)) refs)) as [[g2 [c d]]|]; reflexivity.
    - reflexivity.
    - reflexivity.
    - reflexivity.
  Qed.
  Lemma yields_decls l : Forall (fun d => space (fst d) /\ ok_decl (snd d)) l -> incl (flat_map decl_exprs l) E0 ->
    yields (fun g => collect (fun g r => single (gen_unknown g (inner r))) g (map dpair l)) [] (flat_map decl_exprs l)
      (fun P => map (fun d => flat_map (render P) (decl_pieces d)) l).
  Proof.
    induction 1 as [|[w [[n w'] v]] l [_ Hd] _ IH]; intros Hi; [apply yields_nil_collect|]. cbn [map flat_map decl_exprs] in *.
    eapply yields_same; [apply yields_cons; [apply (yields_decl 0 n w' v); [apply Hd|]|apply IH]| | |].
    - intros x Hx. apply Hi, in_or_app. left. exact Hx.
    - intros x Hx. apply Hi, in_or_app. right. exact Hx.
    - reflexivity.
    - reflexivity.
    - reflexivity.
  Qed.
  Lemma yields_steps l : Forall ok_step l -> incl (steps_exprs l) E0 ->
    yields (fun g => collect gen_frame g (map step_pair l)) [] (steps_exprs l) (fun P => map (fun f => flat_map (render P) (step_pieces f)) l).
  Proof.
    induction 1 as [|f l Hf _ IH]; intros Hi; [apply yields_nil_collect|]. cbn [map steps_exprs flat_map] in *.
    eapply yields_same; [apply yields_cons; [|apply IH]| | |].
    - eapply yields_map with (f := fun xs => [(s_num f ++ str "%") ++ str " {{ " ++ join [10] xs ++ str " }}"]); [apply (yields_decls (s_rules f))|].
      + apply Hf.
      + intros x Hx. apply Hi, in_or_app. left. exact Hx.
      + intros g. unfold gen_frame, step_pair. cbn [inner text]. destruct (collect _ g (map dpair (s_rules f))) as [[g' xs]|]; reflexivity.
    - intros x Hx. apply Hi, in_or_app. right. exact Hx.
    - reflexivity.
    - reflexivity.
    - intros P _. cbn [app]. f_equal. unfold step_pieces. rewrite !flat_map_app, pbetween_flat, map_map. cbn [flat_map render]. rewrite <- !app_assoc. reflexivity.
  Qed.
  Lemma yields_item i : ok i -> incl (exprs i) E0 -> forall n, (depth i <= n)%nat ->
    yields (fun g => collect (gen_rule n) g (item_pairs i)) (refs_of i) (exprs i) (fun P => map (flat_map (render P)) (lines i)).
  Proof.
    assert (K : forall l n, Forall (fun p : bytes * item => ok (snd p) -> incl (exprs (snd p)) E0 -> forall n, (depth (snd p) <= n)%nat ->
      yields (fun g => collect (gen_rule n) g (item_pairs (snd p))) (refs_of (snd p)) (exprs (snd p)) (fun P => map (flat_map (render P)) (lines (snd p)))) l ->
      ok_all l -> incl (flat_map (fun p => exprs (snd p)) l) E0 -> (fold_right (fun p m => Nat.max (depth (snd p)) m) 0%nat l <= n)%nat ->
      yields (fun g => collect (gen_rule n) g (flat_map (fun p => item_pairs (snd p)) l)) (flat_map (fun p => refs_of (snd p)) l)
        (flat_map (fun p => exprs (snd p)) l) (fun P => map (flat_map (render P)) (flat_map (fun p => lines (snd p)) l))).
    { clear i. intros l n H. induction H as [|[w i] l Hi _ IH]; [intros; apply yields_nil_collect|]. cbn [flat_map fold_right snd]. intros [[_ Ho] Hl] Hin Hd.
      cbn [snd] in *. eapply yields_same; [eapply yields_collect_app; [apply Hi|apply IH]| | |].
      - exact Ho.
      - intros x Hx. apply Hin, in_or_app. left. exact Hx.
      - lia.
      - exact Hl.
      - intros x Hx. apply Hin, in_or_app. right. exact Hx.
      - lia.
      - reflexivity.
      - reflexivity.
      - intros P _. cbn beta. rewrite map_app. reflexivity. }
    induction i as [m w v|sel refs w1 l w2 w3 IH|w1 q w2 l w3 w4 IH|w1 t w2|w1 p w2 fr w3] using item_rect'; intros Hok Hi n Hn; (destruct n as [|n]; [cbn in Hn; lia|]).
    - cbn [item_pairs refs_of exprs]. eapply yields_same; [apply yields_cons; [apply yields_decl; [apply Hok|exact Hi]|apply yields_nil_collect]| | |].
      + reflexivity.
      + apply app_nil_r.
      + intros P _. apply app_nil_r.
    - destruct Hok as (Hs & Hr & Hsr & _ & _ & Hl & _). cbn [exprs depth] in Hi, Hn.
      assert (Y1 : yields (fun g => gen_parts (gen_rule n) g (flat_map (fun p => item_pairs (snd p)) l)) (flat_map (fun p => refs_of (snd p)) l)
        (flat_map (fun p => exprs (snd p)) l) (fun P => ([], map (flat_map (render P)) (flat_map (fun p => lines (snd p)) l)))).
      { eapply yields_map with (f := fun x => ([], x)); [apply (K l n IH Hl Hi); lia|]. intros g. apply parts_collect, items_rules. }
      assert (Y2 := yields_refs (gen_rule n) refs). specialize (Y2 (Forall_impl _ (fun r H => proj2 H) Hr)).
      assert (Y3 : yields (fun g => gen_parts (gen_rule n) g (match sel with None => [] | _ => [Pair RSubSelector (print_sel sel) []] end)) [] []
        (fun _ => (match sel with None => [] | _ => [print_sel sel] end, []))).
      { destruct sel as [a|]; [|apply (yields_ret E0 (@nil bytes, @nil bytes))]. apply (yields_ret E0 ([print_sel (Some a)], @nil bytes)). }
      pose proof (yields_parts_app _ _ _ _ _ _ _ _ _ Y3 (yields_parts_app _ _ _ _ _ _ _ _ _ Y2 Y1)) as Y. cbn [fst snd app] in Y.
      eapply yields_same; [eapply yields_map with (f := fun x => [join (str " ") (fst x) ++ str " {{ " ++ join [10] (snd x) ++ str " }};"]); [exact Y|]| | |].
      + intros g. cbn [item_pairs collect gen_rule].
        change (match sel with Some _ => [Pair RSubSelector (print_sel sel) []] | None => [] end) with (match sel with None => [] | _ => [Pair RSubSelector (print_sel sel) []] end).
        set (ps := match sel with None => [] | _ => [Pair RSubSelector (print_sel sel) []] end ++ _).
        assert (Q : forall g' q xs, gen_parts (gen_rule n) g ps = Some (g', (q, xs)) -> q <> []).
        { intros g' q xs Q. destruct sel as [a|].
          - unfold ps in Q. cbn [app gen_parts gen_part] in Q. destruct (gen_parts (gen_rule n) g _) as [[g2 [c d]]|]; [|discriminate]. injection Q as _ <- _. discriminate.
          - destruct refs as [|r refs]; [contradiction|]. unfold ps in Q. cbn [app map gen_parts] in Q. unfold ref_pair in Q at 1. cbn [gen_part] in Q.
            destruct (is_ident _); [|discriminate]. destruct (gen_parts (gen_rule n) _ _) as [[g2 [c d]]|]; [|discriminate]. injection Q as _ <- _. discriminate. }
        destruct (gen_parts (gen_rule n) g ps) as [[g' [q xs]]|]; [|reflexivity]. specialize (Q _ _ _ eq_refl). destruct q; [congruence|]. reflexivity.
      + reflexivity.
      + reflexivity.
      + intros P _. cbn [fst snd lines map]. do 2 f_equal. rewrite flat_map_app, pbetween_flat. cbn [flat_map render]. f_equal.
        * cbn [app]. f_equal. unfold sel_pieces. rewrite map_app, !map_map. cbn [flat_map render]. rewrite app_nil_r. f_equal.
          -- destruct sel; [|reflexivity]. cbn [map flat_map render]. rewrite app_nil_r. reflexivity.
          -- apply map_ext. intros r. cbn [flat_map render]. rewrite app_nil_r. reflexivity.
        * rewrite !flat_map_app, pbetween_flat. reflexivity.
    - destruct Hok as (_ & _ & _ & Hl & _). cbn [exprs depth] in Hi, Hn.
      assert (Y1 : yields (fun g => gen_parts (gen_rule n) g (flat_map (fun p => item_pairs (snd p)) l)) (flat_map (fun p => refs_of (snd p)) l)
        (flat_map (fun p => exprs (snd p)) l) (fun P => ([], map (flat_map (render P)) (flat_map (fun p => lines (snd p)) l)))).
      { eapply yields_map with (f := fun x => ([], x)); [apply (K l n IH Hl Hi); lia|]. intros g. apply parts_collect, items_rules. }
      eapply yields_same; [eapply yields_map with (f := fun x => [str "@media " ++ q ++ str " {{ " ++ join (str " ") (snd x) ++ str " }};"]); [exact Y1|]| | |].
      + intros g. cbn [item_pairs collect gen_rule gen_parts gen_part]. rewrite parts_collect by apply items_rules.
        destruct (collect (gen_rule n) g (flat_map (fun p => item_pairs (snd p)) l)) as [[g' xs]|]; reflexivity.
      + reflexivity.
      + reflexivity.
      + intros P _. cbn [fst snd lines map]. f_equal. cbn [flat_map render]. rewrite <- app_assoc. do 2 f_equal.
        rewrite !flat_map_app, pbetween_flat. reflexivity.
    - cbn [item_pairs refs_of exprs lines map]. apply yields_nil_collect.
    - destruct Hok as (_ & _ & _ & _ & Hf & _). cbn [item_pairs refs_of exprs]. destruct fr as [[l w]|].
      + destruct Hf as (_ & Hs & _). eapply yields_same.
        * eapply yields_map with (f := fun xs => [str "animation: " ++ join (str " ") [p; str "{{ " ++ join [10] xs ++ str " }}"] ++ str ";"]); [apply (yields_steps l Hs Hi)|].
          intros g. cbn [collect gen_rule gen_animation fst]. unfold gen_animation. cbn [collect gen_anim]. destruct (collect gen_frame g (map step_pair l)) as [[g' xs]|]; reflexivity.
        * reflexivity.
        * reflexivity.
        * intros P _. cbn [lines map flat_map render]. rewrite !flat_map_app, pbetween_flat, map_map. cbn [join flat_map render].
          rewrite <- !app_assoc. reflexivity.
      + eapply yields_same; [apply (yields_ret E0 [str "animation: " ++ p ++ str ";"])|reflexivity|reflexivity|].
        intros P _. cbn [lines map flat_map render app]. rewrite <- app_assoc. reflexivity.
  Qed.
  Lemma yields_items l n : ok_all l -> incl (flat_map (fun p => exprs (snd p)) l) E0 -> (depth_all l <= n)%nat ->
    yields (fun g => collect (gen_rule n) g (flat_map (fun p => item_pairs (snd p)) l)) (flat_map (fun p => refs_of (snd p)) l)
      (flat_map (fun p => exprs (snd p)) l) (fun P => map (flat_map (render P)) (lines_all l)).
  Proof.
    revert n. induction l as [|[w i] l IH]; intros n; [intros; apply yields_nil_collect|]. cbn [flat_map snd lines_all depth_all fold_right]. intros [[_ Ho] Hl] Hin Hd.
    cbn [snd] in *. eapply yields_same; [eapply yields_collect_app; [apply yields_item|apply IH]| | |].
    - exact Ho.
    - intros x Hx. apply Hin, in_or_app. left. exact Hx.
    - lia.
    - exact Hl.
    - intros x Hx. apply Hin, in_or_app. right. exact Hx.
    - unfold depth_all. lia.
    - reflexivity.
    - reflexivity.
    - intros P _. cbn beta. rewrite map_app. reflexivity.
  Qed.
End Gen2.

(** ** The text *)

Definition closed (x : piece) : Prop := match x with T t => ~ In 123 t /\ ~ In 125 t | R r => ok_ref r | _ => True end.
Lemma closed_lit (t : bytes) : forallb (fun c => negb (c =? 123) && negb (c =? 125)) t = true -> closed (T t).
Proof.
  intros H. rewrite forallb_forall in H. split; intros Q; specialize (H _ Q); discriminate H.
Qed.
Lemma simple_closed t : simple t -> closed (T t).
Proof. intros [_ W]. split; intros Q; apply (W _ Q); cbn; auto. Qed.
Lemma closed_app a b : closed (T a) -> closed (T b) -> closed (T (a ++ b)).
Proof. intros [A1 A2] [B1 B2]. split; intros Q; apply in_app_or in Q; tauto. Qed.
Lemma val_closed v : ok_val v -> Forall closed (val_pieces v).
Proof.
  induction v as [t|h|t|w1 e w2|w1 e w2|w1 e w2 w v IH]; cbn [ok_val val_pieces]; intros H.
  - constructor; [apply simple_closed, H|constructor].
  - constructor; [|constructor]. apply closed_app; [apply closed_lit; reflexivity|]. destruct H as [H _]. rewrite Forall_forall in H.
    split; intros Q; specialize (H _ Q); unfold hex_char in H; lia.
  - constructor; [|constructor]. apply closed_app; [apply closed_lit; reflexivity|]. apply closed_app; [apply simple_closed, H|apply closed_lit; reflexivity].
  - constructor; [apply closed_lit; reflexivity|]. constructor; [exact I|]. constructor; [apply closed_lit; reflexivity|constructor].
  - constructor; [exact I|constructor].
  - destruct H as (_ & _ & _ & Hv). constructor; [exact I|]. apply Forall_app. split.
    + destruct (px v); [constructor|]. constructor; [apply closed_lit; reflexivity|constructor].
    + apply IH. destruct v; try contradiction; exact Hv.
Qed.
Lemma pbetween_all (Q : piece -> Prop) sep l : Forall Q sep -> Forall (Forall Q) l -> Forall Q (pbetween sep l).
Proof.
  intros Hs. induction 1 as [|x l Hx Hl IH]; [constructor|]. destruct l as [|y l]; [exact Hx|].
  change (pbetween sep (x :: y :: l)) with (x ++ sep ++ pbetween sep (y :: l)). apply Forall_app. split; [exact Hx|]. apply Forall_app. split; [exact Hs|exact IH].
Qed.
Ltac lits := repeat constructor; try (apply closed_lit; reflexivity).
Lemma sel_closed sel : ok_sel sel -> closed (T (print_sel sel)).
Proof.
  intros H. assert (W : forall a, without [58; 91; 123; 125] a -> closed (T a)) by (intros a W; split; intros Q; apply (W _ Q); cbn; auto).
  destruct sel as [[a [b|]]|]; cbn [print_sel]; repeat apply closed_app; try (apply closed_lit; reflexivity); apply W; apply H.
Qed.
Lemma step_closed f : ok_step f -> Forall closed (step_pieces f).
Proof.
  intros (_ & _ & Hc & _ & (_ & Hr) & _). unfold step_pieces. apply Forall_app. split.
  - constructor; [|lits]. apply closed_app; [|apply closed_lit; reflexivity]. rewrite Forall_forall in Hc. split; intros Q; specialize (Hc _ Q); unfold digit_char in Hc; lia.
  - apply Forall_app. split; [|lits]. apply pbetween_all; [lits|]. apply Forall_map. eapply Forall_impl; [|exact Hr].
    intros [w [[n w'] v]] [_ ((N1 & _) & _ & Hv & _)]. cbn [decl_pieces]. constructor.
    + apply closed_app; [|apply closed_lit; reflexivity]. rewrite Forall_forall in N1. split; intros Q; specialize (N1 _ Q); unfold name_char in N1; lia.
    + apply Forall_app. split; [apply val_closed, Hv|lits].
Qed.
Lemma lines_closed i : ok i -> Forall (Forall closed) (lines i).
Proof.
  assert (K : forall l, Forall (fun p : bytes * item => ok (snd p) -> Forall (Forall closed) (lines (snd p))) l -> ok_all l ->
    Forall (Forall closed) (flat_map (fun p => lines (snd p)) l)).
  { clear i. intros l H. induction H as [|[w i] l Hi _ IH]; [constructor|]. intros [[_ Ho] Hl]. cbn [flat_map]. apply Forall_app. split; [apply Hi, Ho|apply IH, Hl]. }
  induction i as [m w v|sel refs w1 l w2 w3 IH|w1 q w2 l w3 w4 IH|w1 t w2|w1 p w2 fr w3] using item_rect'; intros Hok; cbn [lines].
  - destruct Hok as ((N1 & _) & _ & Hv & _). constructor; [|constructor]. constructor.
    + apply closed_app; [|apply closed_lit; reflexivity]. rewrite Forall_forall in N1. split; intros Q; specialize (N1 _ Q); unfold name_char in N1; lia.
    + apply Forall_app. split; [apply val_closed, Hv|lits].
  - destruct Hok as (Hs & Hr & Hsr & _ & _ & Hl & _). constructor; [|constructor]. apply Forall_app. split.
    + apply pbetween_all; [lits|]. unfold sel_pieces. apply Forall_app. split.
      * pose proof (sel_closed sel Hs) as Q. destruct sel; [|constructor]. constructor; [|constructor]. constructor; [exact Q|constructor].
      * apply Forall_forall. intros x Hx. apply in_map_iff in Hx. destruct Hx as (r & <- & Hin). rewrite Forall_forall in Hr. constructor; [apply (Hr r Hin)|constructor].
    + apply Forall_app. split; [lits|]. apply Forall_app. split; [|lits]. apply pbetween_all; [lits|]. apply (K l IH Hl).
  - destruct Hok as (_ & Hq & _ & Hl & _). constructor; [|constructor]. constructor; [apply closed_app; [apply closed_lit; reflexivity|apply simple_closed, Hq]|].
    apply Forall_app. split; [lits|]. apply Forall_app. split; [|lits]. apply pbetween_all; [lits|]. apply (K l IH Hl).
  - constructor.
  - destruct Hok as (_ & Hp & _ & _ & Hf & _). constructor; [|constructor]. constructor; [apply closed_app; [apply closed_lit; reflexivity|apply simple_closed, Hp]|].
    apply Forall_app. split; [|lits]. destruct fr as [[l w]|]; [|constructor]. destruct Hf as (_ & Hs & _).
    apply Forall_app. split; [lits|]. apply Forall_app. split; [|lits]. apply pbetween_all; [lits|]. apply Forall_map.
    eapply Forall_impl; [|exact Hs]. apply step_closed.
Qed.
Lemma lines_all_closed l : ok_all l -> Forall (Forall closed) (lines_all l).
Proof. induction l as [|[w i] l IH]; [constructor|]. intros [[_ Ho] Hl]. cbn [lines_all flat_map]. apply Forall_app. split; [apply lines_closed, Ho|apply IH, Hl]. Qed.

(** The expressions of the pieces. *)
Definition piece_exprs (x : piece) : list bytes := match x with E e => [e] | _ => [] end.
Definition piece_refs (x : piece) : list bytes := match x with R r => [r] | _ => [] end.
Section Collected.
  Context {A : Type}.
  Variable f : piece -> list A.
  Lemma pbetween_none sep l : flat_map f sep = [] -> flat_map f (pbetween sep l) = flat_map (flat_map f) l.
  Proof.
    intros Hs. induction l as [|x [|y l] IH]; [reflexivity|symmetry; apply app_nil_r|].
    change (pbetween sep (x :: y :: l)) with (x ++ sep ++ pbetween sep (y :: l)). rewrite !flat_map_app, Hs, IH. reflexivity.
  Qed.
End Collected.
Lemma flat_map_flat {A B D} (f : B -> list D) (g : A -> list B) l : flat_map f (flat_map g l) = flat_map (fun x => flat_map f (g x)) l.
Proof. induction l as [|x l IH]; [reflexivity|]. cbn. rewrite flat_map_app, IH. reflexivity. Qed.
Lemma val_piece_exprs v : flat_map piece_exprs (val_pieces v) = val_exprs v.
Proof.
  induction v; cbn [val_pieces val_exprs flat_map piece_exprs app]; try reflexivity. rewrite flat_map_app. destruct (px v); cbn [flat_map piece_exprs app]; rewrite IHv; reflexivity.
Qed.
Lemma val_piece_refs v : flat_map piece_refs (val_pieces v) = [].
Proof.
  induction v; cbn [val_pieces flat_map piece_refs app]; try reflexivity. rewrite flat_map_app. destruct (px v); cbn [flat_map piece_refs app]; rewrite IHv; reflexivity.
Qed.
Lemma steps_collect {A} (f : piece -> list A) (F : decl -> list A) l : (forall t, f (T t) = []) -> f O = [] -> f C = [] ->
  (forall d, flat_map f (decl_pieces d) = F d) -> flat_map f (pbetween [T [10]] (map step_pieces l)) = flat_map (fun s => flat_map F (s_rules s)) l.
Proof.
  intros HT HO HC HD. rewrite pbetween_none by (cbn; rewrite HT; reflexivity). rewrite flat_map_concat_map, map_map, <- flat_map_concat_map. apply flat_map_ext. intros s.
  unfold step_pieces. rewrite !flat_map_app, pbetween_none by (cbn; rewrite HT; reflexivity). cbn [flat_map]. rewrite !HT, HO, HC. cbn [app]. rewrite app_nil_r.
  rewrite flat_map_concat_map, map_map, <- flat_map_concat_map. apply flat_map_ext. exact HD.
Qed.
Lemma lines_exprs i : flat_map (flat_map piece_exprs) (lines i) = exprs i.
Proof.
  assert (K : forall l, Forall (fun p : bytes * item => flat_map (flat_map piece_exprs) (lines (snd p)) = exprs (snd p)) l ->
    flat_map (flat_map piece_exprs) (flat_map (fun p => lines (snd p)) l) = flat_map (fun p => exprs (snd p)) l).
  { intros l H. induction H as [|p l Hp _ IH]; [reflexivity|]. cbn [flat_map]. rewrite flat_map_app, Hp, IH. reflexivity. }
  induction i as [m w v|sel refs w1 l w2 w3 IH|w1 q w2 l w3 w4 IH|w1 t w2|w1 p w2 fr w3] using item_rect'; cbn [lines exprs flat_map].
  - rewrite app_nil_r. cbn [piece_exprs app]. rewrite flat_map_app, val_piece_exprs. apply app_nil_r.
  - rewrite app_nil_r, !flat_map_app, !pbetween_none by reflexivity. rewrite (K l IH). cbn. rewrite app_nil_r.
    assert (Q : flat_map (flat_map piece_exprs) (sel_pieces sel refs) = []).
    { unfold sel_pieces. rewrite flat_map_app. replace (flat_map (flat_map piece_exprs) (map (fun r : bytes * bytes => [R (snd r)]) refs)) with (@nil bytes).
      - destruct sel; reflexivity.
      - clear. induction refs as [|r refs IH]; [reflexivity|exact IH]. }
    rewrite Q. reflexivity.
  - rewrite app_nil_r. cbn [piece_exprs app flat_map]. rewrite !flat_map_app, !pbetween_none by reflexivity. rewrite (K l IH). cbn. apply app_nil_r.
  - reflexivity.
  - rewrite app_nil_r. cbn [piece_exprs app]. rewrite flat_map_app. cbn [flat_map piece_exprs app]. rewrite app_nil_r. destruct fr as [[l w]|]; [|reflexivity].
    cbn [flat_map piece_exprs app]. rewrite !flat_map_app. rewrite (steps_collect piece_exprs decl_exprs); [apply app_nil_r|reflexivity|reflexivity|reflexivity|].
    intros [w0 [[n w'] v]]. cbn [decl_pieces flat_map piece_exprs app decl_exprs]. rewrite flat_map_app, val_piece_exprs. apply app_nil_r.
Qed.
Lemma lines_refs i : flat_map (flat_map piece_refs) (lines i) = refs_of i.
Proof.
  assert (K : forall l, Forall (fun p : bytes * item => flat_map (flat_map piece_refs) (lines (snd p)) = refs_of (snd p)) l ->
    flat_map (flat_map piece_refs) (flat_map (fun p => lines (snd p)) l) = flat_map (fun p => refs_of (snd p)) l).
  { intros l H. induction H as [|p l Hp _ IH]; [reflexivity|]. cbn [flat_map]. rewrite flat_map_app, Hp, IH. reflexivity. }
  induction i as [m w v|sel refs w1 l w2 w3 IH|w1 q w2 l w3 w4 IH|w1 t w2|w1 p w2 fr w3] using item_rect'; cbn [lines refs_of flat_map].
  - rewrite app_nil_r. cbn [piece_refs app]. rewrite flat_map_app, val_piece_refs. reflexivity.
  - rewrite app_nil_r, !flat_map_app, !pbetween_none by reflexivity. rewrite (K l IH). cbn. rewrite app_nil_r. f_equal.
    unfold sel_pieces. rewrite flat_map_app. replace (flat_map (flat_map piece_refs) (map (fun r : bytes * bytes => [R (snd r)]) refs)) with (map snd refs).
    + destruct sel; reflexivity.
    + clear. induction refs as [|r refs IH]; [reflexivity|]. cbn. f_equal. exact IH.
  - rewrite app_nil_r. cbn [piece_refs app flat_map]. rewrite !flat_map_app, !pbetween_none by reflexivity. rewrite (K l IH). cbn. apply app_nil_r.
  - reflexivity.
  - rewrite app_nil_r. cbn [piece_refs app]. rewrite flat_map_app. cbn [flat_map piece_refs app]. rewrite app_nil_r. destruct fr as [[l w]|]; [|reflexivity].
    cbn [flat_map piece_refs app]. rewrite !flat_map_app. rewrite (steps_collect piece_refs (fun _ => [])); [|reflexivity|reflexivity|reflexivity|].
    + cbn [flat_map piece_refs app]. rewrite app_nil_r. clear. assert (N : forall A (l : list A), flat_map (fun _ => @nil bytes) l = []) by (intros A k; induction k; auto).
      induction l as [|x l IH]; [reflexivity|]. cbn [flat_map]. rewrite N. exact IH.
    + intros [w0 [[n w'] v]]. cbn [decl_pieces flat_map piece_refs app]. rewrite flat_map_app, val_piece_refs. reflexivity.
Qed.
Lemma lines_all_collect {A} (f : piece -> list A) (F : item -> list A) l : (forall i, flat_map (flat_map f) (lines i) = F i) ->
  flat_map (flat_map f) (lines_all l) = flat_map (fun p => F (snd p)) l.
Proof. intros H. induction l as [|p l IH]; [reflexivity|]. cbn [lines_all flat_map]. rewrite flat_map_app, H. f_equal. exact IH. Qed.

(** *** Replacing *)

Lemma repl_pass_c c new p x y : ~ In c x -> replace (c :: p) new (x ++ y) = x ++ replace (c :: p) new y.
Proof.
  unfold replace. induction x as [|d x IH]; intros H; [reflexivity|]. cbn [app repl strip].
  destruct (N.eqb_spec c d) as [E0|]; [subst d; elim H; left; reflexivity|]. f_equal. apply IH. intros Q. apply H. right. exact Q.
Qed.
Lemma repl_drop n p new x y : length x = n -> repl n p new (x ++ y) = repl 0 p new y.
Proof. revert n. induction x as [|c x IH]; intros n <-; [reflexivity|]. cbn [length app repl]. apply IH. reflexivity. Qed.
Lemma repl_hit c p new y : replace (c :: p) new ((c :: p) ++ y) = new ++ replace (c :: p) new y.
Proof.
  unfold replace. cbn [app repl]. change (c :: p ++ y) with ((c :: p) ++ y). rewrite strip_app. f_equal.
  cbn [length]. replace (S (length p) - 1)%nat with (length p) by lia. apply repl_drop. reflexivity.
Qed.
Lemma repl_miss c p new y : strip (c :: p) (c :: y) = None -> replace (c :: p) new (c :: y) = c :: replace (c :: p) new y.
Proof. intros H. unfold replace. cbn [repl]. rewrite H. reflexivity. Qed.

Section Final.
  Variable value_of : bytes -> option bytes.
  Variable class_of : bytes -> bytes.
  Variable val : bytes -> bytes.

  (** References in [done] are replaced. *)
  Definition eval (done : list bytes) (x : piece) : bytes :=
    match x with
    | T t => t | O => str "{" | C => str "}" | E e => val e
    | R r => if in_dec (list_eq_dec N.eq_dec) r done then str "." ++ class_of r else ref_text r
    end.
  Lemma ref_no c r : ok_ref r -> c <> 91 -> c <> 93 -> (c < 48 \/ 122 < c) -> ~ In c (ref_text r).
  Proof.
    intros Hr A B D Q. destruct (ok_ref_chars r Hr) as [_ Hc]. rewrite Forall_forall in Hc. change (ref_text r) with ([91] ++ r ++ [93]) in Q. apply in_app_or in Q.
    destruct Q as [[Q|[]]|Q]; [congruence|]. apply in_app_or in Q. destruct Q as [Q|[Q|[]]]; [|congruence]. specialize (Hc c Q). unfold ident_char in Hc. lia.
  Qed.
  Lemma static_ok pcs : Forall closed pcs -> flat_map piece_exprs pcs = [] ->
    replace (str "}}") (str "}") (replace (str "{{") (str "{") (flat_map (render []) pcs)) = flat_map (eval []) pcs.
  Proof.
    intros Hc He. set (half := fun x => match x with C => str "}}" | x => eval [] x end).
    assert (A : replace (str "{{") (str "{") (flat_map (render []) pcs) = flat_map half pcs).
    { change (str "{{") with [123; 123]. induction Hc as [|x pcs Hx _ IH]; [reflexivity|]. cbn [flat_map]. destruct x as [t| | |e|r]; cbn [render half eval piece_exprs flat_map] in *.
      - rewrite repl_pass_c by apply Hx. f_equal. apply IH, He.
      - change (str "{{") with [123; 123]. rewrite repl_hit. f_equal. apply IH, He.
      - rewrite repl_pass_c by notin. f_equal. apply IH, He.
      - discriminate He.
      - rewrite repl_pass_c by (apply ref_no; [exact Hx|lia|lia|lia]). f_equal. apply IH, He. }
    rewrite A. clear A. change (str "}}") with [125; 125]. induction Hc as [|x pcs Hx _ IH]; [reflexivity|]. cbn [flat_map]. destruct x as [t| | |e|r]; cbn [half eval piece_exprs flat_map] in *.
    - rewrite repl_pass_c by apply Hx. f_equal. apply IH, He.
    - rewrite repl_pass_c by notin. f_equal. apply IH, He.
    - change (str "}}") with [125; 125]. rewrite repl_hit. f_equal. apply IH, He.
    - discriminate He.
    - rewrite repl_pass_c by (apply ref_no; [exact Hx|lia|lia|lia]). f_equal. apply IH, He.
  Qed.
  Lemma format_text arg t y n r : ~ In 123 t -> ~ In 125 t -> format_n arg n y = Some r -> format_n arg (length t + n) (t ++ y) = Some (t ++ r).
  Proof.
    intros A B H. induction t as [|c t IH]; [exact H|]. cbn [length Nat.add app format_n].
    destruct (N.eqb_spec c 123) as [->|]; [elim A; left; reflexivity|]. destruct (N.eqb_spec c 125) as [->|]; [elim B; left; reflexivity|].
    rewrite IH; [reflexivity|intros Q; apply A; right; exact Q|intros Q; apply B; right; exact Q].
  Qed.
  Lemma until_ok k y : (forall c, In c k -> 97 <= c /\ c <= 122) -> until_brace (k ++ 125 :: y) = Some (k, y).
  Proof.
    induction k as [|c k IH]; intros H; [reflexivity|]. cbn [app until_brace]. destruct (H c (or_introl eq_refl)) as [H1 H2].
    destruct (N.eqb_spec c 125); [lia|]. destruct (N.eqb_spec c 123); [lia|]. rewrite IH; [reflexivity|]. intros d Hd. apply H. right. exact Hd.
  Qed.
  Lemma format_more arg s : forall n m r, format_n arg n s = Some r -> (n <= m)%nat -> format_n arg m s = Some r.
  Proof.
    intros n. revert s. induction n as [|n IH]; intros s m r H L; [discriminate|]. destruct m as [|m]; [lia|]. cbn [format_n] in *.
    destruct s as [|c t]; [exact H|]. destruct (c =? 123).
    - destruct (strip (str "{") t) as [t'|].
      + destruct (format_n arg n t') as [x|] eqn:F; [|discriminate]. rewrite (IH _ m _ F) by lia. exact H.
      + destruct (until_brace t) as [[a t']|]; [|discriminate]. destruct (arg a); [|discriminate]. destruct (format_n arg n t') as [x|] eqn:F; [|discriminate].
        rewrite (IH _ m _ F) by lia. exact H.
    - destruct (c =? 125).
      + destruct (strip (str "}") t) as [t'|]; [|discriminate]. destruct (format_n arg n t') as [x|] eqn:F; [|discriminate]. rewrite (IH _ m _ F) by lia. exact H.
      + destruct (format_n arg n t) as [x|] eqn:F; [|discriminate]. rewrite (IH _ m _ F) by lia. exact H.
  Qed.
  Lemma format_ok ps pcs : numbered ps -> Forall closed pcs -> incl (flat_map piece_exprs pcs) (map fst ps) ->
    (forall e, In e (map fst ps) -> value_of e = Some (val e)) ->
    format (argument value_of ps) (flat_map (render ps) pcs) = Some (flat_map (eval []) pcs).
  Proof.
    intros Hn Hc Hi Hv. unfold format. set (arg := argument value_of ps).
    assert (G : format_n arg (length (flat_map (render ps) pcs) + 1) (flat_map (render ps) pcs) = Some (flat_map (eval []) pcs)).
    { induction Hc as [|x pcs Hx _ IH]; [reflexivity|]. cbn [flat_map]. rewrite app_length, <- Nat.add_assoc.
      assert (Hi' : incl (flat_map piece_exprs pcs) (map fst ps)) by (intros e He; apply Hi; cbn [flat_map]; apply in_or_app; right; exact He).
      specialize (IH Hi'). destruct x as [t| | |e|r]; cbn [render eval].
      - apply format_text; [apply Hx|apply Hx|exact IH].
      - change (length (str "{{") + (length (flat_map (render ps) pcs) + 1))%nat with (S (S (length (flat_map (render ps) pcs) + 1))).
        change (match format_n arg (S (length (flat_map (render ps) pcs) + 1)) (flat_map (render ps) pcs) with Some r => Some (123 :: r) | None => None end = Some (str "{" ++ flat_map (eval []) pcs)).
        rewrite (format_more _ _ _ (S (length (flat_map (render ps) pcs) + 1)) _ IH) by lia. reflexivity.
      - change (length (str "}}") + (length (flat_map (render ps) pcs) + 1))%nat with (S (S (length (flat_map (render ps) pcs) + 1))).
        change (match format_n arg (S (length (flat_map (render ps) pcs) + 1)) (flat_map (render ps) pcs) with Some r => Some (125 :: r) | None => None end = Some (str "}" ++ flat_map (eval []) pcs)).
        rewrite (format_more _ _ _ (S (length (flat_map (render ps) pcs) + 1)) _ IH) by lia. reflexivity.
      - assert (He : In e (map fst ps)) by (apply Hi; left; reflexivity).
        destruct (lookup e ps) as [k|] eqn:L; [|apply lookup_none in L; contradiction].
        assert (Kc : forall c, In c (key_of ps e) -> 97 <= c /\ c <= 122) by (intros c; apply key_of_chars, Hn).
        assert (Kn : key_of ps e = k) by (unfold key_of; rewrite L; reflexivity).
        rewrite braced_app. rewrite <- (app_nil_r (braced ps e)), braced_app. rewrite Kn in *.
        cbn [length app Nat.add format_n]. change (123 =? 123) with true. cbn iota.
        assert (S1 : strip (str "{") (k ++ 125 :: flat_map (render ps) pcs) = None).
        { destruct k as [|c k]; [reflexivity|]. apply (strip_hd 123 []); [|discriminate]. cbn. specialize (Kc c (or_introl eq_refl)). lia. }
        rewrite S1, until_ok by exact Kc. unfold arg, argument. rewrite (by_key_ok ps e k Hn L), (Hv e He). fold (argument value_of ps). fold arg.
        rewrite (format_more _ _ _ _ _ IH); [reflexivity|]. lia.
      - apply format_text; [apply ref_no; [exact Hx|lia|lia|lia]|apply ref_no; [exact Hx|lia|lia|lia]|exact IH]. }
    rewrite <- Nat.add_1_r. exact G.
  Qed.
  (** No bracket but those of references. *)
  Definition bracketless (x : piece) : Prop := match x with T t => ~ In 91 t | E e => ~ In 91 (val e) | R r => ok_ref r /\ ~ In 91 (class_of r) | _ => True end.
  Lemma refs_one q done pcs : ok_ref q -> Forall bracketless pcs ->
    replace (ref_text q) (str "." ++ class_of q) (flat_map (eval done) pcs) = flat_map (eval (q :: done)) pcs.
  Proof.
    intros Hq. change (ref_text q) with (91 :: q ++ [93]). induction 1 as [|x pcs Hx _ IH]; [reflexivity|]. cbn [flat_map].
    destruct x as [t| | |e|r]; cbn [eval bracketless] in *.
    - rewrite repl_pass_c by exact Hx. f_equal. exact IH.
    - rewrite repl_pass_c by notin. f_equal. exact IH.
    - rewrite repl_pass_c by notin. f_equal. exact IH.
    - rewrite repl_pass_c by exact Hx. f_equal. exact IH.
    - destruct Hx as [Hr Hb]. destruct (in_dec (list_eq_dec N.eq_dec) r done) as [I|I].
      + destruct (in_dec (list_eq_dec N.eq_dec) r (q :: done)) as [J|J]; [|elim J; right; exact I].
        rewrite repl_pass_c; [f_equal; exact IH|]. intros [Q|Q]; [discriminate Q|exact (Hb Q)].
      + destruct (in_dec (list_eq_dec N.eq_dec) r (q :: done)) as [J|J].
        * destruct J as [J|J]; [subst r|contradiction]. change (ref_text q) with (91 :: q ++ [93]). rewrite repl_hit. f_equal. exact IH.
        * assert (Ne : q <> r) by (intros ->; apply J; left; reflexivity).
          change (ref_text r) with (91 :: r ++ [93]). cbn [app]. rewrite repl_miss.
          -- f_equal. rewrite repl_pass_c; [f_equal; exact IH|]. intros Q. apply in_app_or in Q. destruct Q as [Q|[Q|[]]]; [|discriminate Q].
             destruct (ok_ref_chars r Hr) as [_ Hc]. rewrite Forall_forall in Hc. specialize (Hc _ Q). unfold ident_char in Hc. lia.
          -- cbn [strip]. rewrite N.eqb_refl. destruct (ok_ref_chars r Hr) as [_ Rc]. destruct (ok_ref_chars q Hq) as [_ Qc]. clear -Ne Rc Qc.
             revert r Ne Rc. induction q as [|a q IH]; intros [|b r] Ne Rc; [congruence| | |].
             ++ inversion Rc; subst. cbn [app strip]. destruct (N.eqb_spec 93 b) as [<-|]; [unfold ident_char in *; lia|reflexivity].
             ++ inversion Qc; subst. cbn [app strip]. destruct (N.eqb_spec a 93) as [->|]; [unfold ident_char in *; lia|reflexivity].
             ++ inversion Rc; subst. inversion Qc; subst. cbn [app strip]. destruct (N.eqb_spec a b) as [->|]; [|reflexivity]. apply IH; [assumption|congruence|assumption].
  Qed.
  Lemma refs_all qs done pcs : Forall ok_ref qs -> Forall bracketless pcs ->
    fold_left (fun o r => replace (str "[" ++ r ++ str "]") (str "." ++ class_of r) o) qs (flat_map (eval done) pcs) = flat_map (eval (rev qs ++ done)) pcs.
  Proof.
    intros Hq Hp. revert done. induction Hq as [|q qs Hq _ IH]; intros done; [reflexivity|]. cbn [fold_left rev].
    fold (ref_text q). rewrite refs_one by assumption. rewrite IH, <- app_assoc. reflexivity.
  Qed.
End Final.

(** *** The expected text *)

Lemma between_join sep l : between sep l = join sep l.
Proof. induction l as [|x [|y l] IH]; [reflexivity|reflexivity|]. cbn [between join] in *. rewrite IH. reflexivity. Qed.
Section Expect.
  Variable class_of : bytes -> bytes.
  Variable val : bytes -> bytes.
  Notation eval := (eval class_of val).
  Notation cls := (fun r => str "." ++ class_of r).
  Lemma val_eval done v : flat_map (eval done) (val_pieces v) = val_out val v.
  Proof.
    induction v; cbn [val_pieces val_out flat_map eval]; rewrite ?app_nil_r; try reflexivity.
    rewrite flat_map_app, IHv. f_equal. f_equal. destruct (px v); reflexivity.
  Qed.
  Lemma lines_eval done i : incl (refs_of i) done -> map (flat_map (eval done)) (lines i) = out val cls i.
  Proof.
    assert (K : forall l, Forall (fun p : bytes * item => incl (refs_of (snd p)) done -> map (flat_map (eval done)) (lines (snd p)) = out val cls (snd p)) l ->
      incl (flat_map (fun p => refs_of (snd p)) l) done ->
      map (flat_map (eval done)) (flat_map (fun p => lines (snd p)) l) = flat_map (fun p => out val cls (snd p)) l).
    { intros l H. induction H as [|p l Hp _ IH]; [reflexivity|]. cbn [flat_map]. intros Hi. rewrite map_app, Hp, IH; [reflexivity| |].
      - intros x Hx. apply Hi, in_or_app. right. exact Hx.
      - intros x Hx. apply Hi, in_or_app. left. exact Hx. }
    induction i as [m w v|sel refs w1 l w2 w3 IH|w1 q w2 l w3 w4 IH|w1 t w2|w1 p w2 fr w3] using item_rect'; cbn [lines out map flat_map refs_of]; intros Hi.
    - cbn [eval]. rewrite flat_map_app, val_eval. cbn [flat_map eval]. rewrite <- !app_assoc. reflexivity.
    - f_equal. rewrite !flat_map_app, !pbetween_flat, K; [|exact IH|intros x Hx; apply Hi, in_or_app; right; exact Hx]. change between with join. f_equal.
      unfold sel_pieces, sel_out. rewrite map_app, map_map. cbn [flat_map eval app]. f_equal. f_equal.
      + destruct sel; [|reflexivity]. cbn [map flat_map eval]. rewrite app_nil_r. reflexivity.
      + apply map_ext_in. intros r Hr. cbn [flat_map eval]. rewrite app_nil_r. destruct (in_dec (list_eq_dec N.eq_dec) (snd r) done) as [|J]; [reflexivity|].
        elim J. apply Hi, in_or_app. left. apply in_map, Hr.
    - f_equal. cbn [eval]. rewrite !flat_map_app, !pbetween_flat, K; [|exact IH|exact Hi]. change between with join. rewrite <- app_assoc. reflexivity.
    - reflexivity.
    - f_equal. cbn [eval]. rewrite <- !app_assoc. f_equal. f_equal. rewrite flat_map_app. cbn [flat_map eval]. f_equal. destruct fr as [[l w]|]; [|reflexivity].
      rewrite !flat_map_app, pbetween_flat, map_map. change between with join. cbn [flat_map eval]. rewrite app_nil_r. change (str " { ") with (str " " ++ str "{" ++ str " ").
      rewrite <- !app_assoc. do 5 f_equal. apply map_ext. intros s. unfold step_pieces, step_out. rewrite !flat_map_app, pbetween_flat, map_map. change between with join.
      assert (M : map (fun d => flat_map (eval done) (decl_pieces d)) (s_rules s) = map (fun d => decl_out val (snd d)) (s_rules s)).
      { apply map_ext. intros [w0 [[n w'] v]]. cbn [decl_pieces flat_map eval decl_out snd].
        rewrite flat_map_app, val_eval. cbn [flat_map eval]. rewrite <- !app_assoc. reflexivity. }
      rewrite M. cbn [flat_map eval]. rewrite <- !app_assoc. reflexivity.
  Qed.
  Lemma lines_all_eval done l : incl (flat_map (fun p => refs_of (snd p)) l) done ->
    map (flat_map (eval done)) (lines_all l) = flat_map (fun p => out val cls (snd p)) l.
  Proof.
    induction l as [|p l IH]; [reflexivity|]. cbn [flat_map lines_all]. intros Hi. rewrite map_app, lines_eval; [f_equal; apply IH|].
    - intros x Hx. apply Hi, in_or_app. right. exact Hx.
    - intros x Hx. apply Hi, in_or_app. left. exact Hx.
  Qed.
End Expect.
