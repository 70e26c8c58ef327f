(** One pass over the subscriptions that have something to do is enough: how the transaction of the graph and the user interface fit together (C92). *)
From Coq Require Import String List NArith Bool Lia Permutation.
From Verif Require Import CodecModel DomWire DomModel DomSort DomMacroModel UiModel UiSteps UiProps UiTheorems.
From Verif Require DomMacroBuild.
Import ListNotations.
Local Open Scope string_scope.
Local Open Scope list_scope.
Local Open Scope N_scope.

Section Once.
  Context {K V L I KT : Type}.
  Variable veq : V -> V -> bool.
  Variable ieq : I -> I -> bool.
  Variable keq : KT -> KT -> bool.
  Variable ord : list (live K V L I KT) -> list (live K V L I KT).
  Hypothesis veq_ok : forall a b, veq a b = true <-> a = b.
  Hypothesis ieq_ok : forall a b, ieq a b = true <-> a = b.
  Hypothesis keq_ok : forall a b, keq a b = true <-> a = b.
  Hypothesis ord_ok : forall l, Permutation l (ord l).
  Notation env := (env K V L I).
  Notation tmpl := (tmpl K V L I KT).
  Notation live := (live K V L I KT).
  Notation ui := (ui K V L I KT).
  Notation event := (event K V L I).
  Notation battr := (battr K V).
  Notation bdom := (DomModel.bdom bytes).
  Notation make := (make keq).
  Notation call := (call veq ieq keq ord).
  Notation call_all := (call_all veq ieq keq ord).
  Notation step := (ui_step veq ieq keq ord).
  Notation run := (ui_run veq ieq keq ord).
  Notation quiet := (quiet veq ieq keq ord).

  Section Env.
    Variable E : env.
    (** The subscriptions whose last value is not the one there is. *)
    Fixpoint attr_olds (i : N) (n : nat) (bs : list battr) : list (N * nat) :=
      match bs with
      | [] => []
      | b :: r => (if veq (a_last b) (e_val E (a_key b)) then [] else [(i, n)]) ++ attr_olds i (S n) r
      end.
    Fixpoint olds (l : live) : list (N * nat) :=
      match l with
      | LText _ _ => []
      | LBound i k _ v => if veq v (e_val E k) then [] else [(i, O)]
      | LElem i _ bs ks => attr_olds i 0 bs ++ flat_map olds ks
      | LFrag _ ls => flat_map olds ls
      | LValue i _ k _ v None => if veq v (e_val E k) then [] else [(i, O)]
      | LValue i _ k _ v (Some x) => (if veq v (e_val E k) then [] else [(i, O)]) ++ olds x
      | LList i _ k _ _ v cur => (if leq ieq v (e_list E k) then [] else [(i, O)]) ++ flat_map (fun e => olds (snd e)) cur
      end.
    Notation stale := (stale veq ieq E).
    Lemma olds_snd {A} (cur : list (A * live)) : flat_map (fun e => olds (snd e)) cur = flat_map olds (map snd cur).
    Proof. induction cur; cbn; congruence. Qed.
    Lemma subs_snd {A} (cur : list (A * live)) : flat_map (fun e => subs (snd e)) cur = flat_map subs (map snd cur).
    Proof. induction cur; cbn; congruence. Qed.
    Lemma one_len (b : bool) (p : N * nat) : length (if b then [] else [p]) = old b.
    Proof. destruct b; reflexivity. Qed.
    Lemma attr_olds_len i bs : forall n, length (attr_olds i n bs) = sum (stale_attr veq E) bs.
    Proof. induction bs as [|b bs IH]; intros n; cbn; auto. rewrite app_length, one_len, IH. reflexivity. Qed.
    Lemma olds_len_all ls : Forall (fun l => length (olds l) = stale l) ls -> length (flat_map olds ls) = sum stale ls.
    Proof. induction 1; cbn; auto. rewrite app_length. lia. Qed.
    Lemma olds_len l : length (olds l) = stale l.
    Proof.
      induction l as [i t|i k f v|i n a ks IH|i ls IH|i p k r v|i p k r v x IH|i p k key r v cur IH] using live_ind2; cbn [olds UiProps.stale]; rewrite ?app_length, ?one_len, ?attr_olds_len; auto.
      - rewrite olds_len_all; auto.
      - rewrite olds_len_all; auto.
      - rewrite olds_snd, olds_len_all; auto. rewrite sum_snd. auto.
    Qed.
    Lemma attr_olds_in i bs : forall n c j, In (c, j) (attr_olds i n bs) -> c = i /\ (n <= j < n + length bs)%nat.
    Proof.
      induction bs as [|b bs IH]; intros n c j H; cbn in *; [contradiction|]. apply in_app_or in H. destruct H as [H|H].
      - destruct (veq _ _); [contradiction|]. destruct H as [H|[]]. injection H as <- <-. split; auto. lia.
      - apply IH in H. split; [apply H|lia].
    Qed.
    Lemma one_in (b : bool) (p q : N * nat) : In q (if b then [] else [p]) -> q = p.
    Proof. destruct b; intros H; [contradiction|]. destruct H as [H|[]]; auto. Qed.
    Lemma olds_subs l : incl (olds l) (subs l).
    Proof.
      assert (SL : forall ls, Forall (fun l => incl (olds l) (subs l)) ls -> incl (flat_map olds ls) (flat_map subs ls)).
      { intros ls F q Hq. apply in_flat_map in Hq. destruct Hq as (x & X1 & X2). apply in_flat_map. exists x. split; auto. rewrite Forall_forall in F. apply (F x X1 q X2). }
      induction l as [i t|i k f v|i n a ks IH|i ls IH|i p k r v|i p k r v x IH|i p k key r v cur IH] using live_ind2; intros [c j] Hq; cbn [olds subs] in *.
      - contradiction.
      - apply one_in in Hq. left. auto.
      - apply in_app_or in Hq. apply in_or_app. destruct Hq as [Hq|Hq]; [left|right; apply SL; auto]. apply attr_olds_in in Hq. destruct Hq as [-> Hq]. apply in_map. apply in_seq. auto.
      - apply SL; auto.
      - apply one_in in Hq. left. auto.
      - apply in_app_or in Hq. destruct Hq as [Hq|Hq]; [apply one_in in Hq; left; auto|right; auto].
      - apply in_app_or in Hq. destruct Hq as [Hq|Hq]; [apply one_in in Hq; left; auto|right]. rewrite subs_snd. rewrite olds_snd in Hq. apply SL; auto.
    Qed.
    Lemma olds_ids l : forall c j, In (c, j) (olds l) -> In c (ids l).
    Proof.
      assert (SL : forall ls, Forall (fun l => forall c j, In (c, j) (olds l) -> In c (ids l)) ls -> forall c j, In (c, j) (flat_map olds ls) -> In c (flat_map ids ls)).
      { intros ls F c j Hq. apply in_flat_map in Hq. destruct Hq as (x & X1 & X2). apply in_flat_map. exists x. split; auto. rewrite Forall_forall in F. apply (F x X1 c j X2). }
      induction l as [i t|i k f v|i n a ks IH|i ls IH|i p k r v|i p k r v x IH|i p k key r v cur IH] using live_ind2; intros c j Hq; cbn [olds] in *.
      - contradiction.
      - apply one_in in Hq. injection Hq as -> _. left. auto.
      - apply in_app_or in Hq. destruct Hq as [Hq|Hq]. apply attr_olds_in in Hq. left. symmetry. apply Hq. right. eapply SL; eauto.
      - right. eapply SL; eauto.
      - apply one_in in Hq. injection Hq as -> _. left. auto.
      - apply in_app_or in Hq. destruct Hq as [Hq|Hq]. apply one_in in Hq. injection Hq as -> _. left. auto. right. eauto.
      - rewrite ids_list. apply in_app_or in Hq. destruct Hq as [Hq|Hq]. apply one_in in Hq. injection Hq as -> _. left. auto. right. rewrite olds_snd in Hq. eapply SL; eauto.
    Qed.

    Variables R n0 : N.
    Hypothesis P1 : 4 <= n0.
    Hypothesis P2 : R < n0.
    (** What is made is up to date. *)
    Lemma made_fresh t w P ref w' : olds (fst (snd (fst (make E t w)) P ref w')) = [].
    Proof. apply length_zero_iff_nil. rewrite olds_len. apply (make_fresh veq ieq keq ord veq_ok ieq_ok keq_ok ord_ok R n0 P1 P2). Qed.
    Lemma middle_olds key mk P : (forall i w P ref w', olds (fst (snd (fst (mk i w)) P ref w')) = []) -> forall items last cache acc w,
      incl (flat_map olds (map snd (fst (fst (middle_loop (I:=I) keq key mk P items last cache acc w))))) (flat_map olds (map snd acc) ++ flat_map olds (map snd cache)).
    Proof.
      intros Mk. induction items as [|x items IH]; intros last cache acc w; cbn [middle_loop]; [cbn [fst]; apply incl_appl, incl_refl|].
      destruct (take_key keq (key x) cache) as [[n c1]|] eqn:Tk.
      - apply (take_key_some keq keq_ok) in Tk. destruct Tk as (ca & cb & -> & ->).
        eapply incl_tran; [apply IH|]. cbn [map snd flat_map]. rewrite !map_app, !flat_map_app. cbn [map snd flat_map].
        intros q Hq. rewrite !in_app_iff in *. tauto.
      - pose proof (Mk x w P (Some last)) as M. destruct (mk x w) as [[i m] w1]. specialize (M w1). cbn [fst snd] in M. destruct (m P (Some last) w1) as [n w2]. cbn [fst] in M.
        eapply incl_tran; [apply IH|]. cbn [map snd flat_map]. rewrite M. apply incl_refl.
    Qed.
    Lemma reorder_olds P i key r cur new w : incl (flat_map olds (map snd (fst (reorder ieq keq ord E P i key r cur new w)))) (flat_map olds (map snd cur)).
    Proof.
      unfold reorder. destruct (pairs_top ieq cur new) as [[top cur1] new1] eqn:E1. apply (pairs_top_eq ieq ieq_ok) in E1. destruct E1 as [-> ->].
      destruct (pairs_bottom ieq cur1 new1) as [[bottom cur2] new2] eqn:E2. apply (pairs_bottom_eq ieq ieq_ok) in E2. destruct E2 as [-> ->].
      pose proof (middle_olds key (fun i w => make E (r i) w) P (fun i => made_fresh (r i)) (rev new2) (match bottom with (_, x) :: _ => l_id x | [] => i end)
        (map (fun e => (key (fst e), snd e)) cur2) [] w) as M.
      destruct (middle_loop keq key _ P (rev new2) _ _ [] w) as [[mid rest] w1]. cbn [fst] in *. rewrite map_map in M. cbn in M. change (fun x : I * live => snd x) with (@snd I live) in M.
      rewrite !map_app, !flat_map_app. intros q Hq. rewrite !in_app_iff in *. specialize (M q). tauto.
    Qed.
    Lemma nth_olds i bs : forall n j w, incl (attr_olds i n (fst (call_nth veq E i j bs w))) (attr_olds i n bs) /\ ~ In (i, (n + j)%nat) (attr_olds i n (fst (call_nth veq E i j bs w))).
    Proof.
      induction bs as [|b bs IH]; intros n j w; cbn [call_nth].
      - destruct j; (split; [apply incl_refl|intros []]).
      - destruct j as [|j].
        + cbn [call_nth]. unfold call_attr. destruct (veq (a_last b) (e_val E (a_key b))) eqn:Eb; cbn; rewrite ?Eb, ?(veq_refl veq veq_ok); cbn.
          * split. apply incl_refl. intros X. apply attr_olds_in in X. lia.
          * split. apply incl_tl, incl_refl. intros X. apply attr_olds_in in X. lia.
        + cbn [call_nth]. destruct (IH (S n) j w) as [U1 U2]. destruct (call_nth veq E i j bs w) as [bs1 w1]. cbn [fst attr_olds] in *. split.
          * intros q Hq. rewrite in_app_iff in *. specialize (U1 q). tauto.
          * rewrite in_app_iff. intros [X|X]. apply one_in in X. injection X. lia. apply U2. replace (S n + j)%nat with (n + S j)%nat by lia. auto.
    Qed.
    Lemma map_combine_snd {A B} (l : list A) : forall ls : list B, length l = length ls -> map snd (combine l ls) = ls.
    Proof. induction l; intros [|b ls] H; cbn in *; try discriminate; auto. rewrite IHl; auto. Qed.
    (** A call leaves nothing new to do, and not what was called. *)
    Definition shrinks (l : live) : Prop := forall c j w, incl (olds (fst (call E c j l w))) (olds l) /\ (NoDup (ids l) -> ~ In (c, j) (olds (fst (call E c j l w)))).
    Lemma all_shrinks ls : Forall shrinks ls -> forall c j w, incl (flat_map olds (fst (call_all E c j ls w))) (flat_map olds ls) /\
      (NoDup (flat_map ids ls) -> ~ In (c, j) (flat_map olds (fst (call_all E c j ls w)))).
    Proof.
      induction 1 as [|x ls B F IH]; intros c j w; cbn [UiModel.call_all].
      - split; [apply incl_refl|intros _ []].
      - fold (call_all E c j). destruct (B c j w) as [B1 B2]. destruct (call E c j x w) as [y w1].
        destruct (IH c j w1) as [I1 I2]. destruct (call_all E c j ls w1) as [ys w2]. cbn [fst flat_map] in *. split.
        + intros q Hq. rewrite in_app_iff in *. specialize (B1 q). specialize (I1 q). tauto.
        + intros ND. apply NoDup_app_inv in ND. destruct ND as (N1 & N2 & _). rewrite in_app_iff. specialize (B2 N1). specialize (I2 N2). tauto.
    Qed.
    Lemma call_shrinks l : shrinks l.
    Proof.
      assert (own_ne : forall (b : bool) (i c : N) (j : nat), i <> c -> ~ In (c, j) (if b then [] else [(i, O)])).
      { intros b i c j Ne X. apply one_in in X. injection X as -> _. auto. }
      induction l as [i t|i k f v|i n a ks IH|i ls IH|i p k r v|i p k r v x IH|i p k key r v cur IH] using live_ind2; intros c j w.
      - cbn. split; [apply incl_refl|auto].
      - cbn [UiModel.call]. destruct (N.eqb_spec i c) as [->|Ne]; [destruct (veq v (e_val E k)) eqn:Ev|]; cbn [fst olds]; rewrite ?Ev, ?(veq_refl veq veq_ok).
        + split; [apply incl_refl|auto].
        + split; [intros q []|auto].
        + split; [apply incl_refl|auto].
      - rewrite call_elem_eq. destruct (N.eqb_spec i c) as [->|Ne].
        + destruct (nth_olds c a 0 j w) as [U1 U2]. destruct (call_nth veq E c j a w) as [bs w1]. cbn [fst olds ids] in *. split.
          * intros q Hq. rewrite in_app_iff in *. specialize (U1 q). tauto.
          * intros ND. inversion ND as [|? ? N1 N2]; subst. rewrite in_app_iff. intros [X|X]; [auto|]. apply N1. apply in_flat_map in X. destruct X as (z & Z1 & Z2).
            apply in_flat_map. exists z. split; auto. eapply olds_ids; eauto.
        + destruct (all_shrinks ks IH c j w) as [U1 U2]. destruct (call_all E c j ks w) as [ks1 w1]. cbn [fst olds ids] in *. split.
          * intros q Hq. rewrite in_app_iff in *. specialize (U1 q). tauto.
          * intros ND. inversion ND as [|? ? N1 N2]; subst. rewrite in_app_iff. intros [X|X]. apply attr_olds_in in X. destruct X. congruence. apply U2; auto.
      - rewrite call_frag_eq. destruct (all_shrinks ls IH c j w) as [U1 U2]. destruct (call_all E c j ls w) as [ls1 w1]. cbn [fst olds ids] in *. split; auto.
        intros ND. inversion ND; subst. auto.
      - cbn [UiModel.call]. destruct (N.eqb_spec i c) as [->|Ne]; [|split; [apply incl_refl|intros _; cbn; auto]].
        destruct (veq v (e_val E k)) eqn:Ev; [cbn [fst olds]; rewrite Ev; split; [apply incl_refl|auto]|].
        destruct (r (e_val E k)) as [t1|]; [|cbn [fst olds]; rewrite (veq_refl veq veq_ok); split; [intros q []|auto]].
        pose proof (made_fresh t1 w p (Some c)) as B. destruct (make E t1 w) as [[i1 m] w1]. specialize (B w1). cbn [fst snd] in B. destruct (m p (Some c) w1) as [y w2].
        cbn [fst olds] in *. rewrite (veq_refl veq veq_ok), B. split; [intros q []|auto].
      - cbn [UiModel.call]. destruct (N.eqb_spec i c) as [->|Ne].
        + destruct (veq v (e_val E k)) eqn:Ev.
          * split; [apply incl_refl|]. cbn [fst olds ids]. rewrite Ev. intros ND X. inversion ND as [|? ? N1 N2]; subst. apply N1. eapply olds_ids; eauto.
          * destruct (r (e_val E k)) as [t1|]; [|cbn [fst olds]; rewrite (veq_refl veq veq_ok); split; [intros q []|auto]].
            pose proof (made_fresh t1 w p (Some c)) as B. destruct (make E t1 w) as [[i1 m] w1]. specialize (B w1). cbn [fst snd] in B. destruct (m p (Some c) w1) as [y w2].
            cbn [fst olds] in *. rewrite (veq_refl veq veq_ok), B. split; [intros q []|auto].
        + destruct (IH c j w) as [U1 U2]. destruct (call E c j x w) as [y w1]. cbn [fst olds ids] in *. split.
          * intros q Hq. rewrite in_app_iff in *. specialize (U1 q). tauto.
          * intros ND. inversion ND as [|? ? N1 N2]; subst. rewrite in_app_iff. intros [X|X]. eapply own_ne; eauto. apply U2; auto.
      - rewrite call_list_eq, ids_list. destruct (N.eqb_spec i c) as [->|Ne].
        + destruct (leq ieq v (e_list E k)) eqn:Ev.
          * split; [apply incl_refl|]. cbn [fst olds]. rewrite Ev, olds_snd. intros ND X. inversion ND as [|? ? N1 N2]; subst. apply N1. apply in_flat_map in X. destruct X as (z & Z1 & Z2).
            apply in_flat_map. exists z. split; auto. eapply olds_ids; eauto.
          * pose proof (reorder_olds p c key r cur (e_list E k) w) as RS. destruct (reorder ieq keq ord E p c key r cur (e_list E k) w) as [cur1 w1].
            cbn [fst olds] in *. rewrite Ev, (proj2 (leq_ok ieq ieq_ok _ _) eq_refl), !olds_snd. split.
            { intros q Hq. cbn in *. right. auto. }
            { intros ND X. inversion ND as [|? ? N1 N2]; subst. apply N1. cbn in X. apply RS in X. apply in_flat_map in X. destruct X as (z & Z1 & Z2).
              apply in_flat_map. exists z. split; auto. eapply olds_ids; eauto. }
        + rewrite call_items_eq. destruct (all_shrinks (map snd cur) IH c j w) as [U1 U2]. pose proof (call_all_len veq ieq keq ord E c j (map snd cur) w) as Ln.
          destruct (call_all E c j (map snd cur) w) as [ls1 w1]. cbn [fst olds] in *. rewrite !olds_snd, map_combine_snd by (rewrite map_length; rewrite map_length in Ln; auto). split.
          * intros q Hq. rewrite in_app_iff in *. specialize (U1 q). tauto.
          * intros ND. inversion ND as [|? ? N1 N2]; subst. rewrite in_app_iff. intros [X|X]. eapply own_ne; eauto. apply U2; auto.
    Qed.
  End Env.

  Section Pass.
    Variable s0 : bdom.
    Variables R n0 : N.
    Hypothesis Pg : page s0 R n0.
    Variable t : tmpl.
    Hypothesis St : settled t.
    Lemma pass cs : forall u s, at_ s0 R n0 t u s -> (forall q, In q (olds (ui_env u) (ui_live u)) -> In q cs) ->
      olds (ui_env (run u (map (fun p => Call (fst p) (snd p)) cs))) (ui_live (run u (map (fun p => Call (fst p) (snd p)) cs))) = [].
    Proof.
      induction cs as [|[c j] cs IH]; intros u s A H.
      - cbn. destruct (olds (ui_env u) (ui_live u)) as [|q l]; auto. destruct (H q). left; auto.
      - cbn [map fst snd]. change (run u (Call c j :: map (fun p => Call (fst p) (snd p)) cs)) with (run (step u (Call c j)) (map (fun p => Call (fst p) (snd p)) cs)).
        destruct (step_at veq ieq keq ord veq_ok ieq_ok keq_ok ord_ok s0 R n0 Pg t St u s (Call c j) A) as (s1 & A1). eapply IH; [exact A1|]. intros q Hq.
        destruct (call_shrinks (ui_env u) R n0 (pg_first _ _ _ Pg) (pg_root _ _ _ Pg) (ui_live u) c j (ui_w u)) as [U1 U2]. destruct (at_own _ _ _ _ _ _ A) as (ND & _). specialize (U2 ND).
        cbn [ui_step] in Hq. destruct (call (ui_env u) c j (ui_live u) (ui_w u)) as [l w]. cbn [ui_env ui_live fst] in *.
        destruct (H q (U1 q Hq)) as [<-|X]; auto. contradiction.
    Qed.
    Lemma olds_quiet u : olds (ui_env u) (ui_live u) = [] -> quiet u.
    Proof. intros O. apply (left_quiet veq ieq keq ord veq_ok ieq_ok keq_ok ord_ok s0 R n0 Pg). unfold left_. rewrite <- olds_len, O. reflexivity. Qed.
    Lemma old_moves u s c j : at_ s0 R n0 t u s -> In (c, j) (olds (ui_env u) (ui_live u)) -> In (c, j) (subs (ui_live u)) /\ step u (Call c j) <> u.
    Proof.
      intros A H. split; [eapply olds_subs; eauto|]. intros X. destruct (call_shrinks (ui_env u) R n0 (pg_first _ _ _ Pg) (pg_root _ _ _ Pg) (ui_live u) c j (ui_w u)) as [_ U2].
      destruct (at_own _ _ _ _ _ _ A) as (ND & _). apply (U2 ND). apply (f_equal ui_live) in X. cbn [ui_step] in X. destruct (call (ui_env u) c j (ui_live u) (ui_w u)) as [l w]. cbn [ui_live fst] in *.
      rewrite X. auto.
    Qed.
  End Pass.

  (** What has just been put on the page is at rest; and after any history: when the values change, then one pass over the subscriptions there are at that moment
      that have something to do, each called once and in whatever order, and among others or not, leads to rest.  Subscriptions that are made during the pass need no call;
      those whose nodes went away do nothing when they are called. *)
  Theorem C92_one_pass (s0 : bdom) (R n0 : N) (t : tmpl) (E : env) (es : list event) (E' : env) (cs : list (N * nat)) :
    page s0 R n0 -> settled t ->
    quiet (ui_start keq E t R n0) /\
    let u := run (ui_start keq E t R n0) (es ++ [Change E']) in
    ((forall c j, In (c, j) (subs (ui_live u)) -> step u (Call c j) <> u -> In (c, j) cs) ->
     quiet (run u (map (fun p => Call (fst p) (snd p)) cs))).
  Proof.
    intros Pg St. split.
    - apply (olds_quiet s0 R n0 Pg). unfold ui_start. pose proof (made_fresh E R n0 (pg_first _ _ _ Pg) (pg_root _ _ _ Pg) t (UW n0 []) R None) as M.
      destruct (make E t (UW n0 [])) as [[i m] w1]. specialize (M w1). cbn [fst snd] in M. destruct (m R None w1) as [l w2]. exact M.
    - intros u H. destruct (run_at veq ieq keq ord veq_ok ieq_ok keq_ok ord_ok s0 R n0 Pg t St E (es ++ [Change E'])) as (s & A). fold u in A.
      apply (olds_quiet s0 R n0 Pg). apply (pass s0 R n0 Pg t St cs u s A). intros [c j] Hq. destruct (old_moves s0 R n0 Pg t u s c j A Hq). auto.
  Qed.
End Once.

(** A change that concerns a text, an attribute, a list, the value the list is in, and texts of its items; called are first the value, whose list and items go away,
    then those, and then the others. *)
Definition once_calls : list (N * nat) := [(6, 0%nat); (7, 0%nat); (10, 0%nat); (13, 0%nat); (16, 0%nat); (17, 0%nat); (5, 0%nat); (4, 0%nat)].
Example C92_one_pass_example :
  let u := UiDemo.u ([Call 4 0%nat] ++ [Change (UiDemo.env 7 0 6 [4; 3; 1])]) in
  page UiDemo.doc 3 4 /\ settled UiDemo.t /\
  (forall c j, In (c, j) (subs (ui_live u)) -> ui_step N.eqb N.eqb N.eqb UiDemo.ord u (Call c j) <> u -> In (c, j) once_calls) /\
  length (subs (ui_live u)) = 8%nat /\ Forall (fun p => ui_step N.eqb N.eqb N.eqb UiDemo.ord u (Call (fst p) (snd p)) <> u) once_calls /\
  length (subs (ui_live (ui_run N.eqb N.eqb N.eqb UiDemo.ord u (map (fun p => Call (fst p) (snd p)) once_calls)))) = 4%nat.
Proof.
  split; [exact demo_page|]. split; [exact demo_settled|]. split; [|split; [vm_compute; reflexivity|split; [|vm_compute; reflexivity]]].
  - intros c j H _. vm_compute in H. vm_compute. intuition.
  - repeat (apply Forall_cons; [intros H; apply (f_equal (fun u => length (u_q (ui_w u)))) in H; vm_compute in H; discriminate|]). constructor.
Qed.
