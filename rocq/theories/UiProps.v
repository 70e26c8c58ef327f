(** The document follows the values: proofs about [UiModel]. *)
From Coq Require Import String List NArith Bool Lia Permutation.
From Verif Require Import CodecModel DomWire DomModel DomSort DomMacroModel UiModel UiSteps.
From Verif Require DomMacroBuild.
Import ListNotations.
Local Open Scope string_scope.
Local Open Scope list_scope.
Local Open Scope N_scope.

(** ** Specification *)
(** What is to be seen: texts, comments, elements with the attributes they have or do not have, and their children. *)
Inductive vnode :=
| VText (t : bytes)
| VComment (t : bytes)
| VElem (name : bytes) (attrs : list (bytes * option bytes)) (kids : list vnode).

Section Spec.
  Context {K V L I KT : Type}.
  (** What a template shows for given values; a value and a list show their content before their comment. *)
  Fixpoint view (E : env K V L I) (t : tmpl K V L I KT) : list vnode :=
    match t with
    | TText x => [VText x]
    | TBound k f => [VText (f (e_val E k))]
    | TElem name attrs kids =>
        [VElem name (map (fun a => (fst a, snd (snd a) (e_val E (fst (snd a))))) attrs) (flat_map (view E) kids)]
    | TFrag items => flat_map (view E) items ++ [VComment (str "list dom node")]
    | TValue k render => match render (e_val E k) with Some t => view E t | None => [] end ++ [VComment (str "value element")]
    | TList l key render => flat_map (fun i => view E (render i)) (e_list E l) ++ [VComment (str "list element")]
    end.
  (** One node of the document for each call of [DomText] or [DomElement]. *)
  Definition single (t : tmpl K V L I KT) : Prop := match t with TText _ | TBound _ _ | TElem _ _ _ => True | _ => False end.
  (** Templates without the known flaws: in a fragment only the first item is reactive (C32), a list renders texts and elements (C32), and items with the same key in
      the same way (C52); the names of attributes of one element are different and not "class", which has rules of its own (C37, C80). *)
  Fixpoint settled (t : tmpl K V L I KT) : Prop :=
    match t with
    | TText _ | TBound _ _ => True
    | TElem name attrs kids =>
        name <> str "html" /\ name <> str "head" /\ name <> str "body" /\
        NoDup (map fst attrs) /\ ~ In (str "class") (map fst attrs) /\
        (fix all l := match l with [] => True | t :: r => settled t /\ all r end) kids
    | TFrag items => (fix all l := match l with [] => True | t :: r => settled t /\ all r end) items /\ Forall single (tl items)
    | TValue k render => forall v, match render v with Some t => settled t | None => True end
    | TList l key render =>
        (forall i, settled (render i)) /\ (forall i, single (render i)) /\ (forall i j, key i = key j -> render i = render j)
    end.
  (** The subscriptions there are: the node and, for an element, which of its attributes. *)
  Fixpoint subs (l : live K V L I KT) : list (N * nat) :=
    match l with
    | LText _ _ => []
    | LBound i _ _ _ => [(i, O)]
    | LElem i _ bs ks => map (pair i) (seq 0 (length bs)) ++ flat_map subs ks
    | LFrag _ ls => flat_map subs ls
    | LValue i _ _ _ _ None => [(i, O)]
    | LValue i _ _ _ _ (Some x) => (i, O) :: subs x
    | LList i _ _ _ _ _ cur => (i, O) :: flat_map (fun e => subs (snd e)) cur
    end.
End Spec.

(** A node of the document, by its id, shows [v]. *)
Inductive displays (s : bdom bytes) : N -> vnode -> Prop :=
| d_text id t : b_get s id = Some (BText t) -> displays s id (VText t)
| d_comment id t : b_get s id = Some (BComment t) -> displays s id (VComment t)
| d_elem id name a attrs kids :
    b_get s id = Some (BElement name a) ->
    (forall n v, In (n, v) attrs -> battr_get beq a n = v) ->
    (forall n, ~ In n (map fst attrs) -> battr_get beq a n = None) ->
    NoDup (b_kids s id) ->
    Forall (fun x => b_par s x = Some id) (b_kids s id) ->
    Forall2 (displays s) (b_kids s id) kids ->
    displays s id (VElem name attrs kids).

(** A page an application can begin on: [R] is an element of it, all ids from [n0] on are free, as they are after the script has been loaded. *)
Record page (s : bdom bytes) (R n0 : N) : Prop := {
  pg_first : 4 <= n0;
  pg_root : R < n0;
  pg_elem : exists name a, b_get s R = Some (BElement name a);
  pg_kids : NoDup (b_kids s R);
  pg_in : forall x, In x (b_kids s R) -> b_par s x = Some R /\ b_get s x <> None;
  pg_free : forall x, n0 <= x -> b_node s x = None /\ b_reg s x = false /\ b_kids s x = [] /\ b_par s x = None;
  pg_par : forall x y, b_par s x = Some y -> y < n0;
  pg_tree : exists depth : N -> nat, forall x y, b_par s x = Some y -> (depth y < depth x)%nat
}.

(** ** Proofs *)
Section Proofs.
  Context {K V L I KT : Type}.
  Variable veq : V -> V -> bool.
  Variable ieq : I -> I -> bool.
  Variable keq : KT -> KT -> bool.
  Variable ord : list (live K V L I KT) -> list (live K V L I KT).
  Hypothesis veq_ok : forall a b, veq a b = true <-> a = b.
  Hypothesis ieq_ok : forall a b, ieq a b = true <-> a = b.
  Hypothesis keq_ok : forall a b, keq a b = true <-> a = b.
  Hypothesis ord_ok : forall l, Permutation l (ord l).
  Notation env := (env K V L I).
  Notation tmpl := (tmpl K V L I KT).
  Notation live := (live K V L I KT).
  Notation unode := (unode K V L I KT).
  Notation battr := (battr K V).
  Notation bdom := (DomModel.bdom bytes).
  Notation bstep := (b_step beq DomMacroBuild.hook_name DomMacroBuild.perm).
  Notation brep := (breplay beq DomMacroBuild.hook_name DomMacroBuild.perm).
  Notation make := (make keq).
  Notation call := (call veq ieq keq ord).

  Section LInd.
    Variable P : live -> Prop.
    Hypotheses (h1 : forall i t, P (LText i t)) (h2 : forall i k f v, P (LBound i k f v))
      (h3 : forall i n a ks, Forall P ks -> P (LElem i n a ks)) (h4 : forall i ls, Forall P ls -> P (LFrag i ls))
      (h5 : forall i p k r v, P (LValue i p k r v None)) (h6 : forall i p k r v x, P x -> P (LValue i p k r v (Some x)))
      (h7 : forall i p k key r v cur, Forall P (map snd cur) -> P (LList i p k key r v cur)).
    Fixpoint live_ind2 (l : live) : P l :=
      match l with
      | LText i t => h1 i t
      | LBound i k f v => h2 i k f v
      | LElem i n a ks => h3 i n a ks ((fix go l : Forall P l := match l with [] => Forall_nil _ | c :: t => Forall_cons c (live_ind2 c) (go t) end) ks)
      | LFrag i ls => h4 i ls ((fix go l : Forall P l := match l with [] => Forall_nil _ | c :: t => Forall_cons c (live_ind2 c) (go t) end) ls)
      | LValue i p k r v None => h5 i p k r v
      | LValue i p k r v (Some x) => h6 i p k r v x (live_ind2 x)
      | LList i p k key r v cur => h7 i p k key r v cur
          ((fix go (l : list (I * live)) : Forall P (map snd l) := match l with [] => Forall_nil _ | c :: t => Forall_cons (snd c) (live_ind2 (snd c)) (go t) end) cur)
      end.
  End LInd.
  Section TInd.
    Variable P : tmpl -> Prop.
    Hypotheses (h1 : forall t, P (TText t)) (h2 : forall k f, P (TBound k f)) (h3 : forall n a ks, Forall P ks -> P (TElem n a ks))
      (h4 : forall ls, Forall P ls -> P (TFrag ls)) (h5 : forall k r, (forall v t, r v = Some t -> P t) -> P (TValue k r))
      (h6 : forall k key r, (forall i, P (r i)) -> P (TList k key r)).
    Fixpoint tmpl_ind2 (t : tmpl) : P t.
    Proof.
      destruct t.
      - apply h1.
      - apply h2.
      - apply h3. revert kids. fix go 1. intros [|c l]; constructor. apply tmpl_ind2. apply go.
      - apply h4. revert items. fix go 1. intros [|c l]; constructor. apply tmpl_ind2. apply go.
      - apply h5. intros v t E. destruct (render v) eqn:R; [|discriminate]. injection E as <-. apply tmpl_ind2.
      - apply h6. intros i. apply tmpl_ind2.
    Defined.
  End TInd.

  Lemma settled_all (l : list tmpl) : (fix all l := match l with [] => True | t :: r => settled t /\ all r end) l <-> Forall settled l.
  Proof. induction l; split; intros X; auto. - destruct X. constructor; auto. apply IHl. auto. - inversion X; subst. split; auto. apply IHl. auto. Qed.

  (** *** What a node owns *)
  (** The nodes it contributes to its parent. *)
  Fixpoint tops (l : live) : list N :=
    match l with
    | LText i _ | LBound i _ _ _ | LElem i _ _ _ => [i]
    | LFrag i ls => flat_map tops ls ++ [i]
    | LValue i _ _ _ _ None => [i]
    | LValue i _ _ _ _ (Some x) => tops x ++ [i]
    | LList i _ _ _ _ _ cur => flat_map (fun e => tops (snd e)) cur ++ [i]
    end.
  (** All of them. *)
  Fixpoint ids (l : live) : list N :=
    match l with
    | LText i _ | LBound i _ _ _ => [i]
    | LElem i _ _ ks => i :: flat_map ids ks
    | LFrag i ls => i :: flat_map ids ls
    | LValue i _ _ _ _ None => [i]
    | LValue i _ _ _ _ (Some x) => i :: ids x
    | LList i _ _ _ _ _ cur => i :: flat_map (fun e => ids (snd e)) cur
    end.
  Definition attr_now (l : list battr) (a : list (bytes * bytes)) : Prop :=
    (forall b, In b l -> battr_get beq a (a_name b) = a_fun b (a_last b)) /\ (forall n, ~ In n (map a_name l) -> battr_get beq a n = None).
  (** The node is in the document below [P]. *)
  Fixpoint lives (s : bdom) (P : N) (l : live) : Prop :=
    match l with
    | LText i t => b_get s i = Some (BText t) /\ b_par s i = Some P
    | LBound i k f v => b_get s i = Some (BText (f v)) /\ b_par s i = Some P
    | LElem i name attrs ks =>
        (exists a, b_get s i = Some (BElement name a) /\ attr_now attrs a) /\ b_par s i = Some P /\ b_kids s i = flat_map tops ks /\
        fold_right (fun l p => lives s i l /\ p) True ks
    | LFrag i ls => b_get s i = Some (BComment (str "list dom node")) /\ b_par s i = Some P /\ fold_right (fun l p => lives s P l /\ p) True ls
    | LValue i p _ _ _ cur =>
        b_get s i = Some (BComment (str "value element")) /\ b_par s i = Some P /\ p = P /\ match cur with Some x => lives s P x | None => True end
    | LList i p _ _ _ _ cur =>
        b_get s i = Some (BComment (str "list element")) /\ b_par s i = Some P /\ p = P /\ fold_right (fun e q => lives s P (snd e) /\ q) True cur
    end.
  Definition lone (l : live) : Prop := match l with LText _ _ | LBound _ _ _ _ | LElem _ _ _ _ => True | _ => False end.
  (** The node was made from the template, possibly with other values. *)
  Fixpoint fits (l : live) (t : tmpl) : Prop :=
    match l, t with
    | LText _ x, TText y => x = y
    | LBound _ k f _, TBound k' f' => k = k' /\ f = f'
    | LElem _ n bs ls, TElem n' attrs ks =>
        n = n' /\ map (fun b => (a_name b, (a_key b, a_fun b))) bs = attrs /\
        (fix all (ls : list live) (ts : list tmpl) : Prop := match ls, ts with [], [] => True | x :: r, y :: q => fits x y /\ all r q | _, _ => False end) ls ks
    | LFrag _ ls, TFrag ks =>
        (fix all (ls : list live) (ts : list tmpl) : Prop := match ls, ts with [], [] => True | x :: r, y :: q => fits x y /\ all r q | _, _ => False end) ls ks
    | LValue _ _ k r v cur, TValue k' r' =>
        k = k' /\ r = r' /\ match cur, r v with None, None => True | Some x, Some y => fits x y | _, _ => False end
    | LList _ _ k key r v cur, TList k' key' r' =>
        k = k' /\ key = key' /\ r = r' /\ map fst cur = v /\
        (fix all (ls : list (I * live)) : Prop := match ls with [] => True | e :: q => fits (snd e) (r (fst e)) /\ all q end) cur
    | _, _ => False
    end.

  (** *** Rewriting the definitions *)
  Lemma fold_all {A} (Q : A -> Prop) l : fold_right (fun x p => Q x /\ p) True l <-> Forall Q l.
  Proof. induction l; cbn; split; intros X; auto. destruct X; constructor; auto. apply IHl; auto. inversion X; subst; split; auto. apply IHl; auto. Qed.
  Lemma fold_items (s : bdom) P (cur : list (I * live)) : fold_right (fun e q => lives s P (snd e) /\ q) True cur <-> Forall (lives s P) (map snd cur).
  Proof. induction cur; cbn; split; intros X; auto. destruct X; constructor; auto. apply IHcur; auto. inversion X; subst; split; auto. apply IHcur; auto. Qed.
  Lemma fits_all (ls : list live) (ts : list tmpl) :
    (fix all (ls : list live) (ts : list tmpl) : Prop := match ls, ts with [], [] => True | x :: r, y :: q => fits x y /\ all r q | _, _ => False end) ls ts <->
    Forall2 fits ls ts.
  Proof.
    revert ts. induction ls as [|x l IH]; intros [|y t]; split; intros X; auto; try (inversion X; fail); try contradiction.
    - destruct X. constructor; auto. apply IH; auto.
    - inversion X; subst. split; auto. apply IH; auto.
  Qed.
  Lemma fits_items (r : I -> tmpl) (cur : list (I * live)) :
    (fix all (ls : list (I * live)) : Prop := match ls with [] => True | e :: q => fits (snd e) (r (fst e)) /\ all q end) cur <->
    Forall (fun e => fits (snd e) (r (fst e))) cur.
  Proof. induction cur; split; intros X; auto. destruct X; constructor; auto. apply IHcur; auto. inversion X; subst; split; auto. apply IHcur; auto. Qed.
  Lemma flat_snd {B} (f : live -> list B) (cur : list (I * live)) : flat_map (fun e => f (snd e)) cur = flat_map f (map snd cur).
  Proof. induction cur; cbn; congruence. Qed.
  Lemma lives_elem s P i name bs ks : lives s P (LElem i name bs ks) <->
    (exists a, b_get s i = Some (BElement name a) /\ attr_now bs a) /\ b_par s i = Some P /\ b_kids s i = flat_map tops ks /\ Forall (lives s i) ks.
  Proof. cbn [lives]. rewrite fold_all. reflexivity. Qed.
  Lemma lives_frag s P i ls : lives s P (LFrag i ls) <->
    b_get s i = Some (BComment (str "list dom node")) /\ b_par s i = Some P /\ Forall (lives s P) ls.
  Proof. cbn [lives]. rewrite fold_all. reflexivity. Qed.
  Lemma lives_list s P i p k key r v cur : lives s P (LList i p k key r v cur) <->
    b_get s i = Some (BComment (str "list element")) /\ b_par s i = Some P /\ p = P /\ Forall (lives s P) (map snd cur).
  Proof. cbn [lives]. rewrite fold_items. reflexivity. Qed.
  Lemma ids_list i p k key r v cur : ids (LList i p k key r v cur) = i :: flat_map ids (map snd cur).
  Proof. cbn [ids]. rewrite flat_snd. reflexivity. Qed.
  Lemma tops_list i p k key r v cur : tops (LList i p k key r v cur) = flat_map tops (map snd cur) ++ [i].
  Proof. cbn [tops]. rewrite flat_snd. reflexivity. Qed.
  Lemma fits_elem i name bs ks n' at' kt : fits (LElem i name bs ks) (TElem n' at' kt) <->
    name = n' /\ map (fun b => (a_name b, (a_key b, a_fun b))) bs = at' /\ Forall2 fits ks kt.
  Proof. cbn [fits]. rewrite fits_all. reflexivity. Qed.
  Lemma fits_frag i ls ts : fits (LFrag i ls) (TFrag ts) <-> Forall2 fits ls ts.
  Proof. cbn [fits]. rewrite fits_all. reflexivity. Qed.
  Lemma fits_list i p k key r v cur k' key' r' : fits (LList i p k key r v cur) (TList k' key' r') <->
    k = k' /\ key = key' /\ r = r' /\ map fst cur = v /\ Forall (fun e => fits (snd e) (r (fst e))) cur.
  Proof. cbn [fits]. rewrite fits_items. reflexivity. Qed.

  Lemma flat_incl {A B} (f g : A -> list B) l : Forall (fun x => incl (f x) (g x)) l -> incl (flat_map f l) (flat_map g l).
  Proof. intros F x H. apply in_flat_map in H. destruct H as (y & Y & Z). apply in_flat_map. exists y. split; auto. rewrite Forall_forall in F. apply (F y); auto. Qed.
  Lemma tops_ids l : incl (tops l) (ids l).
  Proof.
    induction l as [i t|i k f v|i n a ks IH|i ls IH|i p k r v|i p k r v x IH|i p k key r v cur IH] using live_ind2; cbn [tops ids]; try (intros y H; cbn in *; tauto).
    - intros y H. apply in_app_or in H. destruct H as [H|[<-|[]]]; [right|left; auto]. eapply flat_incl; eauto.
    - intros y H. apply in_app_or in H. destruct H as [H|[<-|[]]]; [right|left; auto]. auto.
    - rewrite !flat_snd. intros y H. apply in_app_or in H. destruct H as [H|[<-|[]]]; [right|left; auto]. eapply flat_incl; eauto.
  Qed.
  Lemma lives_frame s s' l : forall P, lives s P l -> (forall x, In x (ids l) -> same s s' x) -> lives s' P l.
  Proof.
    induction l as [i t|i k f v|i n a ks IH|i ls IH|i p k r v|i p k r v x IH|i p k key r v cur IH] using live_ind2; intros P Lv F.
    - destruct Lv as [G Q]. assert (S : same s s' i) by (apply F; left; auto). split. rewrite (same_get _ _ _ S); auto. destruct S as (_ & _ & _ & S). congruence.
    - destruct Lv as [G Q]. assert (S : same s s' i) by (apply F; left; auto). split. rewrite (same_get _ _ _ S); auto. destruct S as (_ & _ & _ & S). congruence.
    - apply lives_elem in Lv. destruct Lv as (G & Q & Kd & Lv). assert (S : same s s' i) by (apply F; left; auto). apply lives_elem.
      rewrite (same_get _ _ _ S). destruct S as (_ & _ & S3 & S4). repeat split; try congruence; auto.
      rewrite Forall_forall in *. intros x Hx. apply IH; auto. intros y Y. apply F. right. apply in_flat_map. eauto.
    - apply lives_frag in Lv. destruct Lv as (G & Q & Lv). assert (S : same s s' i) by (apply F; left; auto). apply lives_frag.
      rewrite (same_get _ _ _ S). destruct S as (_ & _ & S3 & S4). repeat split; try congruence; auto.
      rewrite Forall_forall in *. intros x Hx. apply IH; auto. intros y Y. apply F. right. apply in_flat_map. eauto.
    - destruct Lv as (G & Q & Z). assert (S : same s s' i) by (apply F; left; auto). cbn. rewrite (same_get _ _ _ S). destruct S as (_ & _ & S3 & S4). repeat split; try congruence; tauto.
    - destruct Lv as (G & Q & Z & W). assert (S : same s s' i) by (apply F; left; auto). cbn. rewrite (same_get _ _ _ S). destruct S as (_ & _ & S3 & S4).
      repeat split; try congruence; auto. apply IH; auto. intros y Y. apply F. right. auto.
    - apply lives_list in Lv. destruct Lv as (G & Q & Z & Lv). assert (S : same s s' i) by (apply F; left; auto). apply lives_list.
      rewrite (same_get _ _ _ S). destruct S as (_ & _ & S3 & S4). repeat split; try congruence; auto.
      rewrite Forall_forall in *. intros x Hx. apply IH; auto. intros y Y. apply F. rewrite ids_list. right. apply in_flat_map. eauto.
  Qed.
  Lemma lives_frames s s' P ls : Forall (lives s P) ls -> (forall x, In x (flat_map ids ls) -> same s s' x) -> Forall (lives s' P) ls.
  Proof. intros F H. rewrite Forall_forall in *. intros l Hl. eapply lives_frame; eauto. intros x Hx. apply H, in_flat_map. eauto. Qed.

  Variable s0 : bdom.
  Variables R n0 : N.
  Hypothesis n0_ok : 4 <= n0.
  Hypothesis R_ok : R < n0.
  Notation Inv := (Inv s0 R n0).
  Notation done := (done s0 R n0).
  Notation own := (own n0).
  Notation mine := (mine R n0).

  (** *** Dropping *)
  Definition dropped (w : uw) (s : bdom) (P : N) (cs : list (dcmd bytes)) (X T : list N) : Prop :=
    exists s', done w s P (fun x => In x X) (uemits w cs) s' [] /\ b_kids s' P = outs (b_kids s P) T.
  Lemma uemits_app w a b : uemits w (a ++ b) = uemits (uemits w a) b.
  Proof. unfold uemits. cbn. rewrite app_assoc. reflexivity. Qed.
  Lemma dropped_seq w s P c1 X1 T1 c2 X2 T2 : dropped w s P c1 X1 T1 ->
    (forall s', done w s P (fun x => In x X1) (uemits w c1) s' [] -> dropped (uemits w c1) s' P c2 X2 T2) -> dropped w s P (c1 ++ c2) (X1 ++ X2) (T1 ++ T2).
  Proof.
    intros (s1 & D1 & K1) H. destruct (H s1 D1) as (s2 & D2 & K2). exists s2. rewrite uemits_app. split.
    - destruct (done_seq n0_ok R_ok (fun x => In x (X1 ++ X2)) D1 D2) as [Q _]; auto.
      intros x. rewrite in_app_iff. split; [|tauto]. intros [X|X]; auto. right. split; auto. apply (o_dom D2 x X).
    - rewrite K2, K1, outs_app. reflexivity.
  Qed.
  Lemma dropped_ext w s P c X T X' T' : dropped w s P c X T -> (forall x, In x X <-> In x X') -> (forall x, In x T <-> In x T') -> dropped w s P c X' T'.
  Proof.
    intros (s' & D & Kd) HX HT. exists s'. split. eapply done_set; eauto. rewrite Kd. apply outs_ext. auto.
  Qed.
  Definition drops (l : live) : Prop := forall w s P, Inv w s -> lives s P l -> own w P (ids l) -> dropped w s P (drop_live l) (ids l) (tops l).
  Lemma drop_all ls : Forall drops ls -> forall w s P, Inv w s -> Forall (lives s P) ls -> P < u_next w -> own w P (flat_map ids ls) ->
    dropped w s P (flat_map drop_live ls) (flat_map ids ls) (flat_map tops ls).
  Proof.
    induction 1 as [|l ls Dl F IH]; intros w s P Iv Lv LP O; cbn [flat_map].
    - exists s. unfold uemits. rewrite app_nil_r. destruct w. cbn. split. apply done_id; auto. rewrite outs_nil. auto.
    - apply own_app in O. destruct O as (O1 & O2 & O3). inversion Lv; subst. apply dropped_seq. apply Dl; auto.
      intros s' D. apply IH; auto. apply D. eapply lives_frames; eauto. intros x Hx. destruct O2 as (_ & O2 & _). destruct (O2 x Hx) as (U1 & U2 & U3).
      apply (o_same D); auto. intros Y. eapply O3; eauto.
  Qed.
  Lemma remove_one w s P i cmd : Inv w s -> b_get s i <> None -> b_par s i = Some P -> own w P [i] -> removes cmd i -> dropped w s P [cmd] [i] [i].
  Proof.
    intros Iv G Q (_ & O & _) Cm. destruct (O i) as (O1 & O2 & O3); [left; auto|].
    destruct (remove_done s0 R n0 n0_ok R_ok w s P i cmd) as (s' & D & Kd & _); auto.
    exists s'. split. eapply done_set; [exact D|apply Permutation_refl|]. intros x. cbn. split; intuition. rewrite Kd, outs_one. reflexivity.
  Qed.
  (** A comment and what belongs to it. *)
  Lemma drop_marker ls order : Permutation ls order -> Forall drops ls -> forall w s P i t, Inv w s -> b_get s i = Some (BComment t) -> b_par s i = Some P ->
    Forall (lives s P) ls -> own w P (i :: flat_map ids ls) ->
    dropped w s P (RemoveComment i :: flat_map drop_live order) (i :: flat_map ids ls) (flat_map tops ls ++ [i]).
  Proof.
    intros Pm Fd w s P i t Iv G Q Lv O. change (i :: flat_map ids ls) with ([i] ++ flat_map ids ls) in O. apply own_app in O. destruct O as (O1 & O2 & O3).
    assert (LP : P < u_next w) by apply O1.
    eapply (dropped_ext _ _ _ (RemoveComment i :: flat_map drop_live order) ([i] ++ flat_map ids order) ([i] ++ flat_map tops order)).
    - apply (dropped_seq w s P [RemoveComment i]).
      + apply remove_one; auto; try (unfold removes; auto; fail). congruence.
      + intros s' D. apply drop_all.
        * rewrite Forall_forall in *. intros x Hx. apply Fd. eapply Permutation_in; [apply Permutation_sym|]; eauto.
        * apply D.
        * assert (Forall (lives s' P) ls) as F.
          { eapply lives_frames; eauto. intros x Hx. destruct O2 as (_ & O2 & _). destruct (O2 x Hx) as (U1 & U2 & U3).
            apply (o_same D); auto. intros Y. eapply O3; eauto. }
          rewrite Forall_forall in *. intros x Hx. apply F. eapply Permutation_in; [apply Permutation_sym|]; eauto.
        * auto.
        * eapply own_perm; [|exact O2]. apply Permutation_flat_map; auto.
    - intros x. cbn. rewrite !in_flat_map. split; intros [Y|(y & Y & Z)]; auto; right; exists y; split; auto; [eapply Permutation_in; [apply Permutation_sym|]; eauto|eapply Permutation_in; eauto].
    - intros x. cbn. rewrite in_app_iff, !in_flat_map. cbn. split.
      + intros [Y|(y & Y & Z)]; auto. left. exists y. split; auto. eapply Permutation_in; [apply Permutation_sym|]; eauto.
      + intros [(y & Y & Z)|[Y|[]]]; auto. right. exists y. split; auto. eapply Permutation_in; eauto.
  Qed.
  Lemma flat_map_id_map {A B} (f : A -> list B) l : flat_map (fun d => d) (map f l) = flat_map f l.
  Proof. induction l; cbn; congruence. Qed.
  Lemma drop_ok l : drops l.
  Proof.
    induction l as [i t|i k f v|i n a ks IH|i ls IH|i p k r v|i p k r v x IH|i p k key r v cur IH] using live_ind2; intros w s P Iv Lv O.
    - destruct Lv as [G Q]. apply remove_one; auto; try (unfold removes; auto; fail). congruence.
    - destruct Lv as [G Q]. apply remove_one; auto; try (unfold removes; auto; fail). congruence.
    - apply lives_elem in Lv. destruct Lv as ((at_ & G & _) & Q & Kd & Lv). cbn [ids drop_live tops] in *.
      change (i :: flat_map ids ks) with ([i] ++ flat_map ids ks) in *. apply own_app in O. destruct O as (O1 & O2 & O3).
      change (RemoveNode i :: flat_map drop_live ks) with ([RemoveNode i] ++ flat_map drop_live ks). rewrite <- (app_nil_r [i]) at 2.
      destruct (proj1 (proj2 O1) i) as (Y1 & Y2 & Y3); [left; auto|].
      destruct (remove_done s0 R n0 n0_ok R_ok w s P i (RemoveNode i)) as (s1 & D1 & K1 & R1 & C1); auto; try (unfold removes; auto; fail). congruence.
      assert (Lv1 : Forall (lives s1 i) ks).
      { eapply lives_frames; eauto. intros x Hx. destruct O2 as (_ & O2 & _). destruct (O2 x Hx) as (U1 & U2 & U3).
        apply (o_same D1); auto. intros ->. eapply (O3 i); auto. left; auto. }
      destruct (drop_all ks IH (uemit w (RemoveNode i)) s1 i) as (s2 & D2 & K2); auto. apply D1.
      { destruct O2 as (U1 & U2 & U3). split; [|split]; auto. intros x Hx. destruct (U2 x Hx) as (W1 & W2 & W3). repeat split; auto. intros ->. eapply (O3 i); auto. left; auto. }
      destruct O2 as (_ & U2 & _).
      destruct (done_up_gone P D2) as [D3 S3]; auto.
      { intros Y. apply U2 in Y. tauto. } { apply O1. }
      exists s2. rewrite uemits_app. change (uemits w [RemoveNode i]) with (uemit w (RemoveNode i)). split.
      + destruct (done_seq n0_ok R_ok (fun x => In x ([i] ++ flat_map ids ks)) D1 D3) as [D4 _]; auto.
        intros x. cbn. split; [|intuition].
        intros [Y|Y]; auto. right. split; auto. apply U2. auto.
      + destruct S3 as (_ & _ & S3 & _). rewrite S3, K1, app_nil_r, outs_one. reflexivity.
    - apply lives_frag in Lv. destruct Lv as (G & Q & Lv). cbn [drop_live ids tops]. rewrite <- map_rev, flat_map_id_map.
      eapply drop_marker; eauto. apply Permutation_rev.
    - destruct Lv as (G & Q & _). apply remove_one; auto; try (unfold removes; auto; fail). congruence.
    - destruct Lv as (G & Q & _ & Lv). pose proof (drop_marker [x] [x] (Permutation_refl _)) as DM. cbn [flat_map] in DM. rewrite !app_nil_r in DM.
      eapply DM; eauto.
    - apply lives_list in Lv. destruct Lv as (G & Q & _ & Lv). rewrite ids_list, tops_list in *. cbn [drop_live]. rewrite flat_snd.
      eapply drop_marker; eauto.
  Qed.

  (** *** Making and mounting *)
  Variable E : env.
  Definition elem (s : bdom) (P : N) : Prop := exists n a, b_get s P = Some (BElement n a).
  Lemma done_elem w s P D w' s' X : done w s P D w' s' X -> elem s P -> elem s' P.
  Proof. intros T (n & a & G). destruct (o_P T) as (U1 & U2 & _). exists n, a. unfold b_get in *. rewrite U1, U2. auto. Qed.
  Lemma single_lone l t : fits l t -> single t -> lone l.
  Proof. destruct l, t; cbn; tauto. Qed.
  Lemma lone_tops l : lone l -> tops l = [l_id l].
  Proof. destruct l; cbn; tauto. Qed.
  Lemma tops_id l : exists pre, tops l = pre ++ [l_id l].
  Proof. destruct l as [| | | |? ? ? ? ? []|]; cbn; try (exists []; reflexivity); eexists; reflexivity. Qed.
  Lemma id_ids l : In (l_id l) (ids l).
  Proof. apply tops_ids. destruct (tops_id l) as (pre & ->). apply in_or_app. right. left. auto. Qed.
  Lemma lives_id s P l : lives s P l -> b_get s (l_id l) <> None /\ b_par s (l_id l) = Some P.
  Proof.
    destruct l; cbn.
    1,2: intros [-> X]; split; auto; discriminate.
    - intros ((a & -> & _) & X & _). split; auto. discriminate.
    - intros (-> & X & _). split; auto. discriminate.
    - intros (-> & X & _). split; auto. discriminate.
    - intros (-> & X & _). split; auto. discriminate.
  Qed.

  (** A node made but not mounted yet: it can be mounted. *)
  Definition pend (s : bdom) (lo hi : N) (d : unode) (t : tmpl) : Prop :=
    inr lo hi (fst d) /\
    forall w1 s1 P A B ref, Inv w1 s1 -> hi <= u_next w1 -> (forall x, inr lo hi x -> same s s1 x) -> elem s1 P -> mine P -> P < lo ->
      b_kids s1 P = A ++ B -> before ref B ->
      let '(l, w2) := snd d P ref w1 in
      exists s2, done w1 s1 P (inr lo hi) w2 s2 (ids l) /\ b_kids s2 P = A ++ tops l ++ B /\ lives s2 P l /\ fits l t /\ l_id l = fst d.
  Definition good (t : tmpl) : Prop := settled t -> forall w s, Inv w s ->
    let '(d, w1) := make E t w in
    exists s1, Inv w1 s1 /\ u_next w < u_next w1 /\ (forall x, x < u_next w -> same s s1 x) /\ pend s1 (u_next w) (u_next w1) d t.
  (** Made and mounted at once. *)
  Definition mounts (t : tmpl) : Prop := forall w s P A B ref, Inv w s -> elem s P -> mine P -> P < u_next w -> b_kids s P = A ++ B -> before ref B ->
    let '((i, m), w1) := make E t w in
    let '(l, w2) := m P ref w1 in
    exists s2, done w s P (fun _ => False) w2 s2 (ids l) /\ b_kids s2 P = A ++ tops l ++ B /\ lives s2 P l /\ fits l t /\ l_id l = i.
  Lemma pend_frame s s' lo hi d t : pend s lo hi d t -> (forall x, inr lo hi x -> same s s' x) -> pend s' lo hi d t.
  Proof.
    intros [A B] F. split; auto. intros w1 s1 P A1 B1 ref Iv Hn Sm. apply B; auto. intros x Hx. eapply same_trans; eauto.
  Qed.
  Lemma inr_dec lo hi x : inr lo hi x \/ ~ inr lo hi x.
  Proof. unfold inr. lia. Qed.
  Lemma good_mounts t : good t -> settled t -> mounts t.
  Proof.
    intros G St w s P A B ref Iv El Mi LP Kd Bf. specialize (G St w s Iv). destruct (make E t w) as [[i m] w1]. destruct G as (s1 & I1 & L1 & S1 & Pi & Pd). cbn [fst snd] in Pi.
    assert (SP : same s s1 P) by auto.
    assert (E1 : elem s1 P). { destruct El as (n & a & X). exists n, a. rewrite (same_get _ _ _ SP). auto. }
    specialize (Pd w1 s1 P A B ref I1 ltac:(lia) (fun x _ => same_refl _ x) E1 Mi LP). cbn [snd] in Pd.
    destruct (m P ref w1) as [l w2]. destruct Pd as (s2 & D & K2 & Lv & Ft & Id).
    { destruct SP as (_ & _ & -> & _). auto. } { auto. }
    exists s2. split; [|auto]. destruct D as [A1 A2 A3 A0 A4 A5 A6 A7 A8 A9]. constructor; auto; try lia.
    - intros x Hx. right. destruct (A6 x Hx) as [[Y1 Y2]|[Y1 Y2]]; split; lia.
    - intros x _ XP Lx. eapply same_trans; [apply S1; auto|]. apply A7; auto; try lia. intros [Y _]. lia.
    - destruct SP as (U1 & U2 & U3 & U4), A8 as (V1 & V2 & V3). repeat split; congruence.
    - intros x [[]|[X1 X2]] Rx. apply A9; auto. unfold inr. lia.
  Qed.

  (** A text or an element. *)
  Lemma pend_lone s lo hi id Y l t (m : umount K V L I KT) : n0 <= lo -> inr lo hi id -> (forall x, In x Y -> inr lo hi x) -> NoDup (id :: Y) ->
    (forall P ref w, m P ref w = (l, uemit w (InsertBefore P id ref))) -> ids l = id :: Y -> tops l = [id] -> fits l t -> l_id l = id ->
    b_get s id <> None -> b_par s id = None -> (forall x, inr lo hi x -> b_reg s x = true -> In x (ids l)) ->
    (forall P s', b_par s' id = Some P -> b_get s' id = b_get s id -> b_kids s' id = b_kids s id -> (forall x, In x Y -> same s s' x) -> lives s' P l) ->
    pend s lo hi (id, m) t.
  Proof.
    intros N0 Hid HY ND Hm Ei Et Ft Il Gi Pi Go Lv. split; auto. intros w1 s1 P A B ref Iv Hn Sm El Mi LP Kd Bf. cbn [snd]. rewrite Hm.
    pose proof (Sm id Hid) as Si. destruct Hid as [H1 H2]. pose proof (same_get _ _ _ Si) as Gs. destruct Si as (U1 & U2 & U3 & U4).
    destruct (insert_done s0 R n0 n0_ok R_ok w1 s1 P A B ref id) as (s2 & D & K2 & P2 & G2 & C2); auto; try lia; try congruence.
    inversion ND as [|? ? NY ND']; subst.
    destruct (done_keep Y D) as [D1 S1]; auto.
    { intros X. apply HY in X. destruct X. lia. }
    { intros x Hx. split. intros ->. auto. apply HY in Hx. destruct Hx. lia. }
    exists s2. rewrite Ei, Et. split; [|split; [|split; [|split]]]; auto.
    - apply (done_more (inr lo hi) D1).
      + intros x [->|X]; auto. split; auto.
      + apply inr_dec.
      + intros [X _]. lia.
      + intros x Hx. split. destruct Hx; lia. intros Nx Rx. cbn [app]. rewrite <- Ei. apply Go; auto.
        destruct (Sm x Hx) as (_ & V2 & _). destruct (o_same D1 x Nx) as (_ & W2 & _). intros ->; destruct Hx; lia. destruct Hx; lia. congruence.
    - apply Lv; auto; try congruence. intros x Hx. eapply same_trans; eauto.
  Qed.

  Lemma text_good x : good (TText x).
  Proof.
    intros _ w s Iv. cbn [UiModel.make]. destruct (create_ok s0 R n0 n0_ok R_ok w s (BText x) (fun i => CreateText i x) Iv) as (s1 & I1 & G1 & P1 & K1 & S1); try (intros; exact Logic.I); try reflexivity.
    pose proof (i_next Iv) as Nx. cbn [ufresh snd fst] in *. exists s1. split; auto. cbn [u_next]. split; [lia|]. split. intros y Hy. apply S1. lia.
    apply (pend_lone _ _ _ _ [] (LText (u_next w) x)); try reflexivity; auto; try congruence.
    - split; lia.
    - intros y [].
    - repeat constructor. intros [].
    - intros y [H1 H2] _. left. lia.
    - intros P s' H1 H2 _ _. split; congruence.
  Qed.
  Lemma bound_good k f : good (TBound k f).
  Proof.
    intros _ w s Iv. cbn [UiModel.make]. destruct (create_ok s0 R n0 n0_ok R_ok w s (BText []) (fun i => CreateText i []) Iv) as (s1 & I1 & G1 & P1 & K1 & S1); try (intros; exact Logic.I); try reflexivity.
    pose proof (i_next Iv) as Nx. cbn [ufresh snd fst] in *.
    destruct (update_ok s0 R n0 n0_ok R_ok _ s1 (u_next w) (BText (f (e_val E k))) (UpdateText (u_next w) (f (e_val E k))) I1) as (s2 & I2 & G2 & K2 & P2 & R2 & S2);
      try congruence; try (intros; exact Logic.I); auto. { cbn; lia. } { cbn [b_step]. rewrite G1. reflexivity. }
    exists s2. split; auto. cbn [u_next uemit]. split; [lia|]. split. intros y Hy. eapply same_trans; [apply S1|apply S2]; lia.
    apply (pend_lone _ _ _ _ [] (LBound (u_next w) k f (e_val E k))); try reflexivity; auto; try congruence.
    - split; lia.
    - intros y [].
    - repeat constructor. intros [].
    - split; auto.
    - intros y [H1 H2] _. left. lia.
    - intros P s' H1 H2 _ _. split; congruence.
  Qed.

  (** *** Attributes *)
  Definition set_opt (a : list (bytes * bytes)) (n : bytes) (v : option bytes) : list (bytes * bytes) :=
    match v with Some x => battr_set beq a n x | None => battr_del beq a n end.
  Lemma get_set_opt a n v k : battr_get beq (set_opt a n v) k = if beq k n then v else battr_get beq a k.
  Proof. destruct v; cbn; [apply DomMacroBuild.battr_get_set|apply DomMacroBuild.battr_get_del]. Qed.
  Lemma attr_step s i name a n v : b_get s i = Some (BElement name a) -> bstep s (attr_cmd i n v) = Some (set_node s i (BElement name (set_opt a n v))).
  Proof. intros G. destruct v; cbn [attr_cmd b_step set_opt]; rewrite G; reflexivity. Qed.
  Lemma attr_legal i n v t : plain t (attr_cmd i n v).
  Proof. destruct v; exact Logic.I. Qed.
  Lemma add_attrs_ok l : forall w s i name a, NoDup (map fst l) -> Inv w s -> b_get s i = Some (BElement name a) -> n0 <= i -> i < u_next w ->
    let '(bs, w') := add_attrs E i l w in
    exists s' a', Inv w' s' /\ u_next w' = u_next w /\ b_get s' i = Some (BElement name a') /\ b_kids s' i = b_kids s i /\ b_par s' i = b_par s i /\
      (forall x, x <> i -> same s s' x) /\ map (fun b => (a_name b, (a_key b, a_fun b))) bs = l /\
      (forall b, In b bs -> battr_get beq a' (a_name b) = a_fun b (a_last b)) /\ (forall n, ~ In n (map fst l) -> battr_get beq a' n = battr_get beq a n).
  Proof.
    induction l as [|[n [k f]] l IH]; intros w s i name a ND Iv G Hi Hn; cbn [add_attrs add_attr].
    - exists s, a. do 5 (split; [auto|]). split; [intros; apply same_refl|]. split; [auto|]. split; auto. intros b [].
    - cbn in ND. inversion ND as [|? ? N1 N2]; subst.
      destruct (update_ok s0 R n0 n0_ok R_ok w s i _ _ Iv ltac:(congruence) Hi Hn (attr_legal _ _ _) (attr_step _ _ _ _ n (f (e_val E k)) G)) as (s1 & I1 & G1 & K1 & P1 & R1 & S1).
      specialize (IH _ _ _ _ _ N2 I1 G1 Hi Hn). destruct (add_attrs E i l _) as [bs w'].
      destruct IH as (s' & a' & I2 & L2 & G2 & K2 & P2 & S2 & M2 & A2 & B2). exists s', a'. split; auto. cbn [uemit u_next] in L2. split; auto. split; auto.
      split; [congruence|]. split; [congruence|]. split; [intros x Hx; eapply same_trans; [apply S1|apply S2]; auto|]. split; [cbn; congruence|]. split.
      + intros b [<-|Hb]; auto. cbn [a_name a_fun a_last]. rewrite B2; auto. rewrite get_set_opt, DomMacroBuild.beq_refl. reflexivity.
      + intros m Hm. cbn in Hm. rewrite B2; [|tauto]. rewrite get_set_opt. rewrite DomMacroBuild.beq_false; auto.
  Qed.

  (** *** Children *)
  Lemma kids_ok ts : Forall mounts ts -> forall w s P A, Inv w s -> elem s P -> mine P -> P < u_next w -> b_kids s P = A ->
    let '(ls, w') := make_kids keq E P ts w in
    exists s', done w s P (fun _ => False) w' s' (flat_map ids ls) /\ b_kids s' P = A ++ flat_map tops ls /\ Forall (lives s' P) ls /\ Forall2 fits ls ts.
  Proof.
    induction 1 as [|t ts M F IH]; intros w s P A Iv El Mi LP Kd; cbn [make_kids].
    - exists s. split. apply done_id; auto. cbn. rewrite app_nil_r. auto.
    - fold (make_kids keq E P). specialize (M w s P A [] None Iv El Mi LP). rewrite app_nil_r in M. specialize (M Kd eq_refl).
      destruct (make E t w) as [[i m] w1]. destruct (m P None w1) as [l w2]. destruct M as (s2 & D & K2 & Lv & Ft & _). rewrite app_nil_r in K2.
      specialize (IH w2 s2 P (A ++ tops l) (o_inv D) (done_elem _ _ _ _ _ _ _ D El) Mi). pose proof (o_le D).
      destruct (make_kids keq E P ts w2) as [ls w3]. destruct IH as (s3 & D3 & K3 & Lv3 & Ft3); auto. lia.
      destruct (done_seq n0_ok R_ok (fun _ => False) D D3) as [D4 S4]; try tauto.
      exists s3. split; auto. split. cbn [flat_map]. rewrite K3, app_assoc. reflexivity. split.
      + constructor; auto. eapply lives_frame; eauto.
      + constructor; auto.
  Qed.
  Lemma make_elem_eq name attrs kids w : make E (TElem name attrs kids) w =
    (let '(id, w1) := ufresh w (fun i => CreateNode i name) in
     let '(bs, w2) := add_attrs E id attrs w1 in
     let '(ls, w3) := make_kids keq E id kids w2 in
     ((id, fun parent before w => (LElem id name bs ls, uemit w (InsertBefore parent id before))), w3)).
  Proof. reflexivity. Qed.
  Lemma elem_good name attrs kids : Forall good kids -> good (TElem name attrs kids).
  Proof.
    intros Gk (_ & _ & _ & ND & _ & Sk) w s Iv. apply settled_all in Sk. rewrite make_elem_eq.
    destruct (create_ok s0 R n0 n0_ok R_ok w s (BElement name []) (fun i => CreateNode i name) Iv) as (s1 & I1 & G1 & P1 & K1 & S1); try (intros; exact Logic.I); try reflexivity.
    pose proof (i_next Iv) as Nx. cbn [ufresh snd fst] in *.
    set (id := u_next w) in *.
    pose proof (add_attrs_ok attrs _ s1 id name [] ND I1 G1 Nx) as AA. cbn [u_next] in AA. specialize (AA ltac:(lia)).
    destruct (add_attrs E id attrs _) as [bs w2]. destruct AA as (s2 & a2 & I2 & L2 & G2 & K2 & P2 & S2 & M2 & A2 & B2).
    assert (Mk : Forall mounts kids). { rewrite Forall_forall in *. intros t Ht. apply good_mounts; auto. }
    pose proof (kids_ok kids Mk w2 s2 id [] I2) as KK. destruct (make_kids keq E id kids w2) as [ls w3].
    destruct KK as (s3 & D3 & K3 & Lv3 & Ft3). { exists name, a2. auto. } { right. auto. } { lia. } { congruence. }
    destruct (o_P D3) as (U1 & U2 & U3). pose proof (o_le D3) as Le.
    assert (G3 : b_get s3 id = Some (BElement name a2)). { unfold b_get in *. rewrite U1, U2. auto. }
    exists s3. split; [apply D3|]. split; [lia|]. split.
    { intros x Hx. eapply same_trans; [apply S1; lia|]. eapply same_trans; [apply S2; lia|]. apply (o_same D3); auto; lia. }
    apply (pend_lone _ _ _ id (flat_map ids ls) (LElem id name bs ls)); try reflexivity; auto; try congruence.
    - split; lia.
    - intros x Hx. destruct (o_own D3 x Hx) as [[]|[Y1 Y2]]. split; lia.
    - constructor; [|apply D3]. intros X. destruct (o_own D3 id X) as [[]|[Y1 Y2]]. lia.
    - apply fits_elem. auto.
    - intros x [X1 X2] Rx. destruct (N.eq_dec x id) as [->|Ne]; [left; auto|right]. apply (o_gone D3); auto. right. split; lia.
    - intros P s' H1 H2 H3 H4. apply lives_elem. split; [|split; [|split]]; auto.
      + exists a2. split; [congruence|]. split; auto. intros n Hn. rewrite B2. reflexivity. rewrite <- M2, map_map. cbn. auto.
      + rewrite H3, K3. reflexivity.
      + eapply lives_frames; eauto.
  Qed.

  (** *** Markers *)
  (** A comment that is put somewhere. *)
  Lemma comment_made w s t : Inv w s -> exists s1, Inv (snd (ufresh w (fun i => CreateComment i t))) s1 /\ b_get s1 (u_next w) = Some (BComment t) /\
    b_par s1 (u_next w) = None /\ (forall x, x <> u_next w -> same s s1 x).
  Proof.
    intros Iv. destruct (create_ok s0 R n0 n0_ok R_ok w s (BComment t) (fun i => CreateComment i t) Iv) as (s1 & I1 & G1 & P1 & K1 & S1); try (intros; exact Logic.I); try reflexivity.
    exists s1. auto.
  Qed.
  Lemma comment_put w s P A B ref c t : Inv w s -> elem s P -> mine P -> P < c -> n0 <= c -> c < u_next w -> b_get s c = Some (BComment t) -> b_par s c = None ->
    b_kids s P = A ++ B -> before ref B ->
    exists s', done w s P (fun x => x = c) (uemit w (InsertBefore P c ref)) s' [c] /\ b_kids s' P = A ++ c :: B /\ b_get s' c = Some (BComment t) /\ b_par s' c = Some P.
  Proof.
    intros Iv El Mi H1 H2 H3 G Pr Kd Bf. destruct (insert_done s0 R n0 n0_ok R_ok w s P A B ref c) as (s2 & D & K2 & P2 & G2 & _); auto; try congruence.
    exists s2. split; [auto|]. split; [auto|]. split; [congruence|auto].
  Qed.

  Lemma value_good k r : (forall v t, r v = Some t -> good t) -> good (TValue k r).
  Proof.
    intros Gr St w s Iv. cbn [settled] in St. cbn [UiModel.make].
    destruct (comment_made w s value_text Iv) as (s1 & I1 & G1 & P1 & S1). pose proof (i_next Iv) as Nx. cbn [ufresh snd fst] in *.
    exists s1. split; auto. cbn [u_next]. split; [lia|]. split. intros y Hy. apply S1. lia.
    split. cbn; split; lia. intros w1 s2 P A B ref Iv2 Hn Sm El Mi LP Kd Bf. cbn [snd fst].
    assert (Si : same s1 s2 (u_next w)) by (apply Sm; split; lia). pose proof (same_get _ _ _ Si) as Gs. destruct Si as (U1 & U2 & U3 & U4).
    destruct (comment_put w1 s2 P A B ref (u_next w) value_text) as (s3 & D3 & K3 & G3 & P3); auto; try lia; try congruence.
    assert (Dr : forall x, inr (u_next w) (u_next w + 1) x <-> x = u_next w) by (intros; unfold inr; lia).
    specialize (St (e_val E k)). destruct (r (e_val E k)) as [t1|] eqn:Er.
    - pose proof (good_mounts t1 (Gr _ _ Er) St (uemit w1 (InsertBefore P (u_next w) ref)) s3 P A (u_next w :: B) (Some (u_next w)) (o_inv D3)
        (done_elem _ _ _ _ _ _ _ D3 El) Mi ltac:(cbn; lia) K3 (ex_intro _ B eq_refl)) as M.
      destruct (make E t1 _) as [[i m] w2]. destruct (m P (Some (u_next w)) w2) as [x w3]. destruct M as (s4 & D4 & K4 & Lv4 & Ft4 & _).
      destruct (done_seq n0_ok R_ok (fun x => x = u_next w) D3 D4) as [D5 S5]; try tauto.
      exists s4. split; [|split; [|split; [|split]]].
      + eapply done_set; [exact D5|apply Permutation_refl|]. intros y. rewrite Dr. tauto.
      + cbn [tops]. rewrite K4, <- !app_assoc. reflexivity.
      + assert (Sc : same s3 s4 (u_next w)) by (apply S5; left; auto). cbn [lives]. rewrite (same_get _ _ _ Sc). destruct Sc as (_ & _ & _ & V4). repeat split; auto; congruence.
      + cbn [fits]. rewrite Er. auto.
      + reflexivity.
    - exists s3. split; [|split; [|split; [|split]]].
      + eapply done_set; [exact D3|apply Permutation_refl|]. intros y. rewrite Dr. tauto.
      + cbn [tops]. rewrite K3. reflexivity.
      + cbn [lives]. auto.
      + cbn [fits]. rewrite Er. auto.
      + reflexivity.
  Qed.

  (** *** Fragments *)
  Inductive ready (s : bdom) : N -> list unode -> list tmpl -> N -> Prop :=
  | rd_nil lo : ready s lo [] [] lo
  | rd_cons lo mid hi d ds t ts : lo < mid -> pend s lo mid d t -> ready s mid ds ts hi -> ready s lo (d :: ds) (t :: ts) hi.
  Lemma ready_le s lo ds ts hi : ready s lo ds ts hi -> lo <= hi.
  Proof. induction 1; lia. Qed.
  Lemma ready_frame s s' lo ds ts hi : ready s lo ds ts hi -> (forall x, inr lo hi x -> same s s' x) -> ready s' lo ds ts hi.
  Proof.
    induction 1 as [|lo mid hi d ds t ts Lm Pd Rd IH]; intros F; econstructor; eauto.
    - eapply pend_frame; eauto. intros x [X1 X2]. apply F. apply ready_le in Rd. split; lia.
    - apply IH. intros x [X1 X2]. apply F. split; lia.
  Qed.
  Lemma make_all_ok ts : Forall good ts -> Forall settled ts -> forall w s, Inv w s ->
    let '(ds, w1) := make_all keq E ts w in
    exists s1, Inv w1 s1 /\ u_next w <= u_next w1 /\ (forall x, x < u_next w -> same s s1 x) /\ ready s1 (u_next w) ds ts (u_next w1).
  Proof.
    induction 1 as [|t ts G F IH]; intros St w s Iv; cbn [make_all].
    - exists s. split; auto. split; [lia|]. split; [intros; apply same_refl|]. constructor.
    - fold (make_all keq E). inversion St; subst. specialize (G H1 w s Iv). destruct (make E t w) as [d w1]. destruct G as (s1 & I1 & L1 & S1 & Pd).
      specialize (IH H2 w1 s1 I1). destruct (make_all keq E ts w1) as [ds w2]. destruct IH as (s2 & I2 & L2 & S2 & Rd).
      exists s2. split; auto. split; [lia|]. split. intros x Hx. eapply same_trans; [apply S1; auto|apply S2; lia].
      econstructor; eauto. eapply pend_frame; eauto. intros x [_ Hx]. apply S2. auto.
  Qed.
  Lemma frag_ok s P c A B : forall ds ts lo hi, ready s lo ds ts hi -> Forall single (tl ts) -> forall w1 s1, Inv w1 s1 -> hi <= u_next w1 ->
    (forall x, inr lo hi x -> same s s1 x) -> elem s1 P -> mine P -> P < lo -> b_kids s1 P = A ++ c :: B ->
    let '(prev, ls, w2) := frag_mount P c ds w1 in
    exists s2, done w1 s1 P (inr lo hi) w2 s2 (flat_map ids ls) /\ b_kids s2 P = A ++ flat_map tops ls ++ c :: B /\ Forall (lives s2 P) ls /\ Forall2 fits ls ts /\
      (Forall single ts -> before (Some prev) (flat_map tops ls ++ c :: B)).
  Proof.
    induction 1 as [lo|lo mid hi d ds t ts Lm Pd Rd IH]; intros Sg w1 s1 Iv Hn Sm El Mi LP Kd; cbn [frag_mount].
    - exists s1. split; [|split; [|split; [|split]]]; auto.
      + apply (done_more (inr lo lo) (done_id _ _ _ n0_ok R_ok w1 s1 P Iv ltac:(lia))). tauto. apply inr_dec. intros [X1 X2]; lia. intros x [X1 X2]. lia.
      + intros _. exists B. auto.
    - destruct d as [i m]. cbn [tl] in Sg. pose proof (ready_le _ _ _ _ _ Rd) as Lh.
      assert (Sg' : Forall single (tl ts)) by (destruct Sg; cbn [tl]; [constructor|assumption]).
      specialize (IH Sg' w1 s1 Iv Hn). destruct (frag_mount P c ds w1) as [[prev ls] w2].
      destruct IH as (s2 & D2 & K2 & Lv2 & Ft2 & Bf2); auto; try lia. { intros x [X1 X2]. apply Sm. split; lia. }
      destruct Pd as [Hi Pd]. cbn [fst snd] in *. pose proof (o_le D2).
      specialize (Pd w2 s2 P A (flat_map tops ls ++ c :: B) (Some prev) (o_inv D2)). destruct (m P (Some prev) w2) as [x w3].
      destruct Pd as (s3 & D3 & K3 & Lv3 & Ft3 & Id3); auto; try lia.
      { intros y [Y1 Y2]. eapply same_trans. apply Sm. split; lia. apply (o_same D2). intros [Z _]. lia. lia. lia. }
      { eapply done_elem; eauto. }
      destruct (done_seq n0_ok R_ok (inr lo hi) D2 D3) as [D4 S4].
      { intros y [Y1 Y2] Hy. destruct (o_own D2 y Hy) as [[Z _]|[Z _]]; lia. }
      { intros y. unfold inr. lia. }
      exists s3. split; [|split; [|split; [|split]]].
      + eapply done_set; [exact D4| |tauto]. cbn [flat_map]. apply Permutation_app_comm.
      + cbn [flat_map]. rewrite K3, <- !app_assoc. reflexivity.
      + constructor; auto. eapply lives_frames; eauto.
      + constructor; auto.
      + intros F. inversion F; subst. cbn [flat_map]. rewrite (lone_tops x); [|eapply single_lone; eauto]. exists (flat_map tops ls ++ c :: B). reflexivity.
  Qed.
  Lemma make_frag_eq items w : make E (TFrag items) w =
    (let '(nodes, w1) := make_all keq E items w in
     let '(id, w2) := ufresh w1 (fun i => CreateComment i frag_text) in
     ((id, fun parent before w =>
        let '(_, ls, w1) := frag_mount parent id nodes (uemit w (InsertBefore parent id before)) in (LFrag id ls, w1)), w2)).
  Proof. reflexivity. Qed.
  Lemma frag_good items : Forall good items -> good (TFrag items).
  Proof.
    intros Gi (St & Sg) w s Iv. apply settled_all in St. rewrite make_frag_eq.
    pose proof (make_all_ok items Gi St w s Iv) as MA. destruct (make_all keq E items w) as [nodes w1]. destruct MA as (s1 & I1 & L1 & S1 & Rd).
    destruct (comment_made w1 s1 frag_text I1) as (s2 & I2 & G2 & P2 & S2). pose proof (i_next Iv) as Nx. cbn [ufresh snd fst] in *.
    exists s2. split; auto. cbn [u_next]. split; [lia|]. split. intros y Hy. eapply same_trans; [apply S1; lia|apply S2; lia].
    split. cbn; split; lia. intros w3 s3 P A B ref Iv3 Hn Sm El Mi LP Kd Bf. cbn [snd fst].
    assert (Si : same s2 s3 (u_next w1)) by (apply Sm; split; lia). pose proof (same_get _ _ _ Si) as Gs. destruct Si as (U1 & U2 & U3 & U4).
    destruct (comment_put w3 s3 P A B ref (u_next w1) frag_text) as (s4 & D4 & K4 & G4 & P4); auto; try lia; try congruence.
    pose proof (frag_ok s1 P (u_next w1) A B nodes items _ _ Rd Sg (uemit w3 (InsertBefore P (u_next w1) ref)) s4 (o_inv D4) ltac:(cbn; lia)) as FO.
    destruct (frag_mount P (u_next w1) nodes _) as [[prev ls] w5]. destruct FO as (s5 & D5 & K5 & Lv5 & Ft5 & _); auto.
    { intros x [X1 X2]. eapply same_trans; [apply S2; lia|]. eapply same_trans; [apply Sm; split; lia|]. apply (o_same D4); lia. }
    { eapply done_elem; eauto. }
    destruct (done_seq n0_ok R_ok (inr (u_next w) (u_next w1 + 1)) D4 D5) as [D6 S6].
    { intros x [X1 X2] [X|[]]. lia. } { intros x. unfold inr. lia. }
    assert (Sc : same s4 s5 (u_next w1)) by (apply S6; left; auto).
    exists s5. split; [|split; [|split; [|split]]].
    - exact D6.
    - cbn [tops]. rewrite K5, <- app_assoc. reflexivity.
    - apply lives_frag. rewrite (same_get _ _ _ Sc). destruct Sc as (_ & _ & _ & V4). split; [|split]; auto; congruence.
    - apply fits_frag. auto.
    - reflexivity.
  Qed.

  (** *** Lists *)
  Lemma take_key_some k (c : list (KT * live)) n c1 : take_key keq k c = Some (n, c1) -> exists a b, c = a ++ (k, n) :: b /\ c1 = a ++ b.
  Proof.
    revert n c1. induction c as [|[k' x] c IH]; cbn; intros n c1; [discriminate|]. destruct (keq k k') eqn:Ek.
    - intros X. injection X as <- <-. apply keq_ok in Ek. subst. exists [], c. auto.
    - destruct (take_key keq k c) as [[y r]|]; [|discriminate]. intros X. injection X as <- <-. destruct (IH _ _ eq_refl) as (a & b & -> & ->). exists ((k', x) :: a), b. auto.
  Qed.
  Lemma lones_tops (ls : list live) : Forall lone ls -> flat_map tops ls = map l_id ls.
  Proof. induction 1; cbn; auto. rewrite lone_tops, IHForall; auto. Qed.
  Lemma middle_ok key render P A : (forall i, mounts (render i)) -> (forall i, single (render i)) -> mine P ->
    forall items last cache acc w s M, Inv w s -> elem s P -> P < u_next w ->
    Forall (lives s P) (map snd cache) -> Forall lone (map snd cache) -> Forall (fun e => forall i, key i = fst e -> fits (snd e) (render i)) cache ->
    own w P (flat_map ids (map snd cache)) -> b_kids s P = A ++ map l_id (map snd cache) ++ last :: M ->
    let '(acc', rest, w') := middle_loop keq key (fun i w => make E (render i) w) P items last cache acc w in
    exists new s' X, acc' = new ++ acc /\ map fst new = rev items /\ done w s P (fun _ => False) w' s' X /\
      Permutation (flat_map ids (map snd new) ++ flat_map ids (map snd rest)) (X ++ flat_map ids (map snd cache)) /\
      b_kids s' P = A ++ map l_id (map snd rest) ++ map l_id (map snd new) ++ last :: M /\
      Forall (lives s' P) (map snd new) /\ Forall (lives s' P) (map snd rest) /\ Forall lone (map snd new) /\ Forall lone (map snd rest) /\
      Forall (fun e => fits (snd e) (render (fst e))) new.
  Proof.
    intros Mt Sg Mi. induction items as [|x items IH]; intros last cache acc w s M Iv El LP Lv Ln Ft Ow Kd; cbn [middle_loop].
    - exists [], s, []. split; [auto|]. split; [auto|]. split; [apply done_id; auto|]. split; [cbn; auto|]. split; [auto|]. repeat split; auto; constructor.
    - destruct (take_key keq (key x) cache) as [[n c1]|] eqn:Tk.
      + apply take_key_some in Tk. destruct Tk as (ca & cb & -> & ->).
        rewrite map_app in *. cbn [map snd] in *. rewrite map_app in Kd. cbn [map] in Kd. rewrite flat_map_app in Ow. cbn [flat_map] in Ow.
        assert (Ow2 : own w P (ids n ++ (flat_map ids (map snd ca) ++ flat_map ids (map snd cb)))).
        { eapply own_perm; [|exact Ow]. rewrite !app_assoc. apply Permutation_app_tail. apply Permutation_app_comm. }
        pose proof Ow2 as Ow3. apply own_app in Ow3. destruct Ow3 as (On & Oc & Dj). rewrite <- flat_map_app in Oc.
        apply Forall_app in Lv. destruct Lv as [Lva Lvb]. inversion Lvb as [|? ? Lvn Lvb']; subst. clear Lvb.
        apply Forall_app in Ln. destruct Ln as [Lna Lnb]. inversion Lnb as [|? ? Lnn Lnb']; subst. clear Lnb.
        apply Forall_app in Ft. destruct Ft as [Fta Ftb]. inversion Ftb as [|? ? Ftn Ftb']; subst. clear Ftb. cbn [fst snd] in Ftn.
        destruct (lives_id _ _ _ Lvn) as [Gn Pn]. destruct On as (_ & On & _). destruct (On (l_id n) (id_ids n)) as (N1 & N2 & N3).
        destruct (i_par Iv _ _ Pn) as [Lt _]. specialize (Lt N1).
        pose proof (proj1 (i_site Iv P Mi)) as NDk. rewrite Kd in NDk.
        destruct (move_done s0 R n0 n0_ok R_ok w s P (A ++ map l_id (map snd ca) ++ map l_id (map snd cb)) (last :: M) (Some last) (l_id n)) as (s1 & D1 & K1); auto.
        { rewrite Kd, <- !app_assoc. replace (A ++ map l_id (map snd ca) ++ (l_id n :: map l_id (map snd cb)) ++ last :: M)
            with ((A ++ map l_id (map snd ca)) ++ [l_id n] ++ (map l_id (map snd cb) ++ last :: M)) by (rewrite <- !app_assoc; reflexivity).
          rewrite <- outs_one, outs_mid. rewrite <- !app_assoc. reflexivity.
          rewrite <- !app_assoc in *. cbn in *. auto. }
        { exists M. auto. }
        assert (SP : forall y, y <> P -> y < u_next w -> same s s1 y) by (intros; apply (o_same D1); auto).
        assert (Sf : forall ls, Forall (lives s P) ls -> own w P (flat_map ids ls) -> Forall (lives s1 P) ls).
        { intros ls Fl (_ & Ol & _). eapply lives_frames; eauto. intros y Hy. destruct (Ol y Hy) as (? & ? & ?). auto. }
        specialize (IH (l_id n) (ca ++ cb) ((x, n) :: acc) _ s1 (last :: M) (o_inv D1) (done_elem _ _ _ _ _ _ _ D1 El) ltac:(cbn; auto)).
        rewrite !map_app in IH.
        destruct (middle_loop keq key _ P items (l_id n) (ca ++ cb) _ _) as [[acc' rest] w'].
        destruct IH as (new & s' & X & E1 & E2 & D2 & Pm & K2 & V1 & V2 & V3 & V4 & V5).
        { apply Sf. apply Forall_app; auto. auto. } { apply Forall_app; auto. } { apply Forall_app; auto. } { auto. } { rewrite K1, <- !app_assoc. reflexivity. }
        destruct (done_seq n0_ok R_ok (fun _ => False) D1 D2) as [D3 S3]; try tauto.
        assert (Ln' : lives s' P n).
        { eapply lives_frame; [exact Lvn|]. intros y Hy. destruct (On y Hy) as (? & ? & ?). apply (o_same D3); auto. }
        exists (new ++ [(x, n)]), s', X. rewrite !map_app. cbn [map fst snd rev]. split; [rewrite <- app_assoc; exact E1|]. split; [rewrite E2; reflexivity|].
        split; [exact D3|]. split; [|split; [|split; [|split; [|split; [|split]]]]]; auto.
        * rewrite !flat_map_app in *. cbn [flat_map]. rewrite app_nil_r.
          transitivity (ids n ++ (flat_map ids (map snd new) ++ flat_map ids (map snd rest))).
          { rewrite app_assoc. apply Permutation_app_tail. apply Permutation_app_comm. }
          rewrite Pm. rewrite !app_assoc. transitivity ((X ++ ids n) ++ flat_map ids (map snd ca) ++ flat_map ids (map snd cb)).
          { rewrite <- !app_assoc. rewrite app_assoc. rewrite (app_assoc X). apply Permutation_app_tail. apply Permutation_app_comm. }
          rewrite <- !app_assoc. apply Permutation_app_head. rewrite !app_assoc. apply Permutation_app_tail. apply Permutation_app_comm.
        * rewrite K2, <- !app_assoc. reflexivity.
        * apply Forall_app; auto.
        * apply Forall_app; auto.
        * apply Forall_app. split; auto.
      + pose proof (Mt x w s P (A ++ map l_id (map snd cache)) (last :: M) (Some last) Iv El Mi LP) as Mk. rewrite <- !app_assoc in Mk. specialize (Mk Kd (ex_intro _ M eq_refl)).
        destruct (make E (render x) w) as [[i m] w1]. destruct (m P (Some last) w1) as [n w2]. destruct Mk as (s1 & D1 & K1 & Lvn & Ftn & Id).
        pose proof (single_lone _ _ Ftn (Sg x)) as Lnn. rewrite (lone_tops n Lnn), <- !app_assoc in K1. cbn [app] in K1. subst i. pose proof (o_le D1) as Le.
        pose proof Ow as (_ & Oc & _).
        assert (Lv1 : Forall (lives s1 P) (map snd cache)).
        { eapply lives_frames; eauto. intros y Hy. destruct (Oc y Hy) as (? & ? & ?). apply (o_same D1); auto. }
        specialize (IH (l_id n) cache ((x, n) :: acc) w2 s1 (last :: M) (o_inv D1) (done_elem _ _ _ _ _ _ _ D1 El) ltac:(lia) Lv1 Ln Ft (own_le _ _ n0_ok R_ok _ _ _ _ Ow Le) K1).
        destruct (middle_loop keq key _ P items (l_id n) cache _ _) as [[acc' rest] w'].
        destruct IH as (new & s' & X & E1 & E2 & D2 & Pm & K2 & V1 & V2 & V3 & V4 & V5).
        destruct (done_seq n0_ok R_ok (fun _ => False) D1 D2) as [D3 S3]; try tauto.
        assert (Ln' : lives s' P n) by (eapply lives_frame; eauto).
        exists (new ++ [(x, n)]), s', (ids n ++ X). rewrite !map_app. cbn [map fst snd rev]. split; [rewrite <- app_assoc; exact E1|]. split; [rewrite E2; reflexivity|].
        split; [exact D3|]. split; [|split; [|split; [|split; [|split; [|split]]]]]; auto.
        * rewrite !flat_map_app in *. cbn [flat_map]. rewrite app_nil_r.
          transitivity (ids n ++ (flat_map ids (map snd new) ++ flat_map ids (map snd rest))).
          { rewrite app_assoc. apply Permutation_app_tail. apply Permutation_app_comm. }
          rewrite Pm, app_assoc. reflexivity.
        * rewrite K2, <- !app_assoc. reflexivity.
        * apply Forall_app; auto.
        * apply Forall_app; auto.
        * apply Forall_app. split; auto.
  Qed.

  Lemma middle_empty key mk P items : forall last acc w, snd (fst (middle_loop (K:=K) (V:=V) (L:=L) (I:=I) keq key mk P items last [] acc w)) = [].
  Proof.
    induction items as [|x items IH]; intros last acc w; cbn [middle_loop take_key]; auto.
    destruct (mk x w) as [[i m] w1]. destruct (m P (Some last) w1) as [n w2]. apply IH.
  Qed.
  Lemma list_good k key render : (forall i, good (render i)) -> good (TList k key render).
  Proof.
    intros Gr (St & Sg & Sk) w s Iv. cbn [UiModel.make].
    destruct (comment_made w s list_text Iv) as (s1 & I1 & G1 & P1 & S1). pose proof (i_next Iv) as Nx. cbn [ufresh snd fst] in *.
    exists s1. split; auto. cbn [u_next]. split; [lia|]. split. intros y Hy. apply S1. lia.
    split. cbn; split; lia. intros w1 s2 P A B ref Iv2 Hn Sm El Mi LP Kd Bf. cbn [snd fst].
    assert (Si : same s1 s2 (u_next w)) by (apply Sm; split; lia). pose proof (same_get _ _ _ Si) as Gs. destruct Si as (U1 & U2 & U3 & U4).
    destruct (comment_put w1 s2 P A B ref (u_next w) list_text) as (s3 & D3 & K3 & G3 & P3); auto; try lia; try congruence.
    assert (Dr : forall x, inr (u_next w) (u_next w + 1) x <-> x = u_next w) by (intros; unfold inr; lia).
    assert (Mt : forall i, mounts (render i)) by (intros; apply good_mounts; auto).
    pose proof (middle_ok key render P A Mt Sg Mi (rev (e_list E k)) (u_next w) [] [] _ s3 B (o_inv D3) (done_elem _ _ _ _ _ _ _ D3 El) ltac:(cbn; lia)) as MO.
    pose proof (middle_empty key (fun i w => make E (render i) w) P (rev (e_list E k)) (u_next w) [] (uemit w1 (InsertBefore P (u_next w) ref))) as Er.
    destruct (middle_loop keq key _ P (rev (e_list E k)) (u_next w) [] [] _) as [[acc' rest] w4]. cbn [fst snd] in Er. subst rest.
    destruct MO as (new & s4 & X & E1 & E2 & D4 & Pm & K4 & V1 & _ & V3 & _ & V5); cbn [map flat_map app]; auto; try apply Forall_nil.
    { split; [constructor|]. split. intros x []. cbn. lia. }
    rewrite app_nil_r in E1. subst acc'. cbn [map flat_map app] in Pm, K4. rewrite !app_nil_r in Pm. rewrite rev_involutive in E2.
    destruct (done_seq n0_ok R_ok (fun x => x = u_next w) D3 D4) as [D5 S5]; try tauto.
    assert (Sc : same s3 s4 (u_next w)) by (apply S5; left; auto).
    exists s4. split; [|split; [|split; [|split]]].
    - rewrite ids_list. eapply done_set; [exact D5| |]. cbn [app]. apply perm_skip. symmetry. exact Pm. intros y. rewrite Dr. tauto.
    - rewrite tops_list, lones_tops, <- app_assoc; auto.
    - apply lives_list. rewrite (same_get _ _ _ Sc). destruct Sc as (_ & _ & _ & V4). split; [|split; [|split]]; auto; congruence.
    - apply fits_list. auto.
    - reflexivity.
  Qed.
  Lemma make_good t : good t.
  Proof.
    induction t using tmpl_ind2.
    - apply text_good.
    - apply bound_good.
    - apply elem_good; auto.
    - apply frag_good; auto.
    - apply value_good; auto.
    - apply list_good; auto.
  Qed.
  Lemma make_mounts t : settled t -> mounts t.
  Proof. intros H. apply good_mounts; auto. apply make_good. Qed.

  (** *** Calling subscriptions *)
  Definition calls (l : live) : Prop := forall c j t w s P A B, Inv w s -> lives s P l -> own w P (ids l) -> fits l t -> settled t -> elem s P -> mine P ->
    b_kids s P = A ++ tops l ++ B ->
    let '(l', w') := call E c j l w in
    exists s', done w s P (fun x => In x (ids l)) w' s' (ids l') /\ b_kids s' P = A ++ tops l' ++ B /\ lives s' P l' /\ fits l' t /\ l_id l' = l_id l.
  Lemma own_keep w s P l : Inv w s -> own w P l -> done w s P (fun x => In x l) w s l.
  Proof.
    intros Iv (O1 & O2 & O3). destruct (done_keep l (done_id _ _ _ n0_ok R_ok w s P Iv O3)) as [D _]; auto.
    - intros X. apply O2 in X. tauto.
    - intros x X. apply O2 in X. tauto.
    - eapply done_set; [exact D|reflexivity|]. tauto.
  Qed.
  Lemma call_same l t w s P A B : Inv w s -> lives s P l -> own w P (ids l) -> fits l t -> b_kids s P = A ++ tops l ++ B ->
    exists s', done w s P (fun x => In x (ids l)) w s' (ids l) /\ b_kids s' P = A ++ tops l ++ B /\ lives s' P l /\ fits l t /\ l_id l = l_id l.
  Proof. intros Iv Lv Ow Ft Kd. exists s. split; auto. apply own_keep; auto. Qed.
  Lemma call_all_ok c j : forall ls, Forall calls ls -> forall ts w s P A B, Inv w s -> Forall (lives s P) ls -> own w P (flat_map ids ls) -> Forall2 fits ls ts ->
    Forall settled ts -> elem s P -> mine P -> b_kids s P = A ++ flat_map tops ls ++ B ->
    let '(ls', w') := call_all veq ieq keq ord E c j ls w in
    exists s', done w s P (fun x => In x (flat_map ids ls)) w' s' (flat_map ids ls') /\ b_kids s' P = A ++ flat_map tops ls' ++ B /\ Forall (lives s' P) ls' /\
      Forall2 fits ls' ts.
  Proof.
    induction 1 as [|x ls Cx F IH]; intros ts w s P A B Iv Lv Ow Ft St El Mi Kd; cbn [call_all].
    - inversion Ft; subst. exists s. split; auto. apply own_keep; auto.
    - fold (call_all veq ieq keq ord E c j). inversion Lv as [|? ? Lx Ls]; subst. inversion Ft as [|? t ? ts' Fx Fs]; subst. inversion St as [|? ? Sx Ss]; subst.
      cbn [flat_map] in Ow, Kd. pose proof Ow as Ow'. apply own_app in Ow. destruct Ow as (Ox & Os & Dj). rewrite <- app_assoc in Kd.
      specialize (Cx c j t w s P A (flat_map tops ls ++ B) Iv Lx Ox Fx Sx El Mi Kd). destruct (call E c j x w) as [y w1].
      destruct Cx as (s1 & D1 & K1 & Ly & Fy & _). pose proof (o_le D1) as Le. rewrite app_assoc in K1.
      assert (Ls1 : Forall (lives s1 P) ls).
      { eapply lives_frames; eauto. intros z Hz. destruct (proj1 (proj2 Os) z Hz) as (? & ? & ?). apply (o_same D1); auto. intros Y. eapply Dj; eauto. }
      specialize (IH ts' w1 s1 P (A ++ tops y) B (o_inv D1) Ls1 (own_le _ _ n0_ok R_ok _ _ _ _ Os Le) Fs Ss (done_elem _ _ _ _ _ _ _ D1 El) Mi K1).
      destruct (call_all veq ieq keq ord E c j ls w1) as [ys w2]. destruct IH as (s2 & D2 & K2 & Lys & Fys).
      destruct (done_seq n0_ok R_ok (fun z => In z (ids x ++ flat_map ids ls)) D1 D2) as [D3 S3].
      { intros z Hz Hy. destruct (o_own D1 z Hy) as [Y|[Y _]]. eapply Dj; eauto. apply (proj1 (proj2 Os)) in Hz. lia. }
      { intros z. rewrite in_app_iff. split; [|tauto]. intros [Y|Y]; auto. right. split; auto. apply (proj1 (proj2 Os)). auto. }
      exists s2. split; [exact D3|]. cbn [flat_map]. split; [rewrite K2, <- !app_assoc; reflexivity|]. split; constructor; auto.
      eapply lives_frame; eauto.
  Qed.
  Lemma call_items_eq c j cur : forall w, call_items veq ieq keq ord E c j cur w =
    let '(ls, w') := call_all veq ieq keq ord E c j (map snd cur) w in (combine (map fst cur) ls, w').
  Proof.
    induction cur as [|[a x] cur IH]; intros w; cbn [call_items call_all map fst snd combine]; auto.
    fold (call_items veq ieq keq ord E c j). fold (call_all veq ieq keq ord E c j). destruct (call E c j x w) as [y w1]. rewrite IH.
    destruct (call_all veq ieq keq ord E c j (map snd cur) w1) as [ys w2]. reflexivity.
  Qed.
  Lemma call_all_len c j ls : forall w, length (fst (call_all veq ieq keq ord E c j ls w)) = length ls.
  Proof.
    induction ls as [|x ls IH]; intros w; cbn [call_all]; auto. fold (call_all veq ieq keq ord E c j). destruct (call E c j x w) as [y w1]. specialize (IH w1).
    destruct (call_all veq ieq keq ord E c j ls w1) as [ys w2]. cbn in *. congruence.
  Qed.

  (** An attribute. *)
  Lemma call_nth_cases i : forall bs j w, call_nth veq E i j bs w = (bs, w) \/
    exists l1 b l2, bs = l1 ++ b :: l2 /\ a_last b <> e_val E (a_key b) /\
      call_nth veq E i j bs w = (l1 ++ BAttr (a_name b) (a_key b) (a_fun b) (e_val E (a_key b)) :: l2, uemit w (attr_cmd i (a_name b) (a_fun b (e_val E (a_key b))))).
  Proof.
    induction bs as [|b bs IH]; intros [|j] w; cbn [call_nth]; auto.
    - unfold call_attr. destruct (veq (a_last b) (e_val E (a_key b))) eqn:Eq; auto. right. exists [], b, bs. split; auto. split; auto.
      intros X. apply veq_ok in X. congruence.
    - destruct (IH j w) as [->|(l1 & b1 & l2 & -> & Nb & ->)]; auto. right. exists (b :: l1), b1, l2. auto.
  Qed.
  Lemma pairs_top_eq (cur : list (I * live)) : forall new p c n, pairs_top ieq cur new = (p, c, n) -> cur = p ++ c /\ new = map fst p ++ n.
  Proof.
    induction cur as [|[i x] cur IH]; intros [|j new] p c n; cbn; try (intros X; injection X as <- <- <-; auto; fail).
    destruct (ieq i j) eqn:Eq; [|intros X; injection X as <- <- <-; auto].
    apply ieq_ok in Eq. subst j. destruct (pairs_top ieq cur new) as [[p1 c1] n1] eqn:Ep. intros X. injection X as <- <- <-.
    destruct (IH _ _ _ _ Ep) as [-> ->]. auto.
  Qed.
  Lemma pairs_bottom_eq (cur : list (I * live)) new p c n : pairs_bottom ieq cur new = (p, c, n) -> cur = c ++ p /\ new = n ++ map fst p.
  Proof.
    unfold pairs_bottom. destruct (pairs_top ieq (rev cur) (rev new)) as [[p1 c1] n1] eqn:Ep. intros X. injection X as <- <- <-.
    apply pairs_top_eq in Ep. destruct Ep as [E1 E2]. split.
    - rewrite <- rev_app_distr, <- E1, rev_involutive. auto.
    - rewrite map_rev, <- rev_app_distr, <- E2, rev_involutive. auto.
  Qed.
  Lemma leq_ok a : forall b, leq ieq a b = true <-> a = b.
  Proof.
    induction a as [|x a IH]; intros [|y b]; cbn; split; try congruence; try discriminate; auto.
    - intros X. apply andb_true_iff in X. destruct X as [X Y]. apply ieq_ok in X. apply IH in Y. congruence.
    - intros X. injection X as -> ->. rewrite (proj2 (ieq_ok y y) eq_refl). cbn. apply IH. auto.
  Qed.
  Lemma flat_ids_app (a b : list (I * live)) : flat_map ids (map snd (a ++ b)) = flat_map ids (map snd a) ++ flat_map ids (map snd b).
  Proof. rewrite map_app, flat_map_app. reflexivity. Qed.
  Lemma flat_perm_in {A B} (f : A -> list B) l l' : Permutation l l' -> forall y, In y (flat_map f l') <-> In y (flat_map f l).
  Proof. intros Po y. pose proof (Permutation_flat_map f Po) as H. split; apply Permutation_in; auto. apply Permutation_sym; auto. Qed.
  Lemma reorder_ok key render P i cur new w s A B : (forall x, settled (render x)) -> (forall x, single (render x)) -> (forall x y, key x = key y -> render x = render y) ->
    mine P -> Inv w s -> elem s P -> Forall (lives s P) (map snd cur) -> Forall (fun e => fits (snd e) (render (fst e))) cur ->
    own w P (flat_map ids (map snd cur)) -> b_kids s P = A ++ map l_id (map snd cur) ++ i :: B ->
    let '(cur', w') := reorder ieq keq ord E P i key render cur new w in
    exists s', done w s P (fun x => In x (flat_map ids (map snd cur))) w' s' (flat_map ids (map snd cur')) /\ b_kids s' P = A ++ map l_id (map snd cur') ++ i :: B /\
      Forall (lives s' P) (map snd cur') /\ map fst cur' = new /\ Forall (fun e => fits (snd e) (render (fst e))) cur'.
  Proof.
    intros Sr Sg Sk Mi Iv El Lv Ft Ow Kd. unfold reorder.
    destruct (pairs_top ieq cur new) as [[top cur1] new1] eqn:E1. apply pairs_top_eq in E1. destruct E1 as [-> ->].
    destruct (pairs_bottom ieq cur1 new1) as [[bottom cur2] new2] eqn:E2. apply pairs_bottom_eq in E2. destruct E2 as [-> ->].
    rewrite !flat_ids_app in Ow. rewrite !map_app in Kd, Lv. rewrite !map_app in Kd. rewrite <- !app_assoc in Kd.
    apply Forall_app in Lv. destruct Lv as [Lt Lv]. apply Forall_app in Lv. destruct Lv as [Lc Lb].
    apply Forall_app in Ft. destruct Ft as [Ftt Ft]. apply Forall_app in Ft. destruct Ft as [Fc Fb].
    assert (Ow2 : own w P (flat_map ids (map snd cur2) ++ flat_map ids (map snd top) ++ flat_map ids (map snd bottom))).
    { eapply own_perm; [|exact Ow]. rewrite !app_assoc. apply Permutation_app_tail, Permutation_app_comm. }
    apply own_app in Ow2. destruct Ow2 as (Oc & Otb & Dj).
    set (last := match bottom with (_, x) :: _ => l_id x | [] => i end).
    assert (EB : exists M, map l_id (map snd bottom) ++ i :: B = last :: M).
    { destruct bottom as [|[b x] bt]; cbn; eexists; reflexivity. }
    destruct EB as [M EB]. rewrite EB in Kd.
    assert (Lnc : Forall lone (map snd cur2)). { rewrite Forall_map. eapply Forall_impl; [|exact Fc]. cbn. intros e He. eapply single_lone; eauto. }
    assert (EM : map snd (map (fun e => (key (fst e), snd e)) cur2) = map snd cur2) by (rewrite map_map; reflexivity).
    pose proof (middle_ok key render P (A ++ map l_id (map snd top)) (fun x => make_mounts _ (Sr x)) Sg Mi (rev new2) last (map (fun e => (key (fst e), snd e)) cur2) []
      w s M Iv El) as MO. rewrite EM in MO. specialize (MO ltac:(apply Ow) Lc Lnc).
    destruct (middle_loop keq key _ P (rev new2) last _ [] w) as [[middle rest] w1].
    destruct MO as (nw & s1 & X & E3 & E4 & D1 & Pm & K1 & V1 & V2 & V3 & V4 & V5).
    { rewrite Forall_map. eapply Forall_impl; [|exact Fc]. cbn. intros e He x Hx. rewrite (Sk x (fst e)); auto. }
    { auto. } { rewrite Kd, <- app_assoc. reflexivity. }
    rewrite app_nil_r in E3. subst middle. rewrite rev_involutive in E4.
    destruct (done_keep (flat_map ids (map snd cur2)) D1) as [D2 S2].
    { apply Oc. } { intros Y. apply (proj1 (proj2 Oc)) in Y. tauto. } { intros y Hy. apply (proj1 (proj2 Oc)) in Hy. tauto. }
    pose proof (o_le D1) as Le.
    assert (Ov : own w1 P (X ++ flat_map ids (map snd cur2))).
    { eapply own_done; [exact n0_ok|exact R_ok|exact D2| |]. apply (i_next Iv). intros y [[]|Hy]. apply (proj1 (proj2 Oc)) in Hy. tauto. }
    assert (Or : own w1 P (flat_map ids (map snd rest))).
    { eapply own_perm in Ov; [|apply Permutation_sym; exact Pm]. apply own_app in Ov. tauto. }
    pose proof (ord_ok (map snd rest)) as Po.
    destruct (drop_all (ord (map snd rest))) with (w := w1) (s := s1) (P := P) as (s2 & D3 & K3).
    { rewrite Forall_forall. intros; apply drop_ok. } { apply D1. }
    { rewrite Forall_forall in *. intros y Hy. apply V2. eapply Permutation_in; [apply Permutation_sym|]; eauto. } { apply Or. }
    { eapply own_perm; [|exact Or]. apply Permutation_flat_map; auto. }
    destruct (done_minus n0_ok R_ok (flat_map ids (map snd nw)) (flat_map ids (map snd rest)) (w2 := uemits w1 (flat_map drop_live (ord (map snd rest)))) (s2 := s2) D2) as [D4 S4].
    { symmetry. exact Pm. }
    { eapply done_set; [exact D3|reflexivity|]. apply flat_perm_in. auto. }
    destruct (done_keep (flat_map ids (map snd top) ++ flat_map ids (map snd bottom)) D4) as [D5 S5].
    { apply Otb. } { intros Y. apply (proj1 (proj2 Otb)) in Y. tauto. }
    { intros y Hy. split. intros [[]|Y]. eapply Dj; eauto. apply (proj1 (proj2 Otb)) in Hy. tauto. }
    exists s2. split; [|split; [|split; [|split]]].
    - rewrite !flat_ids_app. eapply done_set; [exact D5| |].
      + rewrite !app_assoc. apply Permutation_app_tail, Permutation_app_comm.
      + intros y. rewrite !in_app_iff. tauto.
    - rewrite K3. rewrite (outs_ext _ (flat_map tops (ord (map snd rest))) (map l_id (map snd rest))).
      + rewrite K1. rewrite outs_mid. { rewrite !map_app, <- !app_assoc, <- EB. reflexivity. }
        rewrite <- K1. apply (i_site (o_inv D1) P Mi).
      + intros y. rewrite <- (lones_tops (map snd rest)); auto. apply flat_perm_in. auto.
    - assert (forall ls, Forall (lives s P) ls -> (forall y, In y (flat_map ids ls) -> In y (flat_map ids (map snd top) ++ flat_map ids (map snd bottom))) -> Forall (lives s2 P) ls) as Fr.
      { intros ls Fl Hl. eapply lives_frames; eauto. }
      rewrite !map_app. apply Forall_app. split; [|apply Forall_app; split].
      + apply Fr; auto. intros. apply in_or_app. auto.
      + eapply lives_frames; eauto.
      + apply Fr; auto. intros. apply in_or_app. auto.
    - rewrite !map_app, E4. reflexivity.
    - apply Forall_app. split; auto. apply Forall_app. auto.
  Qed.

  Lemma call_elem_eq c j i name bs ks w : call E c j (LElem i name bs ks) w =
    (if i =? c then let '(bs1, w1) := call_nth veq E i j bs w in (LElem i name bs1 ks, w1)
     else let '(ks1, w1) := call_all veq ieq keq ord E c j ks w in (LElem i name bs ks1, w1)).
  Proof. reflexivity. Qed.
  Lemma call_frag_eq c j i ls w : call E c j (LFrag i ls) w = (let '(ls1, w1) := call_all veq ieq keq ord E c j ls w in (LFrag i ls1, w1)).
  Proof. reflexivity. Qed.
  Lemma call_list_eq c j i p k key r v cur w : call E c j (LList i p k key r v cur) w =
    (if i =? c then
       if leq ieq v (e_list E k) then (LList i p k key r v cur, w)
       else let '(cur1, w1) := reorder ieq keq ord E p i key r cur (e_list E k) w in (LList i p k key r (e_list E k) cur1, w1)
     else let '(cur1, w1) := call_items veq ieq keq ord E c j cur w in (LList i p k key r v cur1, w1)).
  Proof. reflexivity. Qed.
  (** A node next to what was done. *)
  Lemma done_next w s P X w' s' X' i : done w s P (fun x => In x X) w' s' X' -> own w P (i :: X) ->
    done w s P (fun x => In x (i :: X)) w' s' (i :: X') /\ same s s' i.
  Proof.
    intros D (O1 & O2 & O3). inversion O1; subst. destruct (O2 i) as (U1 & U2 & U3); [left; auto|].
    destruct (done_keep [i] D) as [D1 S1].
    - repeat constructor. intros [].
    - intros [Y|[]]. auto.
    - intros x [<-|[]]. auto.
    - split; [|apply S1; left; auto]. eapply done_set; [exact D1|apply Permutation_sym, Permutation_cons_append|]. intros x. cbn. tauto.
  Qed.
  Lemma own_cons w P i X : own w P (i :: X) -> own w P X /\ n0 <= i /\ i < u_next w /\ i <> P /\ ~ In i X.
  Proof.
    intros O. change (i :: X) with ([i] ++ X) in O. apply own_app in O. destruct O as (O1 & O2 & O3). destruct (proj1 (proj2 O1) i) as (? & ? & ?); [left; auto|].
    do 4 (split; [auto|]). apply O3. left. auto.
  Qed.
  Lemma attrs_names (bs : list battr) at' : map (fun b => (a_name b, (a_key b, a_fun b))) bs = at' -> map a_name bs = map fst at'.
  Proof. intros <-. rewrite map_map. reflexivity. Qed.
  Lemma call_ok l : calls l.
  Proof.
    induction l as [i t|i k f v|i n a ks IH|i ls IH|i p k r v|i p k r v x IH|i p k key r v cur IH] using live_ind2; intros c j t' w s P A B Iv Lv Ow Ft St El Mi Kd.
    - cbn [UiModel.call]. apply call_same; auto.
    - cbn [UiModel.call]. destruct (i =? c); [|apply call_same; auto]. destruct (veq v (e_val E k)); [apply call_same; auto|].
      destruct Lv as [G Q]. destruct (own_cons _ _ _ _ Ow) as (_ & U1 & U2 & U3 & _).
      destruct (update_done s0 R n0 n0_ok R_ok w s P i (BText (f (e_val E k))) (UpdateText i (f (e_val E k)))) as (s' & D & G1 & K1 & P1 & SP); auto; try congruence.
      { apply Ow. } { intros; exact Logic.I. } { cbn [b_step]. rewrite G. reflexivity. }
      exists s'. split; [|split; [|split; [|split]]]; auto.
      + eapply done_set; [exact D|reflexivity|]. intros x. cbn. intuition.
      + destruct SP as (_ & _ & -> & _). auto.
      + split; congruence.
    - rewrite call_elem_eq. pose proof Lv as Lv0. apply lives_elem in Lv. destruct Lv as ((at_ & G & An & Ar) & Q & Kk & Lv). destruct t' as [| |n' at' kt| | |]; try contradiction.
      pose proof Ft as Ft0. apply fits_elem in Ft. destruct Ft as (-> & Ea & Ft). destruct St as (S1 & S2 & S3 & ND & _ & St). apply settled_all in St.
      cbn [ids] in Ow. destruct (own_cons _ _ _ _ Ow) as (Ok & U1 & U2 & U3 & U4). pose proof (attrs_names _ _ Ea) as En. rewrite <- En in ND.
      destruct (i =? c).
      + destruct (call_nth_cases i a j w) as [->|(l1 & b & l2 & -> & Nb & ->)]; [apply call_same; auto|].
        rewrite map_app in ND. cbn [map] in ND. pose proof (NoDup_remove_2 _ _ _ ND) as Nn. rewrite <- map_app in Nn.
        destruct (update_done s0 R n0 n0_ok R_ok w s P i _ _ Iv ltac:(congruence) U1 U2 ltac:(congruence) ltac:(apply Ow) (attr_legal _ _ _)
          (attr_step _ _ _ _ (a_name b) (a_fun b (e_val E (a_key b))) G)) as (s' & D & G1 & K1 & P1 & SP).
        destruct (done_keep (flat_map ids ks) D) as [D1 Sk].
        { apply Ok. } { intros Y. apply (proj1 (proj2 Ok)) in Y. tauto. } { intros x Hx. split. intros ->; auto. apply (proj1 (proj2 Ok)) in Hx. tauto. }
        exists s'. split; [|split; [|split; [|split]]]; auto.
        * eapply done_set; [exact D1|reflexivity|]. intros x. cbn. intuition.
        * destruct SP as (_ & _ & -> & _). auto.
        * apply lives_elem. split; [|split; [|split]]; try congruence.
          { exists (set_opt at_ (a_name b) (a_fun b (e_val E (a_key b)))). split; auto. split.
            - intros b' Hb. rewrite get_set_opt. apply in_app_or in Hb. destruct Hb as [Hb|[<-|Hb]].
              + rewrite DomMacroBuild.beq_false. apply An. apply in_or_app; auto. intros X. apply Nn. rewrite <- X. apply in_map. apply in_or_app; auto.
              + cbn [a_name a_fun a_last]. rewrite DomMacroBuild.beq_refl. reflexivity.
              + rewrite DomMacroBuild.beq_false. apply An. apply in_or_app; right; right; auto. intros X. apply Nn. rewrite <- X. apply in_map. apply in_or_app; auto.
            - intros m Hm. rewrite map_app in Hm. cbn [map a_name] in Hm. rewrite get_set_opt. rewrite DomMacroBuild.beq_false. apply Ar. rewrite map_app. auto.
              intros ->. apply Hm. apply in_or_app. right. left. auto. }
          { eapply lives_frames; eauto. }
        * apply fits_elem. split; auto. split; auto. rewrite <- Ea, !map_app. reflexivity.
      + assert (Ok' : own w i (flat_map ids ks)).
        { destruct Ok as (V1 & V2 & V3). split; auto. split; auto. intros x Hx. destruct (V2 x Hx) as (? & ? & ?). repeat split; auto. intros ->. auto. }
        assert (Ei : elem s i) by (exists n', at_; auto).
        pose proof (call_all_ok c j ks IH kt w s i [] [] Iv Lv Ok' Ft St Ei (or_intror U1)) as CA. cbn [app] in CA. rewrite app_nil_r in CA. specialize (CA Kk).
        destruct (call_all veq ieq keq ord E c j ks w) as [ks1 w1]. destruct CA as (s1 & D1 & K1 & Lv1 & Ft1). rewrite app_nil_r in K1.
        destruct (done_up n0_ok R_ok P D1) as [D2 SP]; auto.
        { intros Y. apply (proj1 (proj2 Ok)) in Y. tauto. } { apply Ow. }
        destruct (o_P D1) as (W1 & W2 & W3).
        exists s1. split; [|split; [|split; [|split]]]; auto.
        * eapply done_set; [exact D2|reflexivity|]. intros x. cbn. intuition.
        * destruct SP as (_ & _ & -> & _). auto.
        * apply lives_elem. split; [|split; [|split]]; auto; try congruence. exists at_. split. unfold b_get in *. rewrite W1, W2. auto. split; auto.
        * apply fits_elem. auto.
    - rewrite call_frag_eq. apply lives_frag in Lv. destruct Lv as (G & Q & Lv). destruct t' as [| | |ts| |]; try contradiction. apply fits_frag in Ft. destruct St as [St Sg].
      apply settled_all in St. cbn [ids tops] in *. destruct (own_cons _ _ _ _ Ow) as (Ok & U1 & U2 & U3 & U4). rewrite <- app_assoc in Kd.
      pose proof (call_all_ok c j ls IH ts w s P A ([i] ++ B) Iv Lv Ok Ft St El Mi Kd) as CA.
      destruct (call_all veq ieq keq ord E c j ls w) as [ls1 w1]. destruct CA as (s1 & D1 & K1 & Lv1 & Ft1).
      destruct (done_next _ _ _ _ _ _ _ _ D1 Ow) as [D2 Si].
      exists s1. split; [|split; [|split; [|split]]]; auto.
      + cbn [tops]. rewrite <- app_assoc. auto.
      + apply lives_frag. rewrite (same_get _ _ _ Si). destruct Si as (_ & _ & _ & S4). split; [|split]; auto; congruence.
      + apply fits_frag. auto.
    - pose proof Lv as Lv0. pose proof Ft as Ft0. cbn [UiModel.call]. destruct (i =? c); [|apply call_same; auto]. destruct (veq v (e_val E k)); [apply call_same; auto|].
      destruct Lv as (G & Q & -> & _). destruct t' as [| | | |k' r'|]; try contradiction. destruct Ft as (-> & -> & _). specialize (St (e_val E k')).
      destruct (own_cons _ _ _ _ Ow) as (_ & U1 & U2 & U3 & U4). cbn [tops app] in Kd. unfold uemits at 1.
      destruct (r' (e_val E k')) as [t1|] eqn:Er.
      + pose proof (make_mounts t1 St w s P A (i :: B) (Some i) Iv El Mi ltac:(apply Ow) Kd (ex_intro _ B eq_refl)) as M.
        destruct (make E t1 w) as [[i1 m] w1]. destruct (m P (Some i) w1) as [y w2]. rewrite app_nil_r. destruct M as (s2 & D2 & K2 & Ly & Fy & _).
        destruct w2 as [nx q]. cbn [u_next u_q].
        assert (D2' : done w s P (fun x => In x []) (UW nx q) s2 (ids y)) by (eapply done_set; [exact D2|reflexivity|]; cbn; tauto).
        destruct (done_next _ _ _ _ _ _ _ i D2' Ow) as [D3 Si].
        exists s2. split; [|split; [|split; [|split]]]; auto.
        * cbn [tops]. rewrite <- app_assoc. auto.
        * cbn [lives]. rewrite (same_get _ _ _ Si). destruct Si as (_ & _ & _ & S4). repeat split; auto; congruence.
        * cbn [fits]. rewrite Er. auto.
      + rewrite app_nil_r. destruct w as [nx q]. exists s. split; [apply own_keep; auto|]. split; [auto|]. split; [cbn [lives]; auto|]. split; auto. cbn [fits]. rewrite Er. auto.
    - pose proof Lv as Lv0. pose proof Ft as Ft0. cbn [UiModel.call].
      destruct Lv as (G & Q & -> & Lx). destruct t' as [| | | |k' r'|]; try contradiction. destruct Ft as (-> & -> & Fx). pose proof (St v) as Sv. 
      destruct (r' v) as [tv|] eqn:Ev; [|contradiction].
      cbn [ids tops] in Ow, Kd. destruct (own_cons _ _ _ _ Ow) as (Ok & U1 & U2 & U3 & U4). rewrite <- app_assoc in Kd. cbn [app] in Kd.
      destruct (i =? c).
      + destruct (veq v (e_val E k')). { apply call_same; auto. cbn [tops]. rewrite <- app_assoc. auto. }
        clear IH. assert (DR : forall w2 s2 A2, Inv w2 s2 -> u_next w <= u_next w2 -> (forall y, In y (ids x) -> same s s2 y) -> b_kids s2 P = A ++ tops x ++ A2 ->
          exists s3, done w2 s2 P (fun y => In y (ids x)) (uemits w2 (drop_live x)) s3 [] /\ b_kids s3 P = A ++ A2).
        { intros w2 s2 A2 I2 L2 S2 K2. destruct (drop_ok x w2 s2 P I2) as (s3 & D3 & K3).
          - eapply lives_frame; eauto.
          - eapply own_le; eauto.
          - exists s3. split; auto. rewrite K3, K2, outs_mid; auto. rewrite <- K2. apply (i_site I2 P Mi). }
        specialize (St (e_val E k')). destruct (r' (e_val E k')) as [t1|] eqn:Er.
        * rewrite app_assoc in Kd.
          pose proof (make_mounts t1 St w s P (A ++ tops x) (i :: B) (Some i) Iv El Mi ltac:(apply Ow) Kd (ex_intro _ B eq_refl)) as M.
          destruct (make E t1 w) as [[i1 m] w1]. destruct (m P (Some i) w1) as [y w2]. destruct M as (s2 & D2 & K2 & Ly & Fy & _).
          rewrite <- app_assoc in K2. destruct (DR w2 s2 (tops y ++ i :: B)) as (s3 & D3 & K3); auto. apply D2. apply (o_le D2).
          { intros z Hz. destruct (proj1 (proj2 Ok) z Hz) as (? & ? & ?). apply (o_same D2); auto. }
          destruct (done_seq n0_ok R_ok (fun z => In z (ids x)) D2 D3) as [D4 S4].
          { intros z Hz Hy. destruct (o_own D2 z Hy) as [[]|[Y _]]. apply (proj1 (proj2 Ok)) in Hz. lia. }
          { intros z. split; [|tauto]. intros Hz. right. split; auto. apply (proj1 (proj2 Ok)) in Hz. tauto. }
          rewrite app_nil_r in D4. destruct (done_next _ _ _ _ _ _ _ i D4 Ow) as [D5 Si].
          exists s3. split; [|split; [|split; [|split]]]; auto.
          { cbn [tops]. rewrite <- app_assoc. auto. }
          { cbn [lives]. rewrite (same_get _ _ _ Si). destruct Si as (_ & _ & _ & S5). repeat split; auto; try congruence. eapply lives_frame; eauto. }
          { cbn [fits]. rewrite Er. auto. }
        * destruct (DR w s (i :: B)) as (s3 & D3 & K3); auto. lia. intros; apply same_refl.
          destruct (done_next _ _ _ _ _ _ _ i D3 Ow) as [D5 Si].
          exists s3. split; [|split; [|split; [|split]]]; auto.
          { cbn [lives]. rewrite (same_get _ _ _ Si). destruct Si as (_ & _ & _ & S5). repeat split; auto; congruence. }
          { cbn [fits]. rewrite Er. auto. }
      + specialize (IH c j tv w s P A (i :: B) Iv Lx Ok Fx Sv El Mi Kd). destruct (call E c j x w) as [y w1]. destruct IH as (s1 & D1 & K1 & Ly & Fy & _).
        destruct (done_next _ _ _ _ _ _ _ i D1 Ow) as [D2 Si].
        exists s1. split; [|split; [|split; [|split]]]; auto.
        * cbn [tops]. rewrite <- app_assoc. auto.
        * cbn [lives]. rewrite (same_get _ _ _ Si). destruct Si as (_ & _ & _ & S4). repeat split; auto; congruence.
        * cbn [fits]. rewrite Ev. auto.
    - rewrite call_list_eq. pose proof Lv as Lv0. pose proof Ft as Ft0. apply lives_list in Lv. destruct Lv as (G & Q & -> & Lv). destruct t' as [| | | | |k' key' r']; try contradiction.
      apply fits_list in Ft. destruct Ft as (-> & -> & -> & Ef & Ft). destruct St as (St & Sg & Sk).
      pose proof Ow as Ow0. rewrite ids_list in Ow. destruct (own_cons _ _ _ _ Ow) as (Ok & U1 & U2 & U3 & U4).
      assert (Fl : Forall lone (map snd cur)). { rewrite Forall_map. eapply Forall_impl; [|exact Ft]. cbn. intros e He. eapply single_lone; eauto. }
      pose proof Kd as Kd0. rewrite tops_list, <- app_assoc in Kd. cbn [app] in Kd.
      destruct (i =? c).
      + destruct (leq ieq v (e_list E k')); [apply call_same; auto|].
        rewrite (lones_tops _ Fl) in Kd. pose proof (reorder_ok key' r' P i cur (e_list E k') w s A B St Sg Sk Mi Iv El Lv Ft Ok Kd) as RO.
        destruct (reorder ieq keq ord E P i key' r' cur (e_list E k') w) as [cur1 w1]. destruct RO as (s1 & D1 & K1 & Lv1 & Ef1 & Ft1).
        assert (Fl1 : Forall lone (map snd cur1)). { rewrite Forall_map. eapply Forall_impl; [|exact Ft1]. cbn. intros e He. eapply single_lone; eauto. }
        destruct (done_next _ _ _ _ _ _ _ i D1 Ow) as [D2 Si].
        exists s1. rewrite !ids_list, tops_list, <- app_assoc. split; [|split; [|split; [|split]]]; auto.
        * rewrite lones_tops; auto.
        * apply lives_list. rewrite (same_get _ _ _ Si). destruct Si as (_ & _ & _ & S4). split; [|split; [|split]]; auto; congruence.
        * apply fits_list. auto.
      + rewrite call_items_eq. pose proof (call_all_len c j (map snd cur) w) as Ln. rewrite map_length in Ln.
        assert (F2 : Forall2 fits (map snd cur) (map (fun e => r' (fst e)) cur)).
        { clear -Ft. induction Ft; constructor; auto. }
        assert (F3 : Forall settled (map (fun e => r' (fst e)) cur)). { rewrite Forall_map. rewrite Forall_forall. auto. }
        pose proof (call_all_ok c j (map snd cur) IH _ w s P A (i :: B) Iv Lv Ok F2 F3 El Mi Kd) as CA.
        destruct (call_all veq ieq keq ord E c j (map snd cur) w) as [ls1 w1]. cbn [fst] in Ln. destruct CA as (s1 & D1 & K1 & Lv1 & Ft1).
        assert (Lc : length (map fst cur) = length ls1) by (rewrite map_length; auto).
        assert (Es : map snd (combine (map fst cur) ls1) = ls1).
        { clear -Lc. revert ls1 Lc. induction (map fst cur) as [|a l IH]; intros [|b ls1] Lc; cbn in *; try discriminate; auto. rewrite IH; auto. }
        assert (Ee : map fst (combine (map fst cur) ls1) = map fst cur).
        { clear -Lc. revert ls1 Lc. induction (map fst cur) as [|a l IH]; intros [|b ls1] Lc; cbn in *; try discriminate; auto. rewrite IH; auto. }
        destruct (done_next _ _ _ _ _ _ _ i D1 Ow) as [D2 Si].
        exists s1. rewrite !ids_list, tops_list, Es, <- app_assoc. split; [|split; [|split; [|split]]]; auto.
        * apply lives_list. rewrite (same_get _ _ _ Si). destruct Si as (_ & _ & _ & S4). rewrite Es. split; [|split; [|split]]; auto; congruence.
        * apply fits_list. rewrite Ee. split; auto. split; auto. split; auto. split; auto.
          clear -Ft1. revert ls1 Ft1. induction cur as [|e cur IH]; intros ls1 Ft1; cbn in *; auto. inversion Ft1; subst. constructor; auto. 
  Qed.

  (** *** How much there is to do *)
  Definition old (b : bool) : nat := if b then 0%nat else 1%nat.
  Section Sum.
    Context {A : Type} (f : A -> nat).
    Fixpoint sum (l : list A) : nat := match l with [] => 0 | x :: l => f x + sum l end%nat.
  End Sum.
  Lemma sum_app {A} (f : A -> nat) a b : sum f (a ++ b) = (sum f a + sum f b)%nat.
  Proof. induction a; cbn; auto. rewrite IHa. lia. Qed.
  Definition stale_attr (b : battr) : nat := old (veq (a_last b) (e_val E (a_key b))).
  Fixpoint stale (l : live) : nat :=
    match l with
    | LText _ _ => 0
    | LBound _ k _ v => old (veq v (e_val E k))
    | LElem _ _ bs ks => sum stale_attr bs + sum stale ks
    | LFrag _ ls => sum stale ls
    | LValue _ _ k _ v None => old (veq v (e_val E k))
    | LValue _ _ k _ v (Some x) => old (veq v (e_val E k)) + stale x
    | LList _ _ k _ _ v cur => old (leq ieq v (e_list E k)) + sum (fun e => stale (snd e)) cur
    end%nat.
  Lemma sum_snd {A} (cur : list (A * live)) : sum (fun e => stale (snd e)) cur = sum stale (map snd cur).
  Proof. induction cur; cbn; auto. Qed.
  Lemma veq_refl v : veq v v = true.
  Proof. apply veq_ok. auto. Qed.
  Lemma leq_refl v : leq ieq v v = true.
  Proof. apply leq_ok. auto. Qed.

  (** What is made is up to date. *)
  Definition brand (t : tmpl) : Prop := forall w P ref w', stale (fst (snd (fst (make E t w)) P ref w')) = 0%nat.
  Lemma middle_stale key mk P : (forall i w P ref w', stale (fst (snd (fst (mk i w)) P ref w')) = 0%nat) -> forall items last cache acc w,
    let '(acc', rest, _) := middle_loop (I:=I) keq key mk P items last cache acc w in
    (sum stale (map snd acc') + sum stale (map snd rest) = sum stale (map snd acc) + sum stale (map snd cache))%nat.
  Proof.
    intros Mk. induction items as [|x items IH]; intros last cache acc w; cbn [middle_loop]; auto.
    destruct (take_key keq (key x) cache) as [[n c1]|] eqn:Tk.
    - apply take_key_some in Tk. destruct Tk as (ca & cb & -> & ->). specialize (IH (l_id n) (ca ++ cb) ((x, n) :: acc) (uemit w (InsertBefore P (l_id n) (Some last)))).
      destruct (middle_loop keq key mk P items (l_id n) (ca ++ cb) _ _) as [[acc' rest] w']. rewrite IH, !map_app, !sum_app. cbn. lia.
    - pose proof (Mk x w P (Some last)) as M. destruct (mk x w) as [[i m] w1]. specialize (M w1). cbn [fst snd] in M. destruct (m P (Some last) w1) as [n w2]. cbn [fst] in M.
      specialize (IH i cache ((x, n) :: acc) w2). destruct (middle_loop keq key mk P items i cache _ _) as [[acc' rest] w']. rewrite IH. cbn. rewrite M. lia.
  Qed.
  Lemma add_attrs_stale i l : forall w, sum stale_attr (fst (add_attrs E i l w)) = 0%nat.
  Proof.
    induction l as [|[n [k f]] l IH]; intros w; cbn [add_attrs add_attr]; auto. specialize (IH (uemit w (attr_cmd i n (f (e_val E k))))).
    destruct (add_attrs E i l _) as [bs w']. cbn in *. unfold stale_attr at 1. cbn. rewrite veq_refl, IH. reflexivity.
  Qed.
  Lemma kids_stale ts : Forall brand ts -> forall i w, sum stale (fst (make_kids keq E i ts w)) = 0%nat.
  Proof.
    induction 1 as [|t ts B F IH]; intros i w; cbn [make_kids]; auto. fold (make_kids keq E i). pose proof (B w i None) as B1. destruct (make E t w) as [[i1 m] w1].
    specialize (B1 w1). cbn [fst snd] in B1. destruct (m i None w1) as [x w2]. specialize (IH i w2). destruct (make_kids keq E i ts w2) as [xs w3]. cbn in *. lia.
  Qed.
  Lemma all_stale ts : Forall brand ts -> forall w, Forall (fun d => forall P ref w', stale (fst (snd d P ref w')) = 0%nat) (fst (make_all keq E ts w)).
  Proof.
    induction 1 as [|t ts B F IH]; intros w; cbn [make_all]; [constructor|]. fold (make_all keq E). pose proof (B w) as B1. destruct (make E t w) as [d w1].
    specialize (IH w1). destruct (make_all keq E ts w1) as [xs w3]. cbn in *. constructor; auto.
  Qed.
  Lemma frag_stale P c ds : Forall (fun d : unode => forall P ref w', stale (fst (snd d P ref w')) = 0%nat) ds -> forall w,
    sum stale (snd (fst (frag_mount P c ds w))) = 0%nat.
  Proof.
    induction 1 as [|[i m] ds B F IH]; intros w; cbn [frag_mount]; auto. specialize (IH w). destruct (frag_mount P c ds w) as [[prev ls] w1].
    specialize (B P (Some prev) w1). cbn [snd] in B. destruct (m P (Some prev) w1) as [x w2]. cbn in *. lia.
  Qed.
  Lemma make_fresh t : brand t.
  Proof.
    induction t as [t|k f|n a ks IH|ls IH|k r IH|k key r IH] using tmpl_ind2; intros w P ref w'.
    - reflexivity.
    - cbn. rewrite veq_refl. reflexivity.
    - rewrite make_elem_eq. cbn [ufresh]. pose proof (add_attrs_stale (u_next w) a (UW (u_next w + 1) (u_q w ++ [CreateNode (u_next w) n]))) as A.
      destruct (add_attrs E (u_next w) a _) as [bs w2]. pose proof (kids_stale ks IH (u_next w) w2) as KS. destruct (make_kids keq E (u_next w) ks w2) as [xs w3].
      cbn [fst snd stale] in *. rewrite A, KS. reflexivity.
    - rewrite make_frag_eq. pose proof (all_stale ls IH w) as AS. destruct (make_all keq E ls w) as [ds w1]. cbn [ufresh fst snd] in *.
      pose proof (frag_stale P (u_next w1) ds AS (uemit w' (InsertBefore P (u_next w1) ref))) as FS. destruct (frag_mount P (u_next w1) ds _) as [[prev xs] w3].
      cbn [fst snd stale] in *. auto.
    - cbn [UiModel.make ufresh fst snd]. destruct (r (e_val E k)) as [t1|] eqn:Er; [|cbn; rewrite veq_refl; reflexivity].
      pose proof (IH _ _ Er (uemit w' (InsertBefore P (u_next w) ref)) P (Some (u_next w))) as B. destruct (make E t1 _) as [[i m] w2]. specialize (B w2). cbn [fst snd] in B.
      destruct (m P (Some (u_next w)) w2) as [x w3]. cbn [fst stale] in *. rewrite veq_refl, B. reflexivity.
    - cbn [UiModel.make ufresh fst snd]. pose proof (middle_stale key (fun i w => make E (r i) w) P IH (rev (e_list E k)) (u_next w) [] [] (uemit w' (InsertBefore P (u_next w) ref))) as M.
      destruct (middle_loop keq key _ P (rev (e_list E k)) (u_next w) [] [] _) as [[acc rest] w3]. cbn [fst stale]. rewrite leq_refl, sum_snd. cbn in *. lia.
  Qed.
  Lemma reorder_stale P i key r cur new w : (sum stale (map snd (fst (reorder ieq keq ord E P i key r cur new w))) <= sum stale (map snd cur))%nat.
  Proof.
    unfold reorder. destruct (pairs_top ieq cur new) as [[top cur1] new1] eqn:E1. apply pairs_top_eq in E1. destruct E1 as [-> ->].
    destruct (pairs_bottom ieq cur1 new1) as [[bottom cur2] new2] eqn:E2. apply pairs_bottom_eq in E2. destruct E2 as [-> ->].
    pose proof (middle_stale key (fun i w => make E (r i) w) P (fun i => make_fresh (r i)) (rev new2) (match bottom with (_, x) :: _ => l_id x | [] => i end)
      (map (fun e => (key (fst e), snd e)) cur2) [] w) as M.
    destruct (middle_loop keq key _ P (rev new2) _ _ [] w) as [[mid rest] w1]. cbn [fst]. rewrite map_map in M. cbn in M.
    rewrite !map_app, !sum_app. change (fun x : I * live => snd x) with (@snd I live) in M. lia.
  Qed.

  (** A call does nothing, or there is less to do. *)
  Definition less (l : live) : Prop := forall c j w, call E c j l w = (l, w) \/ (stale (fst (call E c j l w)) < stale l)%nat.
  Lemma all_less ls : Forall less ls -> forall c j w, call_all veq ieq keq ord E c j ls w = (ls, w) \/
    (sum stale (fst (call_all veq ieq keq ord E c j ls w)) < sum stale ls)%nat.
  Proof.
    induction 1 as [|x ls B F IH]; intros c j w; cbn [call_all]; auto. fold (call_all veq ieq keq ord E c j). specialize (B c j w). destruct (call E c j x w) as [y w1].
    specialize (IH c j w1). destruct (call_all veq ieq keq ord E c j ls w1) as [ys w2]. cbn [fst sum] in *.
    destruct B as [B|B], IH as [IH|IH]; try (injection B as -> ->); try (injection IH as -> ->); auto; right; lia.
  Qed.
  Lemma nth_less bs : forall i j w, call_nth veq E i j bs w = (bs, w) \/ (sum stale_attr (fst (call_nth veq E i j bs w)) < sum stale_attr bs)%nat.
  Proof.
    intros i j w. destruct (call_nth_cases i bs j w) as [->|(l1 & b & l2 & -> & Nb & ->)]; auto. right. cbn [fst]. rewrite !sum_app. cbn.
    unfold stale_attr at 2 5. cbn. rewrite veq_refl. destruct (veq (a_last b) (e_val E (a_key b))) eqn:Eq. apply veq_ok in Eq. congruence. cbn. lia.
  Qed.
  Lemma call_less l : less l.
  Proof.
    induction l as [i t|i k f v|i n a ks IH|i ls IH|i p k r v|i p k r v x IH|i p k key r v cur IH] using live_ind2; intros c j w.
    - auto.
    - cbn [UiModel.call]. destruct (i =? c); auto. destruct (veq v (e_val E k)) eqn:Ev; auto. right. cbn. rewrite Ev, veq_refl. cbn. lia.
    - rewrite call_elem_eq. destruct (i =? c).
      + pose proof (nth_less a i j w) as N1. destruct (call_nth veq E i j a w) as [bs w1]. destruct N1 as [N1|N1]. injection N1 as -> ->. auto. right. cbn [fst stale] in *. lia.
      + pose proof (all_less ks IH c j w) as N1. destruct (call_all veq ieq keq ord E c j ks w) as [bs w1]. destruct N1 as [N1|N1]. injection N1 as -> ->. auto. right. cbn [fst stale] in *. lia.
    - rewrite call_frag_eq. pose proof (all_less ls IH c j w) as N1. destruct (call_all veq ieq keq ord E c j ls w) as [bs w1]. destruct N1 as [N1|N1]. injection N1 as -> ->. auto. right. cbn [fst stale] in *. lia.
    - cbn [UiModel.call]. destruct (i =? c); auto. destruct (veq v (e_val E k)) eqn:Ev; auto. right. cbn [stale]. rewrite Ev. cbn [old].
      destruct (r (e_val E k)) as [t1|]; [|cbn; rewrite veq_refl; cbn; lia].
      pose proof (make_fresh t1 w p (Some i)) as B. destruct (make E t1 w) as [[i1 m] w1]. specialize (B w1). cbn [fst snd] in B. destruct (m p (Some i) w1) as [y w2].
      cbn [fst stale] in *. rewrite veq_refl, B. cbn. lia.
    - cbn [UiModel.call]. destruct (i =? c).
      + destruct (veq v (e_val E k)) eqn:Ev; auto. right. cbn [stale]. rewrite Ev. cbn [old].
        destruct (r (e_val E k)) as [t1|]; [|cbn; rewrite veq_refl; cbn; lia].
        pose proof (make_fresh t1 w p (Some i)) as B. destruct (make E t1 w) as [[i1 m] w1]. specialize (B w1). cbn [fst snd] in B. destruct (m p (Some i) w1) as [y w2].
        cbn [fst stale] in *. rewrite veq_refl, B. cbn. lia.
      + specialize (IH c j w). destruct (call E c j x w) as [y w1]. destruct IH as [IH|IH]. injection IH as -> ->. auto. right. cbn [fst stale] in *. lia.
    - rewrite call_list_eq. destruct (i =? c).
      + destruct (leq ieq v (e_list E k)) eqn:Ev; auto. right. pose proof (reorder_stale p i key r cur (e_list E k) w) as RS.
        destruct (reorder ieq keq ord E p i key r cur (e_list E k) w) as [cur1 w1]. cbn [fst stale] in *. rewrite leq_refl, Ev, !sum_snd. cbn. lia.
      + rewrite call_items_eq. pose proof (all_less (map snd cur) IH c j w) as N1. pose proof (call_all_len c j (map snd cur) w) as Ln. rewrite map_length in Ln.
        destruct (call_all veq ieq keq ord E c j (map snd cur) w) as [ls1 w1]. cbn [fst] in Ln.
        assert (Lc : length (map fst cur) = length ls1) by (rewrite map_length; auto).
        destruct N1 as [N1|N1].
        * injection N1 as -> ->. left. replace (combine (map fst cur) (map snd cur)) with cur; auto. clear. induction cur as [|[]]; cbn; congruence.
        * right. cbn [fst stale] in *. rewrite !sum_snd. replace (map snd (combine (map fst cur) ls1)) with ls1. lia.
          clear -Lc. revert ls1 Lc. induction (map fst cur) as [|a l IH]; intros [|b ls1] Lc; cbn in *; try discriminate; auto. rewrite <- IH; auto.
  Qed.
  Lemma less_le l c j w : (stale (fst (call E c j l w)) <= stale l)%nat.
  Proof. destruct (call_less l c j w) as [->|X]. auto. lia. Qed.

  (** As long as there is something to do, a subscription will do it. *)
  Lemma sum_pos {A} (f : A -> nat) l : (0 < sum f l)%nat -> exists a x b, l = a ++ x :: b /\ (0 < f x)%nat.
  Proof.
    induction l as [|x l IH]; cbn; intros H. lia. destruct (f x) eqn:Fx. destruct IH as (a & y & b & -> & Y). auto. exists (x :: a), y, b. auto.
    exists [], x, l. split; auto. lia.
  Qed.
  Definition works (l : live) : Prop := NoDup (ids l) -> (0 < stale l)%nat -> exists c j, In c (ids l) /\ In (c, j) (subs l) /\
    forall w, (stale (fst (call E c j l w)) < stale l)%nat.
  Lemma all_works ls : Forall works ls -> NoDup (flat_map ids ls) -> (0 < sum stale ls)%nat -> exists c j, In c (flat_map ids ls) /\ In (c, j) (flat_map subs ls) /\
    forall w, (sum stale (fst (call_all veq ieq keq ord E c j ls w)) < sum stale ls)%nat.
  Proof.
    intros F ND H. apply sum_pos in H. destruct H as (a & x & b & -> & Hx). apply Forall_app in F. destruct F as [_ F]. inversion F; subst.
    rewrite flat_map_app in ND. apply NoDup_app_inv in ND. destruct ND as (_ & ND & _). cbn [flat_map] in ND. apply NoDup_app_inv in ND. destruct ND as (ND & _ & _).
    destruct (H1 ND Hx) as (c & j & U1 & U2 & U3). exists c, j. split; [|split].
    - apply in_flat_map. exists x. split; auto. apply in_or_app. right. left. auto.
    - apply in_flat_map. exists x. split; auto. apply in_or_app. right. left. auto.
    - assert (LE : forall ls w, (sum stale (fst (call_all veq ieq keq ord E c j ls w)) <= sum stale ls)%nat).
      { intros ls w. destruct (all_less ls ltac:(rewrite Forall_forall; intros; apply call_less) c j w) as [->|Y]; auto. lia. }
      induction a as [|y a IH]; intros w; cbn [app call_all]; fold (call_all veq ieq keq ord E c j).
      + specialize (U3 w). destruct (call E c j x w) as [x1 w1]. specialize (LE b w1). destruct (call_all veq ieq keq ord E c j b w1). cbn [fst sum] in *. lia.
      + pose proof (less_le y c j w) as Ly. destruct (call E c j y w) as [y1 w1]. specialize (IH w1). destruct (call_all veq ieq keq ord E c j (a ++ x :: b) w1).
        cbn [fst sum] in *. lia.
  Qed.
  Lemma nth_works i bs : (0 < sum stale_attr bs)%nat -> exists j, In j (seq 0 (length bs)) /\ forall w, (sum stale_attr (fst (call_nth veq E i j bs w)) < sum stale_attr bs)%nat.
  Proof.
    induction bs as [|b bs IH]; intros H. cbn in H. lia. destruct (veq (a_last b) (e_val E (a_key b))) eqn:Eb.
    - destruct IH as (j & U1 & U2). { cbn in H. unfold stale_attr at 1 in H. rewrite Eb in H. cbn in H. auto. }
      exists (S j). split. apply in_seq in U1. apply in_seq. cbn. lia. intros w. cbn [call_nth]. specialize (U2 w). destruct (call_nth veq E i j bs w). cbn in *. lia.
    - exists 0%nat. split. left; auto. intros w. cbn [call_nth]. unfold call_attr. rewrite Eb. cbn. unfold stale_attr at 1 3. cbn. rewrite veq_refl, Eb. cbn. lia.
  Qed.
  Lemma old_pos b : (0 < old b)%nat -> b = false.
  Proof. destruct b; cbn; auto. lia. Qed.
  Lemma call_works l : works l.
  Proof.
    induction l as [i t|i k f v|i n a ks IH|i ls IH|i p k r v|i p k r v x IH|i p k key r v cur IH] using live_ind2; intros ND H.
    - cbn in H. lia.
    - exists i, 0%nat. split; [left; auto|]. split; [left; auto|]. intros w. cbn [UiModel.call]. rewrite N.eqb_refl. apply old_pos in H. cbn [stale]. rewrite H. cbn. rewrite veq_refl. cbn. lia.
    - cbn [stale] in *. destruct (Nat.ltb 0 (sum stale_attr a)) eqn:La.
      + apply PeanoNat.Nat.ltb_lt in La. destruct (nth_works i a La) as (j & U1 & U2). exists i, j. split; [left; auto|]. split. cbn [subs]. apply in_or_app. left. apply in_map. auto.
        intros w. rewrite call_elem_eq, N.eqb_refl. specialize (U2 w). destruct (call_nth veq E i j a w). cbn [fst stale] in *. lia.
      + apply PeanoNat.Nat.ltb_ge in La. cbn [ids] in ND. inversion ND as [|? ? N1 N2]; subst. destruct (all_works ks IH N2) as (c & j & U1 & U2 & U3). lia.
        exists c, j. split; [right; auto|]. split. cbn [subs]. apply in_or_app. auto. intros w. rewrite call_elem_eq. destruct (N.eqb_spec i c) as [->|Ne]; [contradiction|].
        specialize (U3 w). destruct (call_all veq ieq keq ord E c j ks w). cbn [fst stale] in *. lia.
    - cbn [stale ids subs] in *. inversion ND as [|? ? N1 N2]; subst. destruct (all_works ls IH N2 H) as (c & j & U1 & U2 & U3).
      exists c, j. split; [right; auto|]. split; [auto|]. intros w. rewrite call_frag_eq. specialize (U3 w). destruct (call_all veq ieq keq ord E c j ls w). cbn [fst stale] in *. lia.
    - exists i, 0%nat. split; [left; auto|]. split; [left; auto|]. intros w. pose proof (call_less (LValue i p k r v None) i 0%nat w) as [X|X]; auto. exfalso.
      cbn [stale] in H. apply old_pos in H. cbn [UiModel.call] in X. rewrite N.eqb_refl, H in X.
      destruct (r (e_val E k)); [destruct (make E t w) as [[] w1]; destruct (u p (Some i) w1)|]; injection X as X _; rewrite X, veq_refl in H; discriminate.
    - cbn [stale ids subs] in *. inversion ND as [|? ? N1 N2]; subst. destruct (veq v (e_val E k)) eqn:Ev.
      + destruct (IH N2) as (c & j & U1 & U2 & U3). { cbn in H. auto. } exists c, j. split; [right; auto|]. split; [right; auto|]. intros w. cbn [UiModel.call].
        destruct (N.eqb_spec i c) as [->|Ne]; [contradiction|]. specialize (U3 w). destruct (call E c j x w). cbn [fst stale] in *. rewrite Ev. lia.
      + exists i, 0%nat. split; [left; auto|]. split; [left; auto|]. intros w. pose proof (call_less (LValue i p k r v (Some x)) i 0%nat w) as [X|X].
        * exfalso. cbn [UiModel.call] in X. rewrite N.eqb_refl, Ev in X.
          destruct (r (e_val E k)); [destruct (make E t w) as [[] w1]; destruct (u p (Some i) w1)|]; injection X as X _; rewrite X, veq_refl in Ev; discriminate.
        * cbn [stale] in X. rewrite Ev in X. auto.
    - cbn [stale subs] in *. rewrite ids_list in *. inversion ND as [|? ? N1 N2]; subst. destruct (leq ieq v (e_list E k)) eqn:Ev.
      + cbn [old] in *. rewrite sum_snd in *. destruct (all_works (map snd cur) IH N2 H) as (c & j & U1 & U2 & U3). exists c, j. split; [right; auto|]. split; [right; rewrite flat_snd; auto|].
        intros w. rewrite call_list_eq. destruct (N.eqb_spec i c) as [->|Ne]; [contradiction|]. rewrite call_items_eq. specialize (U3 w).
        pose proof (call_all_len c j (map snd cur) w) as Ln. rewrite map_length in Ln.
        destruct (call_all veq ieq keq ord E c j (map snd cur) w) as [ls1 w1]. cbn [fst stale] in *. rewrite Ev, sum_snd. cbn [old].
        assert (Lc : length (map fst cur) = length ls1) by (rewrite map_length; auto).
        replace (map snd (combine (map fst cur) ls1)) with ls1. lia.
        clear -Lc. revert ls1 Lc. induction (map fst cur) as [|a l IH]; intros [|b ls1] Lc; cbn in *; try discriminate; auto. rewrite <- IH; auto.
      + exists i, 0%nat. split; [left; auto|]. split; [left; auto|]. intros w. rewrite call_list_eq, N.eqb_refl, Ev. pose proof (reorder_stale p i key r cur (e_list E k) w) as RS.
        destruct (reorder ieq keq ord E p i key r cur (e_list E k) w) as [cur1 w1]. cbn [fst stale] in *. rewrite leq_refl, !sum_snd. cbn. lia.
  Qed.
  Lemma stale_subs l : (stale l <= length (subs l))%nat.
  Proof.
    assert (O1 : forall b, (old b <= 1)%nat) by (intros []; cbn; lia).
    assert (SL : forall ls, Forall (fun l => stale l <= length (subs l))%nat ls -> (sum stale ls <= length (flat_map subs ls))%nat).
    { induction 1; cbn; auto. rewrite app_length. lia. }
    induction l as [i t|i k f v|i n a ks IH|i ls IH|i p k r v|i p k r v x IH|i p k key r v cur IH] using live_ind2; cbn [stale subs length]; auto.
    - rewrite app_length, map_length, seq_length. specialize (SL ks IH). assert (sum stale_attr a <= length a)%nat; [|lia].
      clear -O1. induction a; cbn; auto. specialize (O1 (veq (a_last a) (e_val E (a_key a)))). unfold stale_attr at 1. lia.
    - specialize (O1 (veq v (e_val E k))). lia.
    - specialize (O1 (leq ieq v (e_list E k))). rewrite sum_snd, flat_snd. specialize (SL _ IH). lia.
  Qed.

  (** *** What is seen *)
  Lemma sum_zero {A} (f : A -> nat) l : sum f l = 0%nat -> Forall (fun x => f x = 0%nat) l.
  Proof. induction l; cbn; intros H; constructor. lia. apply IHl. lia. Qed.
  Lemma lives_par s P l : lives s P l -> Forall (fun x => b_par s x = Some P) (tops l).
  Proof.
    induction l as [i t|i k f v|i n a ks IH|i ls IH|i p k r v|i p k r v x IH|i p k key r v cur IH] using live_ind2; intros Lv.
    - constructor; [apply Lv|constructor].
    - constructor; [apply Lv|constructor].
    - constructor; [apply Lv|constructor].
    - apply lives_frag in Lv. destruct Lv as (_ & Q & Lv). cbn [tops]. apply Forall_app. split; [|constructor; auto].
      rewrite Forall_forall in *. intros y Hy. apply in_flat_map in Hy. destruct Hy as (z & Z1 & Z2). specialize (IH z Z1 (Lv z Z1)). rewrite Forall_forall in IH. auto.
    - constructor; [apply Lv|constructor].
    - destruct Lv as (_ & Q & _ & Lv). cbn [tops]. apply Forall_app. split; [|constructor; auto]. auto.
    - apply lives_list in Lv. destruct Lv as (_ & Q & _ & Lv). rewrite tops_list. apply Forall_app. split; [|constructor; auto].
      rewrite Forall_forall in *. intros y Hy. apply in_flat_map in Hy. destruct Hy as (z & Z1 & Z2). specialize (IH z Z1 (Lv z Z1)). rewrite Forall_forall in IH. auto.
  Qed.
  Lemma shown_all s P ls ts : Forall (fun l => forall t, stale l = 0%nat -> lives s P l -> fits l t -> Forall (fun x => n0 <= x) (ids l) -> Forall2 (displays s) (tops l) (view E t)) ls ->
    sum stale ls = 0%nat -> Forall (lives s P) ls -> Forall2 fits ls ts -> Forall (fun x => n0 <= x) (flat_map ids ls) -> Forall2 (displays s) (flat_map tops ls) (flat_map (view E) ts).
  Proof.
    intros F. revert ts. induction F as [|x ls Hx F IH]; intros ts Z Lv Ft Ge; inversion Ft; subst; cbn [flat_map]. constructor.
    inversion Lv; subst. cbn in Z.  cbn [flat_map] in Ge. apply Forall_app in Ge. destruct Ge. apply Forall2_app; [apply Hx|apply IH]; auto; lia.
  Qed.
  Lemma old_zero b : old b = 0%nat -> b = true.
  Proof. destruct b; cbn; auto. discriminate. Qed.
  Lemma shown w s l : Inv w s -> forall P t, stale l = 0%nat -> lives s P l -> fits l t -> Forall (fun x => n0 <= x) (ids l) -> Forall2 (displays s) (tops l) (view E t).
  Proof.
    intros Iv.
    induction l as [i t|i k f v|i n a ks IH|i ls IH|i p k r v|i p k r v x IH|i p k key r v cur IH] using live_ind2; intros P t' Z Lv Ft Ge; destruct t'; try contradiction.
    - cbn in Ft. subst. constructor; [|constructor]. constructor. apply Lv.
    - destruct Ft as [-> ->]. apply old_zero, veq_ok in Z. subst. constructor; [|constructor]. constructor. apply Lv.
    - apply fits_elem in Ft. destruct Ft as (-> & Ea & Ft). apply lives_elem in Lv. destruct Lv as ((at_ & G & An & Ar) & Q & Kk & Lv). cbn [stale] in Z.
      cbn [ids] in Ge. inversion Ge as [|? ? Gi Gk]; subst. constructor; [|constructor]. apply (d_elem _ _ _ at_); auto.
      + intros m y Hm. apply in_map_iff in Hm. destruct Hm as ([m' [k f]] & Em & Hm). cbn in Em. injection Em as <- <-. apply in_map_iff in Hm. destruct Hm as (b & Eb & Hb).
        injection Eb as <- <- <-. rewrite (An b Hb). f_equal. assert (Za : sum stale_attr a = 0%nat) by lia. apply sum_zero in Za. rewrite Forall_forall in Za.
        specialize (Za b Hb). apply old_zero, veq_ok in Za. auto.
      + intros m Hm. apply Ar. intros X. apply Hm. rewrite !map_map. cbn. auto.
      + apply (i_site Iv). right. auto.
      + rewrite Kk. rewrite Forall_forall. intros y Hy. apply in_flat_map in Hy. destruct Hy as (z & Z1 & Z2). rewrite Forall_forall in Lv. pose proof (lives_par _ _ _ (Lv z Z1)) as LP.
        rewrite Forall_forall in LP. auto.
      + rewrite Kk. eapply shown_all; eauto; try lia. eapply Forall_impl; [|exact IH]. cbn. eauto.
    - apply fits_frag in Ft. apply lives_frag in Lv. destruct Lv as (G & Q & Lv). cbn [stale ids tops view] in *. inversion Ge; subst. apply Forall2_app; [|constructor; [constructor; auto|constructor]].
      eapply shown_all; eauto. eapply Forall_impl; [|exact IH]. cbn. eauto.
    - destruct Ft as (-> & -> & Ft). destruct Lv as (G & _). cbn [stale] in Z. apply old_zero, veq_ok in Z. subst v. cbn [tops view]. destruct (render (e_val E k0)); [contradiction|].
      constructor; [constructor; auto|constructor].
    - destruct Ft as (-> & -> & Ft). destruct Lv as (G & _ & _ & Lv). cbn [stale] in Z. assert (Z1 : old (veq v (e_val E k0)) = 0%nat) by lia. apply old_zero, veq_ok in Z1. subst v. cbn [tops view].
      destruct (render (e_val E k0)); [|contradiction]. cbn [ids] in Ge. inversion Ge; subst. apply Forall2_app; [|constructor; [constructor; auto|constructor]]. eapply IH; eauto. lia.
    - apply fits_list in Ft. destruct Ft as (-> & -> & -> & Ef & Ft). apply lives_list in Lv. destruct Lv as (G & Q & _ & Lv). cbn [stale] in Z. rewrite ids_list in Ge. rewrite tops_list. cbn [view].
      assert (Z1 : old (leq ieq v (e_list E l)) = 0%nat) by lia. apply old_zero, leq_ok in Z1. inversion Ge; subst. apply Forall2_app; [|constructor; [constructor; auto|constructor]].
      rewrite <- Z1. replace (flat_map (fun i => view E (render i)) (map fst cur)) with (flat_map (view E) (map (fun e => render (fst e)) cur)).
      2:{ clear. induction cur; cbn; congruence. }
      eapply shown_all; eauto.
      + eapply Forall_impl; [|exact IH]. cbn. eauto.
      + rewrite <- sum_snd. lia.
      + clear -Ft. induction Ft; constructor; auto.
  Qed.
  Lemma lives_under s l : forall P, lives s P l -> forall x, In x (ids l) -> under s x P.
  Proof.
    assert (one : forall x P, b_par s x = Some P -> under s x P). { intros x P H. econstructor; eauto. constructor. }
    assert (tr : forall x y z, under s x y -> under s y z -> under s x z). { intros x y z U. induction U; auto. intros. econstructor; eauto. }
    induction l as [i t|i k f v|i n a ks IH|i ls IH|i p k r v|i p k r v x IH|i p k key r v cur IH] using live_ind2; intros P Lv y Hy.
    - destruct Hy as [<-|[]]. apply one, Lv.
    - destruct Hy as [<-|[]]. apply one, Lv.
    - apply lives_elem in Lv. destruct Lv as (_ & Q & _ & Lv). cbn [ids] in Hy. destruct Hy as [<-|Hy]; auto. apply in_flat_map in Hy. destruct Hy as (z & Z1 & Z2).
      rewrite Forall_forall in *. apply (tr y i P); eauto.
    - apply lives_frag in Lv. destruct Lv as (_ & Q & Lv). cbn [ids] in Hy. destruct Hy as [<-|Hy]; auto. apply in_flat_map in Hy. destruct Hy as (z & Z1 & Z2).
      rewrite Forall_forall in *. eauto.
    - destruct Hy as [<-|[]]. apply one, Lv.
    - destruct Lv as (_ & Q & _ & Lv). cbn [ids] in Hy. destruct Hy as [<-|Hy]; auto.
    - apply lives_list in Lv. destruct Lv as (_ & Q & _ & Lv). rewrite ids_list in Hy. destruct Hy as [<-|Hy]; auto. apply in_flat_map in Hy. destruct Hy as (z & Z1 & Z2).
      rewrite Forall_forall in *. eauto.
  Qed.
End Proofs.
