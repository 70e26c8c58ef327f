(** Model of form controls whose value, check mark or choice is bound to reactive values.

    Source: /repo/crates/vertigo/src/driver_module/src_js/api_browser/dom/dom.ts (attributes and events),
    /repo/crates/vertigo/src/dom/dom_element.rs (attributes, on_input, on_change, on_click) and the
    drop-down list of /repo/demo/app/src/app/todo/select.rs.  The controls themselves are those of the HTML
    standard (4.10.5 input, 4.10.7 select, 4.10.10 option, 4.10.11 textarea).  The values of the application
    are a state of type [St].  Texts are lists of UTF-16 units.  That the argument of an event arrives in the
    application unchanged is C13-C16, that subscriptions see the new state is C04. *)

From Coq Require Import List NArith Bool.
Import ListNotations.
Local Open Scope N_scope.

(** Strings of JavaScript (dom.ts:130): UTF-16 code units. *)
Definition str := list N.

(** Equality of strings ([PartialEq] of String). *)
Fixpoint seqb (a b : str) : bool :=
  match a, b with
  | [], [] => true
  | x :: a, y :: b => (x =? y) && seqb a b
  | _, _ => false
  end.

(** ** Controls (HTML standard) *)

(** 4.10.5.1.2, "strip newlines": the value sanitization algorithm of type=text, search, tel and password. *)
Definition strip (s : str) : str := filter (fun c => negb ((c =? 10) || (c =? 13))) s.

(** 4.10.11, "API value" of a textarea: the raw value with newlines normalized. *)
Fixpoint unix (s : str) : str :=
  match s with
  | [] => []
  | 13 :: 10 :: s => 10 :: unix s
  | 13 :: s => 10 :: unix s
  | c :: s => c :: unix s
  end.

(** The kinds of controls here: [Field] is an input of type text, search, tel or password, [Box] one of type
    checkbox, [Area] a textarea.  (The type of an input does not change.) *)
Inductive kind := Field | Box | Area.

(** 4.10.18: the state of a control.  [c_vattr]: the content attribute "value"; [c_val]: the value of a
    field, the raw value of an area; [c_vdirty]: the dirty value flag; [c_default]: the text inside of an
    area; [c_cattr]: whether there is a content attribute "checked"; [c_chk]: the checkedness; [c_cdirty]:
    the dirty checkedness flag. *)
Record ctl := Ctl {
  c_kind : kind; c_vattr : option str; c_val : str; c_vdirty : bool; c_default : str;
  c_cattr : bool; c_chk : bool; c_cdirty : bool
}.

(** A new control. *)
Definition ctl_new (k : kind) : ctl := Ctl k None [] false [] false false false.

(** 4.10.5.1.18 and 4.10.18.1: [setAttribute("value", v)] and [removeAttribute("value")] ([None]): a field
    whose flag is not set takes the new value. *)
Definition attr_value (c : ctl) (v : option str) : ctl :=
  Ctl (c_kind c) v
      (match c_kind c with
       | Field => if c_vdirty c then c_val c else strip (match v with Some s => s | None => [] end)
       | _ => c_val c
       end)
      (c_vdirty c) (c_default c) (c_cattr c) (c_chk c) (c_cdirty c).

(** 4.10.5.4: [node.value = v] of an input: in mode "value" (a field) the value is set and the flag; in mode
    "default/on" (a box) the content attribute is set.  4.10.11: of a textarea, the raw value. *)
Definition js_value (c : ctl) (v : str) : ctl :=
  match c_kind c with
  | Field => Ctl Field (c_vattr c) (strip v) true (c_default c) (c_cattr c) (c_chk c) (c_cdirty c)
  | Box => attr_value c (Some v)
  | Area => Ctl Area (c_vattr c) v true (c_default c) (c_cattr c) (c_chk c) (c_cdirty c)
  end.

(** 4.10.11: [node.defaultValue = v] of a textarea: the text inside is replaced; the raw value follows if
    the flag is not set. *)
Definition js_default (c : ctl) (v : str) : ctl :=
  Ctl (c_kind c) (c_vattr c) (if c_vdirty c then c_val c else v) (c_vdirty c) v (c_cattr c) (c_chk c) (c_cdirty c).

(** 4.10.5.4: [node.value] and the value that is submitted: of a box "on" if there is no attribute. *)
Definition get_value (c : ctl) : str :=
  match c_kind c with
  | Field => c_val c
  | Box => match c_vattr c with Some v => v | None => [111; 110] end
  | Area => unix (c_val c)
  end.

(** 4.10.5.1.15: the content attribute "checked" is set or removed; the check mark follows if the flag is not
    set. *)
Definition attr_checked (c : ctl) (v : option str) : ctl :=
  let b := match v with Some _ => true | None => false end in
  Ctl (c_kind c) (c_vattr c) (c_val c) (c_vdirty c) (c_default c) b
      (if c_cdirty c then c_chk c else b) (c_cdirty c).

(** The user edits the text: a field takes no newlines (4.10.5.1.2); the flag is set. *)
Definition user_types (c : ctl) (s : str) : ctl :=
  Ctl (c_kind c) (c_vattr c) (match c_kind c with Field => strip s | Area => s | Box => c_val c end)
      true (c_default c) (c_cattr c) (c_chk c) (c_cdirty c).

(** The check mark is set by the browser (4.10.5.1.15, legacy-pre-activation behavior, and
    legacy-canceled-activation behavior); the flag is set. *)
Definition user_checks (c : ctl) (b : bool) : ctl :=
  Ctl (c_kind c) (c_vattr c) (c_val c) (c_vdirty c) (c_default c) (c_cattr c) b true.

(** ** The driver in the browser *)

(** dom.ts:130-146: [set_attribute] for the name "value". *)
Definition set_value (c : ctl) (v : str) : ctl :=
  let c := attr_value c (Some v) in
  match c_kind c with
  | Area => js_default (js_value c v) v
  | _ => js_value c v
  end.

(** dom.ts:148-164: [remove_attribute] for the name "value". *)
Definition remove_value (c : ctl) : ctl :=
  let c := attr_value c None in
  match c_kind c with
  | Area => js_default (js_value c []) []
  | _ => js_value c []
  end.

Section App.
  Context {St : Type}.

  (** A control of the application: what its attributes "value" and "checked" are bound to
      (dom_element.rs:86-123; [None]: not given), and its handlers (dom_element.rs:229-236, 280-306). *)
  Record app := App {
    a_kind : kind;
    a_value : option (St -> option str);
    a_checked : option (St -> option str);
    a_input : option (str -> St -> St);
    a_change : option (str -> St -> St);
    a_click : option (St -> St)
  }.
  Variable a : app.

  (** [w_pv], [w_pc]: the [prev_value] of the two subscriptions (computed_box.rs:102). *)
  Record world := World { w_s : St; w_pv : option (option str); w_pc : option (option str); w_c : ctl }.

  (** Equality of the values of a subscription. *)
  Definition oeqb (x y : option str) : bool :=
    match x, y with Some x, Some y => seqb x y | None, None => true | _, _ => false end.
  (** computed_box.rs:109: whether the closure of a subscription is called. *)
  Definition differs (p : option (option str)) (v : option str) : bool :=
    match p with Some p => negb (oeqb p v) | None => true end.

  (** The end of a transaction: the subscriptions of the attributes are refreshed (dom_element.rs:94-121 with
      computed_box.rs:106-117) and the commands are executed (dom.ts:514-522). *)
  Definition sync (w : world) : world :=
    let w1 :=
      match a_value a with
      | None => w
      | Some f =>
          let v := f (w_s w) in
          World (w_s w) (Some v) (w_pc w)
                (if differs (w_pv w) v then match v with Some s => set_value (w_c w) s | None => remove_value (w_c w) end
                 else w_c w)
      end in
    match a_checked a with
    | None => w1
    | Some f =>
        let v := f (w_s w1) in
        World (w_s w1) (w_pv w1) (Some v) (if differs (w_pc w1) v then attr_checked (w_c w1) v else w_c w1)
    end.

  (** dom_element.rs:31-48, 86-123: the control is made. *)
  Definition begin (s : St) : world := sync (World s None None (ctl_new (a_kind a))).

  (** A transaction that sets the values of the application. *)
  Definition set_state (w : world) (s : St) : world := sync (World s (w_pv w) (w_pc w) (w_c w)).

  (** An event with the text of the control: dom.ts:211-231 with dom_element.rs:280-306. *)
  Definition send (w : world) (h : option (str -> St -> St)) : world :=
    match h with None => w | Some h => set_state w (h (get_value (w_c w)) (w_s w)) end.

  (** Changing the control (plumbing of the model). *)
  Definition set_c (w : world) (c : ctl) : world := World (w_s w) (w_pv w) (w_pc w) c.

  (** What may happen: the application changes its values by itself, the user edits the text, leaves the
      control after editing, or clicks it. *)
  Inductive event :=
  | Program (s : St)
  | Type_ (s : str)
  | Leave
  | Click.

  (** One event.  A click on a box (HTML standard, 4.10.5.1.15; DOM standard 2.9): the check mark is
      inverted, then the listeners are called; the one of on_click prevents the default action
      (dom.ts:206-209), whereupon the check mark is put back; else the events input and change follow. *)
  Definition happens (w : world) (e : event) : world :=
    match e with
    | Program s => set_state w s
    | Type_ s =>
        match a_kind a with
        | Box => w
        | _ => send (set_c w (user_types (w_c w) s)) (a_input a)
        end
    | Leave => match a_kind a with Box => w | _ => send w (a_change a) end
    | Click =>
        match a_kind a, a_click a with
        | Box, Some h =>
            let old := c_chk (w_c w) in
            let w1 := set_c w (user_checks (w_c w) (negb old)) in
            let w2 := set_state w1 (h (w_s w1)) in
            set_c w2 (user_checks (w_c w2) old)
        | Box, None =>
            let w1 := set_c w (user_checks (w_c w) (negb (c_chk (w_c w)))) in
            send (send w1 (a_input a)) (a_change a)
        | _, Some h => set_state w (h (w_s w))
        | _, None => w
        end
    end.

  (** A sequence of events. *)
  Definition after (s : St) (l : list event) : world := fold_left happens l (begin s).

  (** The page as the server sends it (html_element.rs writes the attributes; C30): the parser makes the
      control, and no script has run. *)
  Definition served (s : St) : ctl :=
    let c := match a_value a with
             | None => ctl_new (a_kind a)
             | Some f => match f s with Some v => attr_value (ctl_new (a_kind a)) (Some v) | None => ctl_new (a_kind a) end
             end in
    match a_checked a with None => c | Some f => attr_checked c (f s) end.
End App.
Arguments app : clear implicits.
Arguments world : clear implicits.
Arguments event : clear implicits.

(** ** Drop-down lists *)

(** 4.10.10: an option: its value, the content attribute "selected", its selectedness and its dirtiness. *)
Record opt := Opt { o_val : str; o_attr : bool; o_sel : bool; o_dirty : bool }.

(** 4.10.7: "if nodes are inserted ... whenever an option has its selectedness set to true, the selectedness of
    the others is set to false": of a list without the attribute "multiple". *)
Definition select_only (l : list opt) (i : nat) : list opt :=
  map (fun p => let '(k, o) := p in Opt (o_val o) (o_attr o) (Nat.eqb k i) (o_dirty o))
      (combine (seq 0 (length l)) l).

(** 4.10.7, the selectedness setting algorithm of a list with display size 1: if no option is selected, the
    first is. *)
Definition repair (l : list opt) : list opt :=
  if existsb o_sel l then l else match l with [] => [] | o :: l => Opt (o_val o) (o_attr o) true (o_dirty o) :: l end.

(** Changing one option of a list (plumbing of the model). *)
Fixpoint at_nth (f : opt -> opt) (l : list opt) (i : nat) : list opt :=
  match l, i with
  | [], _ => []
  | o :: l, O => f o :: l
  | o :: l, S i => o :: at_nth f l i
  end.

(** 4.10.10: the content attribute "selected" of the option [i] is set (by dom.ts:132) or removed (by
    dom.ts:150): if its dirtiness is false its selectedness follows. *)
Definition attr_selected (l : list opt) (i : nat) (b : bool) : list opt :=
  let l1 := at_nth (fun o => Opt (o_val o) b (o_sel o) (o_dirty o)) l i in
  match nth_error l i with
  | None => l
  | Some o =>
      if o_dirty o then l1
      else if b then select_only l1 i
           else repair (at_nth (fun o => Opt (o_val o) (o_attr o) false (o_dirty o)) l1 i)
  end.

(** 4.10.7, the user picks the option [i]: it is selected, its dirtiness is set, the others are not selected. *)
Definition user_picks (l : list opt) (i : nat) : list opt :=
  at_nth (fun o => Opt (o_val o) (o_attr o) (o_sel o) true) (select_only l i) i.

(** [node.value] of a select: the value of the first selected option, else the empty string. *)
Definition sel_value (l : list opt) : str :=
  match filter o_sel l with [] => [] | o :: _ => o_val o end.

(** select.rs:15-46: the list; [s_value] is the value it is bound to. *)
Record sel := Sel { s_value : str; s_opts : list opt }.

(** select.rs:3-13 ([is_selected]) with dom_element.rs:101-107: the subscriptions of the options, one after
    the other: the attribute of an option is set or removed if it is to change. *)
Fixpoint mark (v : str) (l : list opt) (todo : list nat) : list opt :=
  match todo with
  | [] => l
  | i :: todo =>
      match nth_error l i with
      | None => mark v l todo
      | Some o =>
          let b := seqb v (o_val o) in
          mark v (if Bool.eqb (o_attr o) b then l else attr_selected l i b) todo
      end
  end.

(** A transaction that sets the value of the list. *)
Definition sel_set (w : sel) (v : str) : sel := Sel v (mark v (s_opts w) (seq 0 (length (s_opts w)))).

(** select.rs:24-45: the list is made: each option has its attribute before it is put into the list
    (dom_element.rs:86-151); while none is selected the browser selects the first. *)
Definition sel_begin (v : str) (vals : list str) : sel :=
  Sel v (repair (map (fun s => Opt s (seqb v s) (seqb v s) false) vals)).

(** What may happen: the application sets the value, or the user picks an option, whereupon the handler
    on_change sets the value (select.rs:26-28 with dom.ts:222-231). *)
Inductive sevent := SProgram (v : str) | SPick (i : nat).

(** One event. *)
Definition s_happens (w : sel) (e : sevent) : sel :=
  match e with
  | SProgram v => sel_set w v
  | SPick i =>
      if Nat.ltb i (length (s_opts w)) then
        let l := user_picks (s_opts w) i in
        sel_set (Sel (s_value w) l) (sel_value l)
      else w
  end.

(** A sequence of events. *)
Definition s_after (v : str) (vals : list str) (l : list sevent) : sel := fold_left s_happens l (sel_begin v vals).
