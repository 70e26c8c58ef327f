(** Events: from the listener in the page through the bridge to the handlers of [DomElement].

    Source: DOM = /repo/crates/vertigo/src/driver_module/src_js/api_browser/dom/dom.ts,
    EL = /repo/crates/vertigo/src/dom/dom_element.rs, DEC = .../js_value/js_value_list_decoder.rs,
    WI = .../src_js/wasm_init.ts, LIB = /repo/crates/vertigo/src/lib.rs.
    Strings are UTF-8 bytes.  The application is a state [A] changed by its handlers; the store of callbacks is in
    StoreModel (here: the closure that was registered is the one called). *)
From Coq Require Import String List NArith Bool.
From Verif Require Import CodecModel CodecJsModel DomWire BridgeModel.
Import ListNotations.
Local Open Scope string_scope.
Local Open Scope list_scope.

(** types.rs:6-16: [KeyDownEvent] *)
Record key_event := KeyEvent { k_key : bytes; k_code : bytes; k_alt : bool; k_ctrl : bool; k_shift : bool; k_meta : bool }.

(** types.rs:24-28: [DropFileItem]: name and data *)
Definition file := (bytes * bytes)%type.

Section Events.
  Variable A : Type.

  (** EL 229-393: the listeners an element can have, with the function of the application ([Callback], [Callback1]). *)
  Inductive handler :=
  | OnClick (f : A -> A)
  | OnMouseDown (f : A -> A * bool)
  | OnMouseUp (f : A -> A * bool)
  | OnMouseEnter (f : A -> A)
  | OnMouseLeave (f : A -> A)
  | OnInput (f : A -> bytes -> A)
  | OnChange (f : A -> bytes -> A)
  | OnBlur (f : A -> A)
  | OnKeyDown (f : A -> key_event -> A * bool)
  | OnDropfile (f : A -> list file -> A)
  | HookKeyDown (f : A -> key_event -> A * bool)
  | OnLoad (f : A -> A).

  (** EL 229-393: the name given to [add_event_listener]. *)
  Definition event_name (h : handler) : bytes :=
    str (match h with
         | OnClick _ => "click" | OnMouseDown _ => "mousedown" | OnMouseUp _ => "mouseup"
         | OnMouseEnter _ => "mouseenter" | OnMouseLeave _ => "mouseleave" | OnInput _ => "input"
         | OnChange _ => "change" | OnBlur _ => "blur" | OnKeyDown _ => "keydown" | OnDropfile _ => "drop"
         | HookKeyDown _ => "hook_keydown" | OnLoad _ => "load"
         end).

  (** DEC 60-72: [get_string]; [None] is [Err]. *)
  Definition dec_string (l : list jsval) : option (bytes * list jsval) :=
    match l with VString s :: t => Some (s, t) | _ => None end.
  (** DEC 110-123: [get_bool] *)
  Definition dec_bool (l : list jsval) : option (bool * list jsval) :=
    match l with VTrue :: t => Some (true, t) | VFalse :: t => Some (false, t) | _ => None end.
  (** DEC 17-29: [get_buffer] *)
  Definition dec_buffer (l : list jsval) : option (bytes * list jsval) :=
    match l with VVec b :: t => Some (b, t) | _ => None end.
  (** DEC 143-155: the loop of [get_vec] *)
  Fixpoint dec_items {R} (convert : jsval -> option R) (l : list jsval) : option (list R) :=
    match l with
    | [] => Some []
    | v :: t =>
        match convert v with
        | None => None
        | Some r => match dec_items convert t with None => None | Some rs => Some (r :: rs) end
        end
    end.
  (** DEC 125-156: [get_vec] *)
  Definition dec_vec {R} (convert : jsval -> option R) (l : list jsval) : option (list R * list jsval) :=
    match l with
    | VList inner :: t => match dec_items convert inner with None => None | Some rs => Some (rs, t) end
    | _ => None
    end.
  (** js_value_struct.rs:251-262: [convert] *)
  Definition convert {R} (v : jsval) (f : list jsval -> option R) : option R :=
    match v with VList l => f l | _ => None end.

  (** EL 401-421: [get_key_down_event] *)
  Definition get_key_down_event (data : jsval) : option key_event :=
    convert data (fun l =>
      match dec_string l with None => None | Some (key, l) =>
      match dec_string l with None => None | Some (code, l) =>
      match dec_bool l with None => None | Some (alt, l) =>
      match dec_bool l with None => None | Some (ctrl, l) =>
      match dec_bool l with None => None | Some (shift, l) =>
      match dec_bool l with None => None | Some (meta, l) =>
      match l with [] => Some (KeyEvent key code alt ctrl shift meta) | _ => None end
      end end end end end end).

  (** EL 340-352: the files of a drop; parameters that follow are not looked at. *)
  Definition get_drop_files (data : jsval) : option (list file) :=
    convert data (fun l =>
      match dec_vec (fun item => convert item (fun l =>
              match dec_string l with None => None | Some (name, l) =>
              match dec_buffer l with None => None | Some (d, l) => Some (name, d) end end)) l with
      | None => None
      | Some (files, _) => Some files
      end).

  (** A boolean as the result of a closure. *)
  Definition js_bool (b : bool) : jsval := if b then VTrue else VFalse.

  (** EL 229-393: the closure registered for a listener. *)
  Definition closure (h : handler) (a : A) (data : jsval) : A * jsval :=
    match h with
    | OnClick f | OnMouseEnter f | OnMouseLeave f | OnBlur f | OnLoad f => (f a, VUndefined)
    | OnMouseDown f | OnMouseUp f => let '(a1, b) := f a in (a1, js_bool b)
    | OnInput f | OnChange f => (match data with VString t => f a t | _ => a end, VUndefined)
    | OnKeyDown f | HookKeyDown f =>
        match get_key_down_event data with
        | Some e => let '(a1, b) := f a e in (a1, js_bool b)
        | None => (a, VFalse)
        end
    | OnDropfile f => (match get_drop_files data with Some l => f a l | None => a end, VUndefined)
    end.

  (** LIB 458-487: [wasm_callback]: the argument is taken from the table of blocks; [None] is a trap. *)
  Definition rust_callback (h : handler) (a : A) (ptr : option bytes) : option (A * option bytes) :=
    match (match ptr with
           | None => Some VUndefined
           | Some b => match from_block b with ROk v => Some v | RErr => Some VUndefined | _ => None end
           end) with
    | None => None
    | Some v =>
        let '(a1, r) := closure h a v in
        match r with
        | VUndefined => Some (a1, None)
        | _ => match to_snapshot r with None => None | Some blk => Some (a1, Some (w_out blk)) end
        end
    end.

  (** WI 62-81: [wasm_callback] of the page; [None] is an exception. *)
  Definition wasm_callback (lossy : bytes -> bytes) (h : handler) (a : A) (value : jsv) : option (A * jsv) :=
    match js_save_to_buffer value with
    | None => None
    | Some ptr =>
        match rust_callback h a ptr with
        | None => None
        | Some (a1, None) => Some (a1, SVUndef)
        | Some (a1, Some b) => match js_value_decode lossy b with ROk r => Some (a1, r) | _ => None end
        end
    end.

  (** What the page knows of an event: its type, whether it reaches the element and the document, the kind and text of its target, the key if it is a [KeyboardEvent], the dragged
      items if it is a [DragEvent] (then [None] is a null [dataTransfer]). *)
  Inductive target := TInput (value : bytes) | TTextArea (value : bytes) | TSelect (value : bytes) | TOther.
  (** DOM 266-287: an item of the dropped data: missing, not a file, a file. *)
  Inductive item := IUndefined | INotFile | IFile (f : file).
  (** What DOM 218-384 reads of an event. *)
  Record event := Event { e_type : bytes; e_element : bool; e_document : bool; e_target : target; e_key : option key_event; e_drag : option (option (list item)) }.

  (** The application afterwards, and whether [preventDefault] and [stopPropagation] were called. *)
  Definition outcome := (A * bool * bool)%type.

  (** DOM 264-288: the files among the dragged items, in order. *)
  Definition dropped (l : list item) : list file :=
    flat_map (fun i => match i with IFile f => [f] | _ => [] end) l.

  (** JavaScript's truth of what the bridge returns. *)
  Definition truthy (v : jsv) : bool :=
    match v with
    | SVBool b => b
    | SVUndef | SVNull => false
    | SVStr s => match s with [] => false | _ => true end
    | _ => true
    end.

  (** DOM 339-391 with 206-337: what the listener added for [name] does with an event. *)
  Definition on_event (lossy : bytes -> bytes) (name : bytes) (h : handler) (e : event) (a : A) : option outcome :=
    let is n := bytes_eqb name (str n) in
    let call v := wasm_callback lossy h a v in
    let plain (prevent : bool) := match call SVUndef with None => None | Some (a1, _) => Some (a1, prevent, false) end in
    let asked := match call SVUndef with None => None | Some (a1, r) => Some (a1, truthy r, false) end in
    let text v := match call (SVStr v) with None => None | Some (a1, _) => Some (a1, false, false) end in
    let key :=
      match e_key e with
      | None => Some (a, false, false)
      | Some k =>
          match call (SVArr [SVStr (k_key k); SVStr (k_code k); SVBool (k_alt k); SVBool (k_ctrl k); SVBool (k_shift k);
                             SVBool (k_meta k)]) with
          | None => None
          | Some (a1, r) => let stop := match r with SVBool true => true | _ => false end in Some (a1, stop, stop)
          end
      end in
    if is "click" then plain true
    else if is "input" then
      match e_target e with TInput v | TTextArea v => text v | _ => Some (a, false, false) end
    else if is "change" then
      match e_target e with TInput v | TTextArea v | TSelect v => text v | _ => Some (a, false, false) end
    else if is "blur" then plain false
    else if is "mousedown" then asked
    else if is "mouseup" then asked
    else if is "mouseenter" then plain false
    else if is "mouseleave" then plain false
    else if is "keydown" then key
    else if is "hook_keydown" then key
    else if is "drop" then
      match e_drag e with
      | Some (Some items) =>
          match dropped items with
          | [] => Some (a, true, false)
          | files =>
              match call (SVArr [SVArr (map (fun f => SVArr [SVStr (fst f); SVBytes (snd f)]) files)]) with
              | None => None
              | Some (a1, _) => Some (a1, true, false)
              end
          end
      | _ => Some (a, true, false)
      end
    else if is "load" then plain true
    else Some (a, false, false).

  (** DOM 399-404: where the listener is added, and for which type of event; the browser calls it for such events only. *)
  Definition heard (name : bytes) (e : event) : bool :=
    if bytes_eqb name (str "hook_keydown") then bytes_eqb (e_type e) (str "keydown") && e_document e
    else bytes_eqb (e_type e) name && e_element e.

  (** An event in the page, for the listener that a handler added. *)
  Definition deliver (lossy : bytes -> bytes) (h : handler) (e : event) (a : A) : option outcome :=
    if heard (event_name h) e then on_event lossy (event_name h) h e a else Some (a, false, false).
End Events.
Arguments OnClick {A}. Arguments OnMouseDown {A}. Arguments OnMouseUp {A}. Arguments OnMouseEnter {A}.
Arguments OnMouseLeave {A}. Arguments OnInput {A}. Arguments OnChange {A}. Arguments OnBlur {A}.
Arguments OnKeyDown {A}. Arguments OnDropfile {A}. Arguments HookKeyDown {A}. Arguments OnLoad {A}.
