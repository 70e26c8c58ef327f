(** JSON texts: how the browser ([JSON.stringify], [JSON.parse]) and the server (the crate serde_json 1.0) write and read
    them.

    Used at FT = /repo/crates/vertigo/src/driver_module/src_js/api_browser/fetch.ts:93, 137 and
    SR = /repo/crates/vertigo-cli/src/serve/html/send_request.rs:18-75, 121, 234.
    [JSON.stringify] and [JSON.parse] follow ECMAScript 25.5; serde_json is a third-party crate, as documented and as in its
    files ser.rs, de.rs and read.rs.  Strings are UTF-8 bytes.  A lone surrogate, which a JavaScript string can hold, is the
    replacement character here: that is what it becomes on its way to wasm (JS/buffer_cursor.ts: [TextEncoder]).
    How a number is written and read is a parameter.  The entries of an object stay in the order of the list (JavaScript puts
    keys that are integers first; a [HashMap] has no order at all). *)
From Coq Require Import String List NArith Bool.
From Verif Require Import CodecModel CodecUtf8 FloatModel DomWire BridgeModel.
Import ListNotations.
Local Open Scope string_scope.
Local Open Scope list_scope.
Local Open Scope N_scope.

(** ** Writing *)

(** ECMAScript 25.5.2.3 (UnicodeEscape), serde_json ser.rs: a lower case hexadecimal digit. *)
Definition hex_lower (n : N) : N := if n <? 10 then 48 + n else 87 + n.
(** ECMAScript 25.5.2.3 (QuoteJSONString), serde_json ser.rs [format_escaped_str_contents]: one character.  The two agree. *)
Definition escape_json (b : N) : bytes :=
  if b =? 8 then [92; 98] else if b =? 9 then [92; 116] else if b =? 10 then [92; 110]
  else if b =? 12 then [92; 102] else if b =? 13 then [92; 114] else if b =? 34 then [92; 34] else if b =? 92 then [92; 92]
  else if b <? 32 then [92; 117; 48; 48; hex_lower (b / 16); hex_lower (b mod 16)] else [b].
(** A string in quotes (same places). *)
Definition quote (s : bytes) : bytes := 34 :: flat_map escape_json s ++ [34].

(** IEEE 754: neither an infinity nor NaN. *)
Definition finite (b : N) : bool := negb ((b / p52) mod 2048 =? 2047).

(** The members of a list or an object with commas between them (ECMAScript 25.5.2.5, 25.5.2.6; serde_json ser.rs). *)
Fixpoint commas (l : list bytes) : bytes := match l with [] => [] | [x] => x | x :: t => x ++ 44 :: commas t end.

Section Browser.
  (** ECMAScript 6.1.6.1.20 ([Number::toString]) of a finite number that is not zero. *)
  Variable number : N -> bytes.

  (** ECMAScript 25.5.2.2 (SerializeJSONProperty), the case of numbers, with 6.1.6.1.20 for the two zeros. *)
  Definition js_number (b : N) : bytes :=
    if negb (finite b) then str "null" else if (b =? 0) || (b =? p63) then str "0" else number b.

  (** ECMAScript 25.5.2: [JSON.stringify] of the values that come from JsJson; the other cases do not occur. *)
  Fixpoint js_stringify (v : jval) : bytes :=
    match v with
    | KNull => str "null"
    | KBool true => str "true"
    | KBool false => str "false"
    | KStr s => quote s
    | KNum b => js_number b
    | KArr l => 91 :: commas (map js_stringify l) ++ [93]
    | KObj m => 123 :: commas (map (fun e => quote (fst e) ++ 58 :: js_stringify (snd e)) m) ++ [125]
    | _ => []
    end.
End Browser.

(** The order of [String]s (std): that of their bytes. *)
Fixpoint before (a b : bytes) : bool :=
  match a, b with
  | [], [] => false
  | [], _ => true
  | _, [] => false
  | x :: s, y :: t => if x <? y then true else if y <? x then false else before s t
  end.
(** [Map::insert] of serde_json, a [BTreeMap]; the keys inserted are distinct. *)
Fixpoint sorted_insert {A} (k : bytes) (v : A) (m : list (bytes * A)) : list (bytes * A) :=
  match m with
  | [] => [(k, v)]
  | (k', v') :: t => if before k k' then (k, v) :: m else (k', v') :: sorted_insert k v t
  end.
(** SR 66-70: the loop over the entries of an object. *)
Definition sort_entries {A} (m : list (bytes * A)) : list (bytes * A) :=
  fold_left (fun acc e => sorted_insert (fst e) (snd e) acc) m [].

(** SR 54-75: [convert_to_jsvalue]; the result is again a [json], its objects sorted by key.  [None]: the [unwrap] of line 59
    panics. *)
Fixpoint to_serde (j : json) : option json :=
  match j with
  | JTrue | JFalse | JNull | JString _ => Some j
  | JNumber b => if finite b then Some j else None
  | JList l => match all_some (map to_serde l) with Some r => Some (JList r) | None => None end
  | JObject m =>
      match all_some (map (fun e => match to_serde (snd e) with Some x => Some (fst e, x) | None => None end) m) with
      | Some r => Some (JObject (sort_entries r))
      | None => None
      end
  end.

Section Server.
  (** How serde_json writes a finite number (the crate ryu). *)
  Variable number : N -> bytes.

  (** serde_json::to_string of a [Value] (SR 121). *)
  Fixpoint serde_text (j : json) : bytes :=
    match j with
    | JNull => str "null"
    | JTrue => str "true"
    | JFalse => str "false"
    | JString s => quote s
    | JNumber b => number b
    | JList l => 91 :: commas (map serde_text l) ++ [93]
    | JObject m => 123 :: commas (map (fun e => quote (fst e) ++ 58 :: serde_text (snd e)) m) ++ [125]
    end.
End Server.

(** ** Reading *)

(** RFC 8259, 2: the white space (also ECMAScript 25.5.1, serde_json de.rs [parse_whitespace]). *)
Definition is_space (c : N) : bool := (c =? 32) || (c =? 9) || (c =? 10) || (c =? 13).
(** White space is passed over. *)
Fixpoint skip (b : bytes) : bytes := match b with c :: t => if is_space c then skip t else b | [] => [] end.

(** The value of a hexadecimal digit, of either case. *)
Definition hex_digit_value (b : N) : option N :=
  if in_range 48 57 b then Some (b - 48) else if in_range 65 70 b then Some (b - 55)
  else if in_range 97 102 b then Some (b - 87) else None.
(** Four of them (serde_json read.rs [decode_hex_escape]). *)
Definition hex4 (a b c d : N) : option N :=
  match hex_digit_value a, hex_digit_value b, hex_digit_value c, hex_digit_value d with
  | Some a, Some b, Some c, Some d => Some (((a * 16 + b) * 16 + c) * 16 + d)
  | _, _, _, _ => None
  end.
(** The single character escapes (RFC 8259, 7). *)
Definition simple_escape (e : N) : option N :=
  if (e =? 34) || (e =? 92) || (e =? 47) then Some e
  else if e =? 98 then Some 8 else if e =? 102 then Some 12 else if e =? 110 then Some 10
  else if e =? 114 then Some 13 else if e =? 116 then Some 9 else None.
(** The two halves of a surrogate pair (Unicode 3.9), and the character they are. *)
Definition is_high (n : N) : bool := in_range 55296 56319 n.
(** The second half. *)
Definition is_low (n : N) : bool := in_range 56320 57343 n.
(** The character. *)
Definition pair (n m : N) : N := 65536 + (n - 55296) * 1024 + (m - 56320).
(** U+FFFD *)
Definition replacement : bytes := [239; 191; 189].
(** Characters before the rest of a string that was read. *)
Definition push_chars (s : bytes) (r : option (bytes * bytes)) : option (bytes * bytes) :=
  match r with Some (t, rest) => Some (s ++ t, rest) | None => None end.

(** A string after its opening quote, up to the closing one: ECMAScript 25.5.1 (a JSON string is read like a string literal),
    serde_json read.rs [parse_str], [parse_escape].  [lone]: lone surrogates are accepted (ECMAScript). *)
Fixpoint string_body (lone : bool) (b : bytes) : option (bytes * bytes) :=
  match b with
  | [] => None
  | c :: t =>
    if c =? 34 then Some ([], t)
    else if c =? 92 then
      match t with
      | [] => None
      | e :: t1 =>
        if e =? 117 then
          match t1 with
          | h1 :: h2 :: h3 :: h4 :: t2 =>
            match hex4 h1 h2 h3 h4 with
            | None => None
            | Some n =>
              if is_high n then
                match t2 with
                | b1 :: u :: k1 :: k2 :: k3 :: k4 :: t3 =>
                  match (if (b1 =? 92) && (u =? 117) then hex4 k1 k2 k3 k4 else None) with
                  | Some m =>
                      if is_low m then push_chars (encode (pair n m)) (string_body lone t3)
                      else if lone then push_chars replacement (string_body lone t2) else None
                  | None => if lone then push_chars replacement (string_body lone t2) else None
                  end
                | _ => if lone then push_chars replacement (string_body lone t2) else None
                end
              else if is_low n then if lone then push_chars replacement (string_body lone t2) else None
              else push_chars (encode n) (string_body lone t2)
            end
          | _ => None
          end
        else match simple_escape e with Some x => push_chars [x] (string_body lone t1) | None => None end
      end
    else if c <? 32 then None else push_chars [c] (string_body lone t)
  end.

(** RFC 8259, 6: the digits at the beginning. *)
Definition is_digit (c : N) : bool := in_range 48 57 c.
(** They, and the rest. *)
Fixpoint digits (b : bytes) : bytes * bytes :=
  match b with c :: t => if is_digit c then let '(d, r) := digits t in (c :: d, r) else ([], b) | [] => ([], []) end.
(** At least one. *)
Definition digits1 (b : bytes) : option (bytes * bytes) :=
  match digits b with ([], _) => None | p => Some p end.
(** The integer part: no leading zeros. *)
Definition int_part (b : bytes) : option (bytes * bytes) :=
  match b with c :: t => if c =? 48 then Some ([48], t) else digits1 b | [] => None end.
(** The fraction. *)
Definition frac_part (b : bytes) : option (bytes * bytes) :=
  match b with
  | c :: t => if c =? 46 then match digits1 t with Some (d, r) => Some (46 :: d, r) | None => None end else Some ([], b)
  | [] => Some ([], [])
  end.
(** The exponent. *)
Definition exp_part (b : bytes) : option (bytes * bytes) :=
  match b with
  | c :: t =>
      if (c =? 101) || (c =? 69) then
        match t with
        | s :: t' =>
            if (s =? 43) || (s =? 45)
            then match digits1 t' with Some (d, r) => Some (c :: s :: d, r) | None => None end
            else match digits1 t with Some (d, r) => Some (c :: d, r) | None => None end
        | [] => None
        end
      else Some ([], b)
  | [] => Some ([], [])
  end.
(** The text of a number at the beginning (ECMAScript 25.5.1, serde_json de.rs [parse_integer], [parse_decimal],
    [parse_exponent]). *)
Definition number_text (b : bytes) : option (bytes * bytes) :=
  let '(sign, b) := match b with c :: t => if c =? 45 then ([45], t) else ([], b) | [] => ([], []) end in
  match int_part b with
  | None => None
  | Some (i, b) => match frac_part b with
                   | None => None
                   | Some (f, b) => match exp_part b with None => None | Some (e, b) => Some (sign ++ i ++ f ++ e, b) end
                   end
  end.

(** A word at the beginning. *)
Fixpoint word (w b : bytes) : option bytes :=
  match w, b with
  | [], _ => Some b
  | x :: w, y :: b => if x =? y then word w b else None
  | _ :: _, [] => None
  end.

(** serde_json de.rs [remaining_depth]: one level deeper; [None] for ever ([JSON.parse]). *)
Definition enter (d : option nat) : option (option nat) :=
  match d with None => Some None | Some O => None | Some (S n) => Some (Some n) end.

Section Reader.
  (** Whether lone surrogates are accepted, whether strings are checked to be UTF-8, and the value of a number. *)
  Variables lone checked : bool.
  Variable read_number : bytes -> option N.

  (** A string that was read. *)
  Definition read_string (b : bytes) : option (bytes * bytes) :=
    match string_body lone b with
    | Some (s, r) => if negb checked || utf8_valid s then Some (s, r) else None
    | None => None
    end.

  (** A value, the elements of a list, the members of an object (each up to what follows; [fuel] bounds the recursion). *)
  Fixpoint value (fuel : nat) (d : option nat) (b : bytes) : option (json * bytes) :=
    match fuel with
    | O => None
    | S f =>
      match b with
      | [] => None
      | c :: t =>
        if c =? 123 then
          match enter d with
          | None => None
          | Some d => match skip t with
                      | [] => None
                      | x :: r => if x =? 125 then Some (JObject [], r)
                                  else match members f d [] (x :: r) with Some (m, r) => Some (JObject m, r) | None => None end
                      end
          end
        else if c =? 91 then
          match enter d with
          | None => None
          | Some d => match skip t with
                      | [] => None
                      | x :: r => if x =? 93 then Some (JList [], r)
                                  else match elements f d (x :: r) with Some (l, r) => Some (JList l, r) | None => None end
                      end
          end
        else if c =? 34 then match read_string t with Some (s, r) => Some (JString s, r) | None => None end
        else if c =? 116 then match word (str "true") b with Some r => Some (JTrue, r) | None => None end
        else if c =? 102 then match word (str "false") b with Some r => Some (JFalse, r) | None => None end
        else if c =? 110 then match word (str "null") b with Some r => Some (JNull, r) | None => None end
        else match number_text b with
             | Some (x, r) => match read_number x with Some n => Some (JNumber n, r) | None => None end
             | None => None
             end
      end
    end
  with elements (fuel : nat) (d : option nat) (b : bytes) : option (list json * bytes) :=
    match fuel with
    | O => None
    | S f =>
      match value f d b with
      | None => None
      | Some (j, r) =>
          match skip r with
          | c :: r => if c =? 44 then match elements f d (skip r) with Some (l, r) => Some (j :: l, r) | None => None end
                      else if c =? 93 then Some ([j], r) else None
          | [] => None
          end
      end
    end
  with members (fuel : nat) (d : option nat) (acc : list (bytes * json)) (b : bytes) : option (list (bytes * json) * bytes) :=
    match fuel with
    | O => None
    | S f =>
      match b with
      | q :: t =>
        if q =? 34 then
          match read_string t with
          | None => None
          | Some (k, r) =>
            match skip r with
            | c :: r =>
              if c =? 58 then
                match value f d (skip r) with
                | None => None
                | Some (j, r) =>
                    let acc := assoc_insert k j acc in
                    match skip r with
                    | c :: r => if c =? 44 then members f d acc (skip r) else if c =? 125 then Some (acc, r) else None
                    | [] => None
                    end
                end
              else None
            | [] => None
            end
          end
        else None
      | [] => None
      end
    end.

  (** A whole text: nothing but white space after the value. *)
  Definition read_text (d : option nat) (b : bytes) : option json :=
    match value (2 * length b + 2) d (skip b) with
    | Some (j, r) => match skip r with [] => Some j | _ => None end
    | None => None
    end.
End Reader.

(** ECMAScript 25.5.1: [JSON.parse]; an exception is [None].  A later member of an object replaces an earlier one. *)
Definition js_parse (read_number : bytes -> N) (t : bytes) : option json :=
  read_text true false (fun x => Some (read_number x)) None t.
(** serde_json::from_slice::<Value> and [convert_to_jsjson] (SR 18-52, 234-238): numbers out of range are refused, and so are
    more than 127 levels of lists and objects. *)
Definition serde_parse (read_number : bytes -> option N) (t : bytes) : option json :=
  read_text false true read_number (Some 127%nat) t.
