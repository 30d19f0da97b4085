(** JSON: JSON.stringify and JSON.parse of the runtime, as sdk/ts/src/codec.ts:42-46,155 and
    the options of the commands use them, and the reading of a text by serde_json. These
    are not in /repo; they are modelled after ECMA-262 (25.5, ES2019 well-formed
    JSON.stringify) and RFC 8259. *)
From Verif Require Import LibBase CmdModel ValueModel.

(** texts: 16-bit units in JavaScript, scalar values in Rust *)
Notation txt := (list N).
(** A value as JSON.stringify sees it, after toJSON. A number is given by its text, which
    determines it; [JNaN]: NaN and the infinities; [JUndef]: undefined, functions, symbols. The
    members of an object are in property order. (BigInt and cycles, which throw, are not modelled.) *)
Inductive jv := JUndef | JNull | JBool (b : bool) | JNum (t : txt) | JNaN | JStr (u : txt) | JArr (l : list jv) | JObj (l : list (txt * jv)).

(** ** JSON.stringify *)
Definition u4 (a : N) : txt := [92; 117; hex_digit (a / 4096); hex_digit ((a / 256) mod 16); hex_digit ((a / 16) mod 16); hex_digit (a mod 16)].
Definition esc1 (a : N) : txt :=
  if a =? 34 then [92; 34] else if a =? 92 then [92; 92]
  else if a =? 8 then [92; 98] else if a =? 12 then [92; 102] else if a =? 10 then [92; 110] else if a =? 13 then [92; 114] else if a =? 9 then [92; 116]
  else if a <? 32 then u4 a else [a].
(** QuoteJSONString: a surrogate without partner is escaped *)
Fixpoint esc (u : txt) : txt :=
  match u with
  | [] => []
  | a :: r =>
    if hi_sur a then
      match r with
      | b :: r' => if lo_sur b then a :: b :: esc r' else u4 a ++ esc r
      | [] => u4 a
      end
    else if lo_sur a then u4 a ++ esc r
    else esc1 a ++ esc r
  end.
Definition quote (u : txt) : txt := [34] ++ esc u ++ [34].
Fixpoint join (l : list txt) : txt :=
  match l with [] => [] | [x] => x | x :: l' => x ++ [44] ++ join l' end.
Definition t_null : txt := [110; 117; 108; 108].
Definition t_true : txt := [116; 114; 117; 101].
Definition t_false : txt := [102; 97; 108; 115; 101].
Definition is_undef (v : jv) : bool := match v with JUndef => true | _ => false end.
Fixpoint str (v : jv) : txt :=
  match v with
  | JUndef | JNull | JNaN => t_null
  | JBool b => if b then t_true else t_false
  | JNum t => t
  | JStr u => quote u
  | JArr l => [91] ++ join (map str l) ++ [93]
  | JObj l => [123] ++ join (flat_map (fun kv => if is_undef (snd kv) then [] else [quote (fst kv) ++ [58] ++ str (snd kv)]) l) ++ [125]
  end.
(** `JSON.stringify(data ?? null)`: codec.ts:155 *)
Definition js_stringify (v : jv) : option txt := Some (str v).

(** ** Reading a text: RFC 8259, on which both readers agree *)
Definition is_ws (c : N) : bool := (c =? 32) || (c =? 9) || (c =? 10) || (c =? 13).
Fixpoint ws (t : txt) : txt := match t with c :: r => if is_ws c then ws r else t | [] => [] end.
Definition hexn (c : N) : option N :=
  if inr 48 57 c then Some (c - 48) else if inr 97 102 c then Some (c - 87) else if inr 65 70 c then Some (c - 55) else None.
Definition unesc (e : N) : option N :=
  if e =? 34 then Some 34 else if e =? 92 then Some 92 else if e =? 47 then Some 47
  else if e =? 98 then Some 8 else if e =? 102 then Some 12 else if e =? 110 then Some 10 else if e =? 114 then Some 13 else if e =? 116 then Some 9 else None.
Definition pre (u : N) (r : option (txt * txt)) : option (txt * txt) := match r with Some (s, r') => Some (u :: s, r') | None => None end.
(** a string, after its opening quote *)
Fixpoint pstr (t : txt) : option (txt * txt) :=
  match t with
  | [] => None
  | c :: r =>
    if c =? 34 then Some ([], r)
    else if c =? 92 then
      match r with
      | [] => None
      | e :: r' =>
        if e =? 117 then
          match r' with
          | a :: b :: x :: d :: r2 =>
            match hexn a, hexn b, hexn x, hexn d with
            | Some a, Some b, Some x, Some d => pre (a * 4096 + b * 256 + x * 16 + d) (pstr r2)
            | _, _, _, _ => None
            end
          | _ => None
          end
        else match unesc e with Some u => pre u (pstr r') | None => None end
      end
    else if c <? 32 then None else pre c (pstr r)
  end.
Definition digit (c : N) : bool := inr 48 57 c.
Fixpoint span (p : N -> bool) (t : txt) : txt * txt :=
  match t with c :: r => if p c then let (a, b) := span p r in (c :: a, b) else ([], t) | [] => ([], []) end.
(** one or more digits *)
Definition digits (t : txt) : option (txt * txt) := match span digit t with ([], _) => None | p => Some p end.
(** the whole part: no leading zero *)
Definition num_int (t : txt) : option (txt * txt) :=
  match t with
  | c :: r => if c =? 48 then Some ([48], r) else digits t
  | [] => None
  end.
Definition num_frac (t : txt) : option (txt * txt) :=
  match t with
  | c :: r => if c =? 46 then match digits r with Some (d, r') => Some (46 :: d, r') | None => None end else Some ([], t)
  | [] => Some ([], [])
  end.
Definition num_exp (t : txt) : option (txt * txt) :=
  match t with
  | e :: r =>
    if (e =? 101) || (e =? 69) then
      match r with
      | s :: r1 => if (s =? 43) || (s =? 45) then match digits r1 with Some (d, r') => Some (e :: s :: d, r') | None => None end
                   else match digits r with Some (d, r') => Some (e :: d, r') | None => None end
      | [] => None
      end
    else Some ([], t)
  | [] => Some ([], [])
  end.
Definition num_abs (t : txt) : option (txt * txt) :=
  match num_int t with
  | Some (i, r) => match num_frac r with
                   | Some (f, r1) => match num_exp r1 with Some (e, r2) => Some (i ++ f ++ e, r2) | None => None end
                   | None => None
                   end
  | None => None
  end.
Definition lex_num (t : txt) : option (txt * txt) :=
  match t with
  | c :: r => if c =? 45 then match num_abs r with Some (n, r') => Some (45 :: n, r') | None => None end else num_abs t
  | [] => None
  end.
Fixpoint lit (w : txt) (t : txt) : option txt :=
  match w, t with [], _ => Some t | a :: w', c :: r => if a =? c then lit w' r else None | _, [] => None end.
(** a value; the members of an object as written, repeated names included. [n] bounds the
    recursion; [parse] gives enough. *)
Fixpoint pv (n : nat) (t : txt) : option (jv * txt) :=
  match n with
  | O => None
  | S n =>
    match ws t with
    | [] => None
    | c :: r =>
      if c =? 34 then match pstr r with Some (u, r') => Some (JStr u, r') | None => None end
      else if c =? 91 then
        match ws r with
        | d :: r' => if d =? 93 then Some (JArr [], r') else match parr n r with Some (l, r2) => Some (JArr l, r2) | None => None end
        | [] => None
        end
      else if c =? 123 then
        match ws r with
        | d :: r' => if d =? 125 then Some (JObj [], r') else match pobj n r with Some (l, r2) => Some (JObj l, r2) | None => None end
        | [] => None
        end
      else if c =? 110 then match lit t_null (c :: r) with Some r' => Some (JNull, r') | None => None end
      else if c =? 116 then match lit t_true (c :: r) with Some r' => Some (JBool true, r') | None => None end
      else if c =? 102 then match lit t_false (c :: r) with Some r' => Some (JBool false, r') | None => None end
      else match lex_num (c :: r) with Some (x, r') => Some (JNum x, r') | None => None end
    end
  end
with parr (n : nat) (t : txt) : option (list jv * txt) :=
  match n with
  | O => None
  | S n =>
    match pv n t with
    | Some (v, r) =>
      match ws r with
      | c :: r' => if c =? 93 then Some ([v], r')
                   else if c =? 44 then match parr n r' with Some (l, r2) => Some (v :: l, r2) | None => None end
                   else None
      | [] => None
      end
    | None => None
    end
  end
with pobj (n : nat) (t : txt) : option (list (txt * jv) * txt) :=
  match n with
  | O => None
  | S n =>
    match ws t with
    | q :: r0 =>
      if q =? 34 then
        match pstr r0 with
        | Some (k, r1) =>
          match ws r1 with
          | c :: r2 =>
            if c =? 58 then
              match pv n r2 with
              | Some (v, r) =>
                match ws r with
                | d :: r' => if d =? 125 then Some ([(k, v)], r')
                             else if d =? 44 then match pobj n r' with Some (l, r3) => Some ((k, v) :: l, r3) | None => None end
                             else None
                | [] => None
                end
              | None => None
              end
            else None
          | [] => None
          end
        | None => None
        end
      else None
    | [] => None
    end
  end.
Definition parse (t : txt) : option jv :=
  match pv (2 * length t) t with Some (v, r) => match ws r with [] => Some v | _ => None end | None => None end.

(** ** JSON.parse: of members with the same name the last one counts *)
Fixpoint oput (k : txt) (v : jv) (l : list (txt * jv)) : list (txt * jv) :=
  match l with [] => [(k, v)] | (j, w) :: l' => if beqb j k then (j, v) :: l' else (j, w) :: oput k v l' end.
Fixpoint js_of (v : jv) : jv :=
  match v with
  | JArr l => JArr (map js_of l)
  | JObj l => JObj (fold_left (fun o kv => oput (fst kv) (snd kv) o) (map (fun kv => (fst kv, js_of (snd kv))) l) [])
  | v => v
  end.
(** codec.ts:45; a string at the top is a string *)
Definition js_parse (t : txt) : option (value jv) :=
  match parse t with
  | Some (JStr u) => Some (VStr u)
  | Some v => Some (VJson (js_of v))
  | None => None
  end.
