(** Values of the SDK on the wire (sdk/ts/src/codec.ts `any`, `decodeAny`) and on the
    dashboard (src/transport/http/payload.rs). *)
From Verif Require Import LibBase CmdModel.

(** ** Texts. A JavaScript string is a list of 16-bit units, a Rust string one of scalar
    values. *)
Definition hi_sur (u : N) : bool := inr 55296 56319 u.
Definition lo_sur (u : N) : bool := inr 56320 57343 u.
Definition repl : N := 65533.
(** `buf.write(data, offset, len, 'utf8')` (codec.ts:154,161) takes pairs of surrogates
    together and writes U+FFFD for a lone one (the Node.js runtime; not in /repo). *)
Fixpoint code_points (u : list N) : list N :=
  match u with
  | [] => []
  | a :: r =>
    if hi_sur a then
      match r with
      | b :: r' => if lo_sur b then (65536 + (a - 55296) * 1024 + (b - 56320)) :: code_points r' else repl :: code_points r
      | [] => [repl]
      end
    else if lo_sur a then repl :: code_points r
    else a :: code_points r
  end.
Definition utf8_put (n : N) : bytes :=
  if n <? 128 then [n]
  else if n <? 2048 then [192 + n / 64; 128 + n mod 64]
  else if n <? 65536 then [224 + n / 4096; 128 + (n / 64) mod 64; 128 + n mod 64]
  else [240 + n / 262144; 128 + (n / 4096) mod 64; 128 + (n / 64) mod 64; 128 + n mod 64].
Definition utf8_write (u : list N) : bytes := flat_map utf8_put (code_points u).

(** `String::from_utf8_lossy` (payload.rs:23,30,33) and `buf.toString('utf8', …)`
    (codec.ts:43,45): U+FFFD for each maximal ill-formed piece. *)
Fixpoint utf8_lossy (l : bytes) : list N :=
  match l with
  | [] => []
  | b :: r =>
    if b <? 128 then b :: utf8_lossy r
    else if inr 194 223 b then
      match r with
      | c :: r1 => if cont c then (b - 192) * 64 + (c - 128) :: utf8_lossy r1 else repl :: utf8_lossy r
      | [] => [repl]
      end
    else if inr 224 239 b then
      match r with
      | c :: r1 =>
        if (if b =? 224 then inr 160 191 c else if b =? 237 then inr 128 159 c else cont c) then
          match r1 with
          | d :: r2 => if cont d then (b - 224) * 4096 + (c - 128) * 64 + (d - 128) :: utf8_lossy r2 else repl :: utf8_lossy r1
          | [] => [repl]
          end
        else repl :: utf8_lossy r
      | [] => [repl]
      end
    else if inr 240 244 b then
      match r with
      | c :: r1 =>
        if (if b =? 240 then inr 144 191 c else if b =? 244 then inr 128 143 c else cont c) then
          match r1 with
          | d :: r2 =>
            if cont d then
              match r2 with
              | e :: r3 => if cont e then (b - 240) * 262144 + (c - 128) * 4096 + (d - 128) * 64 + (e - 128) :: utf8_lossy r3 else repl :: utf8_lossy r2
              | [] => [repl]
              end
            else repl :: utf8_lossy r1
          | [] => [repl]
          end
        else repl :: utf8_lossy r
      | [] => [repl]
      end
    else repl :: utf8_lossy r
  end.
Definition units (n : N) : list N := if n <? 65536 then [n] else [55296 + (n - 65536) / 1024; 56320 + (n - 65536) mod 1024].
(** the string a JavaScript caller gets *)
Definition utf8_read (l : bytes) : list N := flat_map units (utf8_lossy l).

(** sdk/ts/src/protocol.ts:17-21 *)
Definition t_raw : N := 0.
Definition t_string : N := 1.
Definition t_json : N := 2.

Section Values.
  (** [J]: what is neither Buffer nor string. [stringify]: `JSON.stringify(data ?? null)`,
      [None] where it gives no text (functions) or throws. *)
  Variable J : Type.
  Variable stringify : J -> option (list N).
  Inductive value := VBuf (b : bytes) | VStr (u : list N) | VJson (j : J).
  (** `JSON.parse`; [None]: throws *)
  Variable parse : list N -> option value.
  Variable null : J.

  (** codec.ts:142-166 *)
  Definition any (v : value) : option bytes :=
    match v with
    | VBuf b => Some (t_raw :: b)
    | VStr u => Some (t_string :: utf8_write u)
    | VJson j => match stringify j with Some t => Some (t_json :: utf8_write t) | None => None end
    end.
  (** codec.ts:35-50; [None]: throws *)
  Definition decode_any (b : bytes) : option value :=
    match b with
    | [] => None
    | t :: r =>
      if t =? t_json then (match r with [] => Some (VJson null) | _ => parse (utf8_read r) end)
      else if t =? t_string then Some (VStr (utf8_read r))
      else Some (VBuf r)
    end.
End Values.
Arguments VBuf {J} _. Arguments VStr {J} _. Arguments VJson {J} _.

(** ** Dashboard *)
(** `hex::encode` (payload.rs:27) *)
Definition hex_digit (n : N) : N := if n <? 10 then 48 + n else 87 + n.
Definition hex_encode (b : bytes) : list N := flat_map (fun x => [hex_digit (x / 16); hex_digit (x mod 16)]) b.

Section Display.
  (** [V]: serde_json's values with [vnull] and [vstr]; [serde]: `serde_json::from_slice` *)
  Variable V : Type.
  Variable vnull : V.
  Variable vstr : list N -> V.
  Variable serde : bytes -> option V.
  (** payload.rs:5-34 *)
  Definition payload_to_json (p : bytes) : V :=
    match p with
    | [] => vnull
    | t :: r =>
      let (ty, c) := if t <=? t_json then (t, r) else (t_json, p) in
      if ty =? t_json then (match serde c with Some v => v | None => vstr (utf8_lossy c) end)
      else if ty =? t_raw then vstr ([48; 120] ++ hex_encode c)
      else vstr (utf8_lossy c)
    end.
End Display.
