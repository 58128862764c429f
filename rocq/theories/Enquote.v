(** [enquote::unquote] of the crate enquote 1.x (external; written from its
    documentation and memory, the source is not in the sandbox).  The theorems about
    the parser hold for every function in its place, or state what they need of it
    and EnquoteFacts.v shows that this function has it; the Examples and conformance
    tests run with this one. *)

From Verif Require Import Bytes.
Local Open Scope N_scope.

Definition hex_value (c : N) : option N :=
  if is_digit c then Some (c - 48)
  else if in_range 97 102 c then Some (c - 87)
  else if in_range 65 70 c then Some (c - 55)
  else None.

Definition octal_value (c : N) : option N := if in_range 48 55 c then Some (c - 48) else None.

(** [n] digits in the given base: the value and the rest. *)
Fixpoint digits (value : N -> option N) (base : N) (n : nat) (acc : N) (s : bytes) : option (N * bytes) :=
  match n with
  | O => Some (acc, s)
  | S n' =>
    match s with
    | c :: s' => match value c with
                 | Some v => digits value base n' (acc * base + v) s'
                 | None => None
                 end
    | [] => None
    end
  end.

(** [char::from_u32] and its UTF-8 encoding *)
Definition encode_char (n : N) : option bytes :=
  if n <? 128 then Some [n]
  else if n <? 2048 then Some [192 + n / 64; 128 + n mod 64]
  else if n <? 65536 then
    if in_range 55296 57343 n then None
    else Some [224 + n / 4096; 128 + n / 64 mod 64; 128 + n mod 64]
  else if n <? 1114112 then
    Some [240 + n / 262144; 128 + n / 4096 mod 64; 128 + n / 64 mod 64; 128 + n mod 64]
  else None.

(** One escape sequence, after the backslash: what it stands for and the rest. *)
Definition unescape_one (s : bytes) : option (bytes * bytes) :=
  match s with
  | [] => None
  | c :: t =>
    if (c =? BSLASH) || (c =? DQUOTE) || (c =? SQUOTE) || (c =? BACKTICK) then Some ([c], t)
    else if c =? 97 then Some ([7], t)
    else if c =? 98 then Some ([8], t)
    else if c =? 102 then Some ([12], t)
    else if c =? 110 then Some ([10], t)
    else if c =? 114 then Some ([13], t)
    else if c =? 116 then Some ([9], t)
    else if c =? 118 then Some ([11], t)
    else
      let finish r := match r with
                      | Some (n, rest) => match encode_char n with
                                          | Some b => Some (b, rest)
                                          | None => None
                                          end
                      | None => None
                      end in
      if c =? 120 then finish (digits hex_value 16 2 0 t)
      else if c =? 117 then finish (digits hex_value 16 4 0 t)
      else if c =? 85 then finish (digits hex_value 16 8 0 t)
      else if in_range 48 55 c then finish (digits octal_value 8 3 0 s)
      else None
  end.

(** [unescape(s, Some(quote))]; the fuel is the length of the text. *)
Fixpoint unescape (fuel : nat) (quote : N) (s : bytes) : option bytes :=
  match fuel with
  | O => match s with [] => Some [] | _ => None end
  | S f =>
    match s with
    | [] => Some []
    | c :: t =>
      if c =? quote then None
      else if c =? BSLASH then
        match unescape_one t with
        | Some (b, rest) => option_map (app b) (unescape f quote rest)
        | None => None
        end
      else option_map (cons c) (unescape f quote t)
    end
  end.

Definition enquote_unquote (s : bytes) : option bytes :=
  match s with
  | q :: t =>
    if (q =? DQUOTE) || (q =? SQUOTE) || (q =? BACKTICK) then
      match rev t with
      | l :: r => if l =? q then unescape (length r) q (rev r) else None
      | [] => None
      end
    else None
  | [] => None
  end.
