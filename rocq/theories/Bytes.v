(** Text as bytes.

    A Rust [&str]/[String] is a sequence of UTF-8 bytes, and every offset in the
    code (pest positions, [Span], [split_at]) is a byte offset.  The model keeps
    exactly that: a text is a list of bytes, a byte is an [N] (below 256 in every
    valid text), offsets are [nat] indices in the list. *)

From Coq Require Import String Ascii.
From Coq Require Export List NArith ZArith Arith Bool Lia.
Export ListNotations.

Definition bytes := list N.

(** String literals of the Coq source as bytes (Coq reads them as UTF-8). *)
Definition bs (s : string) : bytes := map N_of_ascii (list_ascii_of_string s).

Local Open Scope N_scope.

(** ** Named bytes *)

Notation TAB := 9%N.
Notation LF := 10%N.
Notation CR := 13%N.
Notation SP := 32%N.
Notation DQUOTE := 34%N.
Notation HASH := 35%N.
Notation DOLLAR := 36%N.
Notation SQUOTE := 39%N.
Notation PLUS := 43%N.
Notation COMMA := 44%N.
Notation DASH := 45%N.
Notation DOT := 46%N.
Notation SLASH := 47%N.
Notation COLON := 58%N.
Notation EQUALS := 61%N.
Notation AT := 64%N.
Notation LBRACK := 91%N.
Notation BSLASH := 92%N.
Notation RBRACK := 93%N.
Notation UNDER := 95%N.
Notation BACKTICK := 96%N.
Notation LBRACE := 123%N.
Notation RBRACE := 125%N.

(** ** Byte classes *)

Definition in_range (lo hi c : N) : bool := (lo <=? c) && (c <=? hi).

Definition is_lower (c : N) : bool := in_range 97 122 c.
Definition is_upper (c : N) : bool := in_range 65 90 c.
Definition is_digit (c : N) : bool := in_range 48 57 c.
Definition is_alpha (c : N) : bool := is_lower c || is_upper c.
Definition is_alnum (c : N) : bool := is_alpha c || is_digit c.
(** [A-Za-z0-9_] *)
Definition is_word (c : N) : bool := is_alnum c || (c =? UNDER).
Definition is_hex (c : N) : bool := is_digit c || in_range 97 102 c || in_range 65 70 c.
Definition is_blank (c : N) : bool := (c =? SP) || (c =? TAB).
Definition is_newline_byte (c : N) : bool := (c =? LF) || (c =? CR).

(** [u8::to_ascii_lowercase] *)
Definition lower_byte (c : N) : N := if is_upper c then c + 32 else c.
(** [str::to_ascii_lowercase] (used in src/stage.rs lines 133, 150, 170) *)
Definition to_lower (s : bytes) : bytes := map lower_byte s.
(** [str::eq_ignore_ascii_case] (used by pest's [match_insensitive]) *)
Definition eq_icase (a b : N) : bool := lower_byte a =? lower_byte b.

Fixpoint beqb (a b : bytes) : bool :=
  match a, b with
  | [], [] => true
  | x :: a', y :: b' => (x =? y) && beqb a' b'
  | _, _ => false
  end.

(** ** Slices: [&s[start..end]] for [start <= end <= len] *)
Definition slice (s : bytes) (start stop : nat) : bytes :=
  firstn (stop - start) (skipn start s).

(** ** UTF-8 *)

(** A continuation byte, 0b10xxxxxx. *)
Definition is_cont (c : N) : bool := in_range 128 191 c.

(** [str::from_utf8]'s notion of validity (the Unicode table 3-7: no overlong
    forms, no surrogates, nothing above U+10FFFF). *)
Fixpoint valid_utf8 (s : bytes) : bool :=
  match s with
  | [] => true
  | a :: t =>
    if a <? 128 then valid_utf8 t
    else match t with
    | [] => false
    | b :: t1 =>
      if in_range 194 223 a then is_cont b && valid_utf8 t1
      else match t1 with
      | [] => false
      | c :: t2 =>
        if a =? 224 then in_range 160 191 b && is_cont c && valid_utf8 t2
        else if in_range 225 236 a || in_range 238 239 a
             then is_cont b && is_cont c && valid_utf8 t2
        else if a =? 237 then in_range 128 159 b && is_cont c && valid_utf8 t2
        else match t2 with
        | [] => false
        | d :: t3 =>
          if a =? 240 then in_range 144 191 b && is_cont c && is_cont d && valid_utf8 t3
          else if in_range 241 243 a then is_cont b && is_cont c && is_cont d && valid_utf8 t3
          else if a =? 244 then in_range 128 143 b && is_cont c && is_cont d && valid_utf8 t3
          else false
        end
      end
    end
  end.

(** Width of the character that starts with this byte ([char::len_utf8]). *)
Definition utf8_width (a : N) : nat :=
  if a <? 128 then 1%nat
  else if a <? 224 then 2%nat
  else if a <? 240 then 3%nat
  else 4%nat.

(** [str::is_char_boundary]: 0, the length, or the index of a byte that is not a
    continuation byte. *)
Definition is_boundary (s : bytes) (i : nat) : bool :=
  match i with
  | O => true
  | _ => match nth_error s i with
         | Some c => negb (is_cont c)
         | None => (i =? length s)%nat
         end
  end.
