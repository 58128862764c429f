(** src/image.rs *)

From Coq Require Import String.
From Verif Require Import Bytes Grammar Result Ast Splicer.
Local Open Scope nat_scope.

(** [str::find(char)] together with [split_at]: the text before the first
    occurrence of the byte, and the text after it; also [splitn(2, char)]. *)
Fixpoint split_once (c : N) (s : bytes) : option (bytes * bytes) :=
  match s with
  | [] => None
  | x :: s' =>
    if (x =? c)%N then Some ([], s')
    else match split_once c s' with
         | Some (a, b) => Some (x :: a, b)
         | None => None
         end
  end.

(** [str::contains(char)] *)
Definition contains (c : N) (s : bytes) : bool := existsb (N.eqb c) s.

(** src/image.rs lines 44-46 *)
Definition is_registry (token : bytes) : bool :=
  beqb token (bs "localhost") || contains DOT token || contains COLON token.

(** src/image.rs lines 126-143: the part of [parse] after the registry.  The hash
    is [hash[1..]] of the text from the @ on, i.e. the text after the @. *)
Definition parse_image_full (registry : option bytes) (image_full : bytes) : image_ref :=
  match split_once AT image_full with
  | Some (image, hash) => ImageRef registry image None (Some hash)
  | None =>
    match split_once COLON image_full with
    | Some (image, tag) => ImageRef registry image (Some tag) None
    | None => ImageRef registry image_full None None
    end
  end.

(** src/image.rs lines 101-144: [ImageRef::parse] *)
Definition image_parse (s : bytes) : image_ref :=
  match split_once SLASH s with
  | Some (first, rest) =>
    if is_registry first then parse_image_full (Some first) rest
    else parse_image_full None s
  | None => parse_image_full None s
  end.

(** src/image.rs lines 186-202: Display for ImageRef *)
Definition image_display (i : image_ref) : bytes :=
  (match i_registry i with Some r => r ++ [SLASH] | None => [] end)
  ++ i_image i
  ++ (match i_tag i, i_hash i with
      | Some t, _ => COLON :: t
      | None, Some h => AT :: h
      | None, None => []
      end).

(** ** Variable substitution *)

(** The longest prefix of word characters ([[A-Za-z0-9_]+], greedy). *)
Fixpoint take_word (s : bytes) : bytes :=
  match s with
  | c :: s' => if is_word c then c :: take_word s' else []
  | [] => []
  end.

(** Lines 61-63: the regex [\$(?:([A-Za-z0-9_]+)|\{([A-Za-z0-9_]+)\})] at the start
    of the text: the name (capture 1 or 2) and the length of the match. *)
Definition match_var (s : bytes) : option (bytes * nat) :=
  match s with
  | d :: t =>
    if negb (d =? DOLLAR)%N then None else
    match take_word t with
    | [] =>
      match t with
      | b :: u =>
        if negb (b =? LBRACE)%N then None else
        match take_word u with
        | [] => None
        | w => match nth_error u (length w) with
               | Some e => if (e =? RBRACE)%N then Some (w, length w + 3) else None
               | None => None
               end
        end
      | [] => None
      end
    | w => Some (w, length w + 1)
    end
  | [] => None
  end.

(** [VAR.captures_iter]: leftmost non-overlapping matches, as (start, length, name).
    [skip] is the number of bytes still covered by the last match. *)
Fixpoint captures (s : bytes) (pos skip : nat) : list (nat * nat * bytes) :=
  match s with
  | [] => []
  | _ :: s' =>
    match skip with
    | S k => captures s' (S pos) k
    | O =>
      match match_var s with
      | Some (w, n) => (pos, n, w) :: captures s' (S pos) (n - 1)
      | None => captures s' (S pos) 0
      end
    end
  end.

(** [HashMap<&str, &str>] as a finite map by lookup. *)
Definition vars : Type := bytes -> option bytes.

(** [HashSet<String>] as a list without repetitions. *)
Definition set_mem (x : bytes) (l : list bytes) : bool := existsb (beqb x) l.
Definition set_insert (x : bytes) (l : list bytes) : list bytes :=
  if set_mem x l then l else l ++ [x].

(** What [substitute] gives back: the optional string, and the new value of
    [used_vars] (which is updated even if the result is None). *)
Definition subst_result : Type := (option bytes * list bytes)%type.

(** src/image.rs lines 72-93: the loop over the matches of [s], with [rec] the
    recursive call at the next lower depth (not used when the depth is 0). *)
Fixpoint subst_loop (rec : bytes -> list bytes -> outcome subst_result) (depth0 : bool)
  (vs : vars) (l : list (nat * nat * bytes)) (st : splicer) (used : list bytes)
  : outcome subst_result :=
  match l with
  | [] => Ok (Some (sp_content st), used)
  | (pos, n, name) :: l' =>
    if depth0 then Ok (None, used) else
    match vs name with
    | None => Ok (None, used)
    | Some content =>
      '(r, used1) <- rec content used;;
      match r with
      | None => Ok (None, used1)
      | Some text =>
        let used2 := set_insert name used1 in
        st' <- splice st (Span pos (pos + n)) text;;
        subst_loop rec depth0 vs l' st' used2
      end
    end
  end.

(** src/image.rs lines 55-94: [substitute].  [depth] is [max_recursion_depth]
    (a u8 in the code; any natural number here). *)
Fixpoint substitute (s : bytes) (vs : vars) (used : list bytes) (depth : nat)
  : outcome subst_result :=
  subst_loop
    (match depth with
     | O => fun _ _ => Panic   (* never called: the loop stops first *)
     | S d => fun content used' => substitute content vs used' d
     end)
    (depth =? 0) vs (captures s 0 0) (splicer_from_str s) used.

(** src/image.rs lines 156-163: the map built from the global ARGs; inserting an
    existing key overwrites, so the last value wins. *)
Fixpoint arg_vars (l : list arg_instruction) : vars :=
  match l with
  | [] => fun _ => None
  | a :: l' => fun name =>
    match arg_vars l' name with
    | Some v => Some v
    | None =>
      match arg_value a with
      | Some v => if beqb (ss_content (arg_name a)) name then Some (ss_content v) else None
      | None => None
      end
    end
  end.

(** src/image.rs lines 153-172 *)
Definition resolve_vars_with_context (i : image_ref) (d : dockerfile)
  : outcome (option (image_ref * list bytes)) :=
  '(r, used) <- substitute (image_display i) (arg_vars (d_global_args d)) [] 16;;
  match r with
  | Some s => Ok (Some (image_parse s, used))
  | None => Ok None
  end.

(** src/image.rs lines 181-183 *)
Definition resolve_vars (i : image_ref) (d : dockerfile) : outcome (option image_ref) :=
  r <- resolve_vars_with_context i d;;
  Ok (option_map fst r).
