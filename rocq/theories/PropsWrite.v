(** C64: a document written from data is read back as that data. *)

From Coq Require Import String.
From Verif Require Import Bytes BytesFacts Grammar Peg Result Ast Splicer Image Convert Dockerfile Enquote EnquoteFacts SpecImage ImageFacts
  SpecSyntax SpecClear SpecParts PartsFacts SpecLayout SpecDoc SpecMove SpecJoin PropsDoc PropsParse PropsComplete PropsJoin.
Local Open Scope nat_scope.

(** ** Writing *)

(** A string between double quotes: quotes and backslashes get a backslash. *)
Definition escape_char (c : N) : bytes := if (c =? DQUOTE)%N || (c =? BSLASH)%N then [BSLASH; c] else [c].
Definition escape (s : bytes) : bytes := flat_map escape_char s.
Definition quote (s : bytes) : bytes := [DQUOTE] ++ escape s ++ [DQUOTE].

Inductive command :=
| WFrom (flags : list (bytes * bytes)) (image : bytes) (alias : option bytes)
| WArg (name : bytes) (value : option bytes)
| WLabel (labels : list (bytes * bytes))
| WEnv (vars : list (bytes * bytes))
| WCopy (flags : list (bytes * bytes)) (sources : list bytes) (destination : bytes)
| WRun (args : list bytes)
| WCmd (args : list bytes)
| WEntrypoint (args : list bytes)
| WShell (text : bytes)
| WOther (name arguments : bytes).

Definition write_flag (f : bytes * bytes) : bytes := bs " --" ++ fst f ++ bs "=" ++ snd f.
Fixpoint write_list (l : list bytes) : bytes :=
  match l with
  | [] => []
  | s :: l' => bs ", " ++ quote s ++ write_list l'
  end.
Definition write_array (l : list bytes) : bytes :=
  match l with
  | [] => bs "[]"
  | s :: l' => bs "[" ++ quote s ++ write_list l' ++ bs "]"
  end.

Definition write (c : command) : bytes :=
  match c with
  | WFrom flags image alias => bs "FROM" ++ flat_map write_flag flags ++ bs " " ++ image ++
      match alias with Some a => bs " AS " ++ a | None => [] end
  | WArg name value => bs "ARG " ++ name ++ match value with Some v => bs "=" ++ quote v | None => [] end
  | WLabel l => bs "LABEL" ++ flat_map (fun x => bs " " ++ quote (fst x) ++ bs "=" ++ quote (snd x)) l
  | WEnv l => bs "ENV" ++ flat_map (fun x => bs " " ++ fst x ++ bs "=" ++ quote (snd x)) l
  | WCopy flags sources destination => bs "COPY" ++ flat_map write_flag flags ++ flat_map (fun x => bs " " ++ x) (sources ++ [destination])
  | WRun l => bs "RUN " ++ write_array l
  | WCmd l => bs "CMD " ++ write_array l
  | WEntrypoint l => bs "ENTRYPOINT " ++ write_array l
  | WShell text => bs "RUN " ++ text
  | WOther name arguments => name ++ bs " " ++ arguments
  end.

Definition write_all (l : list command) : bytes := flat_map (fun c => write c ++ [LF]) l.

(** ** What can be written *)

(** Text without the control characters 0 and 31, which the grammar does not allow
    between quotes *)
Definition plain_text (s : bytes) : Prop := valid_utf8 s = true /\ ~ In 0%N s /\ ~ In 31%N s.

(** In a LABEL a backslash in front of a line feed is lost ([C64_label_refuted]). *)
Definition label_text (s : bytes) : Prop := plain_text s /\ forall a b, s <> a ++ BSLASH :: LF :: b.

(** A word that is taken as it is *)
Definition bare_word (w : bytes) : Prop := word w /\ ~ begins_quoted w /\ ~ ends_in_backslash w.
Definition flag_word (f : bytes * bytes) : Prop := letters (fst f) /\ bare_word (snd f).
Definition path_word (w : bytes) : Prop := bare_word w /\ begins_solid w /\ forall t, w <> DASH :: DASH :: t.

(** One line that no comment begins and no backslash ends *)
Definition one_line (w : bytes) : Prop := chunk w /\ begins_solid w /\ ~ ends_in_backslash w.

Definition writable (c : command) : Prop :=
  match c with
  | WFrom flags image alias => Forall flag_word flags /\ image_text image /\ ~ begins_with DASH image /\
      (forall r h, image_ref_of image r -> i_hash r = Some h -> digest_accepted h) /\
      match alias with Some a => alias_text a | None => True end
  | WArg name value => arg_name_text name /\ match value with Some v => plain_text v | None => True end
  | WLabel l => l <> [] /\ Forall (fun x => label_text (fst x) /\ label_text (snd x)) l
  | WEnv l => l <> [] /\ Forall (fun x => env_name_text (fst x) /\ plain_text (snd x)) l
  | WCopy flags sources destination => Forall flag_word flags /\ sources <> [] /\ Forall path_word (sources ++ [destination])
  | WRun l | WCmd l | WEntrypoint l => Forall plain_text l
  | WShell text => one_line text /\ never_list text
  | WOther name arguments => letters name /\ (forall k, In k reserved -> ~ keyword k name) /\ one_line arguments
  end.

(** ** Reading: what the parsed instruction offers, without spans *)
Definition contents (f : flag) : bytes * bytes := (ss_content (fl_name f), ss_content (fl_value f)).
Definition view (i : instruction) : option command :=
  match i with
  | IFrom x => Some (WFrom (map contents (from_flags x)) (ss_content (from_image x)) (option_map ss_content (from_alias x)))
  | IArg x => Some (WArg (ss_content (arg_name x)) (option_map ss_content (arg_value x)))
  | ILabel x => Some (WLabel (map (fun l => (ss_content (lb_name l), ss_content (lb_value l))) (label_labels x)))
  | IEnv x => Some (WEnv (map (fun v => (ss_content (ev_key v), display_breakable (ev_value v))) (env_vars x)))
  | ICopy x => Some (WCopy (map contents (copy_flags x)) (map ss_content (copy_sources x)) (ss_content (copy_destination x)))
  | IRun x => Some (match run_expr x with Exec a => WRun (as_str_vec a) | Shell s => WShell (display_breakable s) end)
  | ICmd x => match cmd_expr x with Exec a => Some (WCmd (as_str_vec a)) | Shell _ => None end
  | IEntrypoint x => match entrypoint_expr x with Exec a => Some (WEntrypoint (as_str_vec a)) | Shell _ => None end
  | IMisc x => Some (WOther (ss_content (misc_name x)) (skipn 1 (display_breakable (misc_arguments x))))
  end.

(** ** Quoting *)

(** What is asked of unescaping; the function that the library calls does so
    ([enquote_inverts]). *)
Definition inverts (unq : bytes -> option bytes) : Prop := forall s, unq (quote s) = Some s.

Lemma unescape_escape s : unescape (length (escape s)) DQUOTE (escape s) = Some s.
Proof.
  assert (K : forall n, length (escape s) <= n -> unescape n DQUOTE (escape s) = Some s); [|apply K; lia].
  induction s as [|c s IH]; intros n Hn; [destruct n; reflexivity|].
  change (escape (c :: s)) with (escape_char c ++ escape s) in *. rewrite app_length in Hn. unfold escape_char in *.
  destruct ((c =? DQUOTE)%N || (c =? BSLASH)%N) eqn:E; cbn [app length] in *; (destruct n as [|n]; [lia|]).
  - cbn [unescape]. change (BSLASH =? DQUOTE)%N with false. change (BSLASH =? BSLASH)%N with true. cbn iota.
    assert (Eo : unescape_one (c :: escape s) = Some ([c], escape s)).
    { unfold unescape_one. apply orb_true_iff in E. destruct E as [E|E]; rewrite E; rewrite ?orb_true_r; reflexivity. }
    rewrite Eo, (IH n) by lia. reflexivity.
  - apply orb_false_iff in E. destruct E as [E1 E2]. cbn [unescape]. rewrite E1, E2. rewrite (IH n) by lia. reflexivity.
Qed.

Lemma enquote_inverts : inverts enquote_unquote.
Proof.
  intros s. unfold quote, enquote_unquote. cbn [app]. change (DQUOTE =? DQUOTE)%N with true. cbn [orb].
  rewrite rev_app_distr. cbn [rev app]. change (DQUOTE =? DQUOTE)%N with true. cbn iota. rewrite rev_involutive, rev_length.
  apply unescape_escape.
Qed.

Lemma escape_app a b : escape (a ++ b) = escape a ++ escape b.
Proof. apply flat_map_app. Qed.

Lemma escape_high s : Forall (fun c => (128 <= c)%N) s -> escape s = s.
Proof.
  induction 1 as [|c s Hc _ IH]; [reflexivity|]. change (escape (c :: s)) with (escape_char c ++ escape s). rewrite IH.
  unfold escape_char. replace (c =? DQUOTE)%N with false by (symmetry; apply N.eqb_neq; lia).
  replace (c =? BSLASH)%N with false by (symmetry; apply N.eqb_neq; lia). reflexivity.
Qed.

Lemma escape_valid s : valid_utf8 s = true -> valid_utf8 (escape s) = true.
Proof.
  revert s. apply valid_utf8_ind; [reflexivity|]. intros ch t Hc Ht IH. rewrite escape_app. destruct Hc as [a Ha|a b Ha Hb|a b c Ha Hb Hc H1 H2|a b c d Ha Hb Hc Hd H1 H2].
  - change (escape [a]) with (escape_char a ++ []). unfold escape_char. destruct (_ || _); cbn [app].
    + rewrite !valid_utf8_cons_ascii by (assumption || reflexivity). exact IH.
    + rewrite valid_utf8_cons_ascii by assumption. exact IH.
  - apply is_cont_range in Hb. rewrite escape_high by (repeat constructor; lia). rewrite valid_utf8_char_app; [exact IH|].
    apply utf8_2; [exact Ha|apply is_cont_range; lia].
  - apply is_cont_range in Hb. apply is_cont_range in Hc. rewrite escape_high by (repeat constructor; lia).
    rewrite valid_utf8_char_app; [exact IH|]. apply utf8_3; try assumption; apply is_cont_range; lia.
  - apply is_cont_range in Hb. apply is_cont_range in Hc. apply is_cont_range in Hd. rewrite escape_high by (repeat constructor; lia).
    rewrite valid_utf8_char_app; [exact IH|]. apply utf8_4; try assumption; apply is_cont_range; lia.
Qed.

Lemma escape_body s : ~ In 0%N s -> ~ In 31%N s -> quoted_body DQUOTE (escape s).
Proof.
  induction s as [|c s IH]; intros H0 H1; [constructor|].
  assert (C0 : c <> 0%N) by (intros ->; apply H0; left; reflexivity).
  assert (C1 : c <> 31%N) by (intros ->; apply H1; left; reflexivity).
  assert (Hs : quoted_body DQUOTE (escape s)) by (apply IH; intros K; [apply H0|apply H1]; right; exact K).
  change (escape (c :: s)) with (escape_char c ++ escape s). unfold escape_char.
  destruct ((c =? DQUOTE)%N || (c =? BSLASH)%N) eqn:E; cbn [app].
  - apply qb_escape; assumption.
  - apply orb_false_iff in E. destruct E as [E1 E2]. apply N.eqb_neq in E1, E2. apply qb_plain; assumption.
Qed.

Lemma quote_text s : plain_text s -> quoted_text (quote s).
Proof.
  intros (V & H0 & H1). exists DQUOTE, (escape s). split; [left; reflexivity|]. split; [reflexivity|].
  split; [apply escape_body; assumption|apply escape_valid; exact V].
Qed.

Lemma quote_begins s : begins_quoted (quote s).
Proof. exists DQUOTE, (escape s ++ [DQUOTE]). split; [reflexivity|]. tauto. Qed.

(** No backslash stands in front of a line feed. *)
Lemma escape_breaks s : (forall a b, s <> a ++ BSLASH :: LF :: b) -> forall t u, without_breaks t u ->
  (forall v, t <> LF :: v) -> without_breaks (escape s ++ t) (escape s ++ u).
Proof.
  intros Hs t u Ht Hn. induction s as [|c s IH]; [exact Ht|].
  assert (Hs' : forall a b, s <> a ++ BSLASH :: LF :: b) by (intros a b ->; apply (Hs (c :: a) b); reflexivity).
  specialize (IH Hs'). change (escape (c :: s)) with (escape_char c ++ escape s). unfold escape_char.
  destruct ((c =? DQUOTE)%N || (c =? BSLASH)%N) eqn:E; cbn [app].
  - assert (Hc : c <> LF). { intros ->. discriminate. }
    apply wb_char; [intros v K; injection K as K _; congruence|]. apply wb_char; [|exact IH].
    intros v K. injection K as -> K. destruct s as [|x s]; [apply (Hn v); exact K|].
    destruct (N.eq_dec x LF) as [-> |Hx]; [apply (Hs [] s); reflexivity|].
    change (escape (x :: s)) with (escape_char x ++ escape s) in K. unfold escape_char in K.
    destruct ((x =? DQUOTE)%N || (x =? BSLASH)%N); cbn [app] in K; [discriminate|]. injection K as K _. congruence.
  - apply orb_false_iff in E. destruct E as [E1 E2]. apply N.eqb_neq in E2. apply wb_char; [|exact IH].
    intros v K. injection K as K _. congruence.
Qed.

Lemma quote_breaks s : (forall a b, s <> a ++ BSLASH :: LF :: b) -> without_breaks (quote s) (quote s).
Proof.
  intros Hs. unfold quote. cbn [app]. apply wb_char; [intros t K; discriminate|].
  apply escape_breaks; [exact Hs| |discriminate]. apply wb_char; [discriminate|constructor].
Qed.

Section Written.
Variable unq : bytes -> option bytes.
Hypothesis undo : inverts unq.

Lemma quote_at p s : string_at unq p (quote s) (SpannedString (at_ p (quote s)) s).
Proof. exists s. split; [|reflexivity]. left. split; [apply quote_begins|apply undo]. Qed.

Lemma bare_at p w : bare_word w -> string_at unq p w (SpannedString (at_ p w) w).
Proof. intros (_ & H & _). exists w. split; [|reflexivity]. right. auto. Qed.

(** ** Lists *)
Lemma space_gap : gap 0 [32%N].
Proof. apply gap_blank; [reflexivity|constructor]. Qed.

Lemma spaced_write {A B} (at1 : nat -> bytes -> A -> Prop) (f : B -> bytes) (v : A -> B) l :
  (forall p b, In b l -> exists x, at1 p (f b) x /\ v x = b) ->
  forall p, exists xs, spaced at1 p (flat_map (fun b => [32%N] ++ f b) l) xs /\ map v xs = l.
Proof.
  induction l as [|b l IH]; intros H p.
  - exists []. split; [constructor|reflexivity].
  - destruct (H (p + 1) b (or_introl eq_refl)) as (x & Hx & Ex).
    destruct (IH (fun p b Hb => H p b (or_intror Hb)) (p + 1 + length (f b))) as (xs & Hxs & Exs).
    exists (x :: xs). split; [|cbn [map]; rewrite Ex, Exs; reflexivity].
    cbn [flat_map]. rewrite <- app_assoc. apply (spaced_one at1 p 0); [apply space_gap|discriminate|exact Hx|exact Hxs].
Qed.

Lemma backslash_in_value u v : ~ In BSLASH u -> ends_in_backslash (u ++ v) -> ends_in_backslash v.
Proof.
  intros Hu (t & b & E & Hb). revert t E. induction u as [|x u IH]; intros t E; [exists t, b; auto|]. destruct t as [|y t].
  - cbn [app] in E. injection E as E _. exfalso. apply Hu. left. exact E.
  - cbn [app] in E. injection E as _ E. apply (IH (fun K => Hu (or_intror K)) t E).
Qed.

Lemma flags_write l : Forall flag_word l -> forall p, exists xs,
  spaced (clear_flag_at unq) p (flat_map write_flag l) xs /\ map contents xs = l.
Proof.
  intros Hl p. rewrite Forall_forall in Hl.
  apply (spaced_write (clear_flag_at unq) (fun f => [DASH; DASH] ++ fst f ++ EQUALS :: snd f) contents).
  intros q (n & v) Hb. destruct (Hl _ Hb) as [Hn Hv]. cbn [fst snd] in *. eexists. split; [split|].
  - exists n, v. eexists. split; [reflexivity|]. split; [exact Hn|]. split; [apply Hv|]. split; [apply bare_at; exact Hv|reflexivity].
  - intros K. destruct Hv as (_ & _ & Hv). apply Hv.
    apply (backslash_in_value ([DASH; DASH] ++ n ++ [EQUALS])); [|rewrite <- !app_assoc; exact K].
    cbn [app In]. intros [K1|[K1|K1]]; try discriminate. apply in_app_or in K1. destruct K1 as [K1|[K1|[]]]; [|discriminate].
    destruct Hn as [_ Hn]. rewrite Forall_forall in Hn. specialize (Hn _ K1). discriminate.
  - reflexivity.
Qed.

Lemma paths_write l : Forall path_word l -> forall p, exists xs,
  spaced (clear_path_at unq) p (flat_map (fun x => bs " " ++ x) l) xs /\ map ss_content xs = l.
Proof.
  intros Hl p. rewrite Forall_forall in Hl. apply (spaced_write (clear_path_at unq) (fun x => x) ss_content).
  intros q w Hw. destruct (Hl w Hw) as (Hb & Hs & Hd). eexists. split.
  - split; [split; [apply Hb|apply bare_at; exact Hb]|]. split; [exact Hs|]. split; [apply Hb|exact Hd].
  - reflexivity.
Qed.

Lemma clean_at p s : label_text s -> clean_quoted_at unq p (quote s) (SpannedString (at_ p (quote s)) s).
Proof.
  intros [Hs Hb]. exists (quote s), s. split; [apply quote_text; exact Hs|]. split; [apply quote_breaks; exact Hb|]. split; [apply undo|reflexivity].
Qed.

Lemma labels_write l : Forall (fun x => label_text (fst x) /\ label_text (snd x)) l -> forall p, exists xs,
  spaced (clear_label_pair_at unq) p (flat_map (fun x => bs " " ++ quote (fst x) ++ bs "=" ++ quote (snd x)) l) xs /\
  map (fun x => (ss_content (lb_name x), ss_content (lb_value x))) xs = l.
Proof.
  intros Hl p. rewrite Forall_forall in Hl.
  apply (spaced_write (clear_label_pair_at unq) (fun x => quote (fst x) ++ EQUALS :: quote (snd x)) (fun x => (ss_content (lb_name x), ss_content (lb_value x)))).
  intros q (n & v) Hb. destruct (Hl _ Hb) as [Hn Hv]. cbn [fst snd] in *.
  exists (Label (at_ q (quote n ++ EQUALS :: quote v)) (SpannedString (at_ q (quote n)) n) (SpannedString (at_ (q + length (quote n) + 1) (quote v)) v)).
  split; [|reflexivity]. exists (quote n), (quote v). split; [reflexivity|]. split; [left; apply clean_at; exact Hn|].
  split; [left; apply clean_at; exact Hv|reflexivity].
Qed.

Lemma vars_write l : Forall (fun x => env_name_text (fst x) /\ plain_text (snd x)) l -> forall p, exists xs,
  spaced (clear_env_pair_at unq) p (flat_map (fun x => bs " " ++ fst x ++ bs "=" ++ quote (snd x)) l) xs /\
  map (fun x => (ss_content (ev_key x), display_breakable (ev_value x))) xs = l.
Proof.
  intros Hl p. rewrite Forall_forall in Hl.
  apply (spaced_write (clear_env_pair_at unq) (fun x => fst x ++ EQUALS :: quote (snd x)) (fun x => (ss_content (ev_key x), display_breakable (ev_value x)))).
  intros q (n & v) Hb. destruct (Hl _ Hb) as [Hn Hv]. cbn [fst snd] in *.
  set (sp := at_ (q + length n + 1) (quote v)).
  exists (EnvVar (at_ q (n ++ EQUALS :: quote v)) (SpannedString (at_ q n) n) (BreakableString sp [BString (SpannedString sp v)])).
  split; [|unfold display_breakable; cbn; rewrite app_nil_r; reflexivity].
  exists n, (quote v). split; [reflexivity|]. split; [exact Hn|]. split; [reflexivity|]. split; [|reflexivity].
  left. exists v. split; [apply quote_text; exact Hv|]. split; [apply undo|reflexivity].
Qed.

Lemma more_write l : Forall plain_text l -> forall p, exists xs, more_strings unq p (write_list l) xs /\ map ss_content xs = l.
Proof.
  induction 1 as [|s l Hs Hl IH]; intros p; [exists []; split; [constructor|reflexivity]|].
  destruct (IH (p + 0 + 1 + 1 + length (quote s))) as (xs & Hxs & Exs).
  eexists (SpannedString (at_ (p + 0 + 1 + 1) (quote s)) s :: xs). split; [|cbn [map ss_content]; rewrite Exs; reflexivity].
  change (write_list (s :: l)) with ([] ++ COMMA :: [32%N] ++ quote s ++ write_list l).
  apply (more_one unq p 0 [] 0 [32%N]); [constructor|apply space_gap|apply quote_text; exact Hs|apply quote_at|exact Hxs].
Qed.

Lemma array_write l p : Forall plain_text l -> exists a, array_at unq p (write_array l) a /\ as_str_vec a = l.
Proof.
  intros Hl. destruct Hl as [|s l Hs Hl].
  - eexists. split; [apply (array_empty unq p 0 []); constructor|reflexivity].
  - destruct (more_write l Hl (p + 1 + 0 + length (quote s))) as (xs & Hxs & Exs). eexists. split.
    + eapply (array_strings unq p 0 [] (quote s) _ (write_list l) xs [] 0 []); [constructor|apply quote_text; exact Hs|apply quote_at|exact Hxs|left; reflexivity|constructor|reflexivity].
    + unfold as_str_vec. cbn [sa_elements map ss_content]. rewrite Exs. reflexivity.
Qed.

Lemma exec_write k kw p l : keyword k kw -> Forall plain_text l -> exists sp a,
  clear_exec_at unq k p (kw ++ [32%N] ++ write_array l) sp (Exec a) /\ as_str_vec a = l.
Proof.
  intros Hk Hl. destruct (array_write l (p + length kw + 1) Hl) as (a & Ha & Ea). eexists _, a. split; [|exact Ea].
  exists kw, [32%N], (write_array l), a. split; [reflexivity|]. split; [exact Hk|]. split; [apply space_gap|]. split; [discriminate|].
  split; [exact Ha|]. split; reflexivity.
Qed.

Lemma closed_line p w i : clear_closed_at unq p w i -> clear_line_at unq p w [i].
Proof.
  intros H. rewrite <- (app_nil_r w). apply (clear_closed unq p [] w [] i); [constructor| |constructor].
  cbn [length]. rewrite Nat.add_0_r. exact H.
Qed.
Lemma open_line p w i : clear_open_at unq p w i -> clear_line_at unq p w [i].
Proof. intros H. apply (clear_open unq p [] w i); [constructor|]. cbn [length]. rewrite Nat.add_0_r. exact H. Qed.

Lemma solid_no_comment w : begins_solid w -> ~ comment_like w.
Proof.
  intros (c & t & -> & Hb & _ & Hh & _) (b & t' & E & B). destruct b as [|x b]; cbn [app] in E; injection E as -> _; [congruence|].
  inversion B; subst. congruence.
Qed.

Lemma line_text p w : one_line w -> clear_breakable_at p w (BreakableString (at_ p w) [text_part p w]).
Proof. intros (Hc & Hs & Hb). eexists. split; [|reflexivity]. apply clear_text; [exact Hc|apply solid_no_comment; exact Hs|exact Hb]. Qed.

Lemma command_write c p : writable c -> exists i, clear_line_at unq p (write c) [i] /\ view i = Some c.
Proof.
  destruct c as [flags image alias|name value|l|l|flags sources destination|l|l|l|text|name arguments]; cbn [writable write].
  - intros (Hf & Hi & Hd & Hh & Ha). destruct (flags_write flags Hf (p + 4)) as (fs & Hfs & Efs).
    set (w := bs "FROM" ++ _). set (pi := p + 4 + length (flat_map write_flag flags) + 1).
    set (al := match alias with Some a => Some (SpannedString (at_ (pi + length image + 1 + 2 + 1) a) a) | None => None end).
    exists (IFrom (FromInstruction (at_ p w) fs (SpannedString (at_ pi image) image) (image_parse image) 0 al)). split.
    + apply closed_line. cbn [clear_closed_at].
      exists (bs "FROM"), (flat_map write_flag flags), 0, [32%N], image, (match alias with Some a => bs " AS " ++ a | None => [] end).
      split; [reflexivity|]. split; [reflexivity|]. split; [exact Hfs|]. split; [apply space_gap|]. split; [discriminate|].
      split; [exact Hi|]. split; [exact Hd|]. split; [reflexivity|]. split; [apply image_parse_spec; reflexivity|].
      split; [intros h E; apply (Hh (image_parse image)); [apply image_parse_spec; reflexivity|exact E]|]. split; [|reflexivity].
      unfold al. cbn [from_alias]. destruct alias as [a|]; [right|left; auto].
      exists 0, [32%N], (bs "AS"), 0, [32%N], a. split; [reflexivity|]. split; [apply space_gap|]. split; [discriminate|]. split; [reflexivity|].
      split; [apply space_gap|]. split; [discriminate|]. split; [exact Ha|]. reflexivity.
    + cbn [view from_flags from_image from_alias ss_content]. rewrite Efs. unfold al. destruct alias; reflexivity.
  - intros (Hn & Hv). set (w := bs "ARG " ++ _).
    set (v := match value with Some v => Some (SpannedString (at_ (p + 3 + 1 + length name + 1) (quote v)) v) | None => None end).
    exists (IArg (ArgInstruction (at_ p w) (SpannedString (at_ (p + 3 + 1) name) name) v)). split.
    + apply closed_line. exists (bs "ARG"), 0, [32%N], name, (match value with Some v => bs "=" ++ quote v | None => [] end).
      split; [reflexivity|]. split; [reflexivity|]. split; [apply space_gap|]. split; [discriminate|]. split; [exact Hn|].
      split; [reflexivity|]. split; [reflexivity|]. unfold v. cbn [arg_value]. destruct value as [x|]; [right|left; auto].
      exists (quote x). eexists. split; [reflexivity|]. split; [left; apply quote_text; exact Hv|]. split; [apply quote_at|reflexivity].
    + cbn [view arg_name arg_value ss_content]. unfold v. destruct value; reflexivity.
  - intros (Hne & Hl). set (w := bs "LABEL" ++ _). destruct (labels_write l Hl (p + 5)) as (xs & Hxs & Exs).
    exists (ILabel (LabelInstruction (at_ p w) xs)). split.
    + apply open_line. exists (bs "LABEL"). do 2 eexists. split; [symmetry; rewrite app_nil_r; reflexivity|]. split; [reflexivity|].
      split; [reflexivity|]. split; [exact Hxs|]. split; [constructor|]. rewrite app_nil_r. destruct l; [congruence|discriminate].
    + cbn [view label_labels]. rewrite Exs. reflexivity.
  - intros (Hne & Hl). set (w := bs "ENV" ++ _). destruct (vars_write l Hl (p + 3)) as (xs & Hxs & Exs).
    exists (IEnv (EnvInstruction (at_ p w) xs)). split.
    + apply open_line. left. exists (bs "ENV"). do 2 eexists. split; [symmetry; rewrite app_nil_r; reflexivity|]. split; [reflexivity|].
      split; [reflexivity|]. split; [exact Hxs|]. split; [constructor|]. rewrite app_nil_r. destruct l; [congruence|discriminate].
    + cbn [view env_vars]. rewrite Exs. reflexivity.
  - intros (Hf & Hne & Hp). set (w := bs "COPY" ++ _). destruct (flags_write flags Hf (p + 4)) as (fs & Hfs & Efs).
    destruct (paths_write _ Hp (p + 4 + length (flat_map write_flag flags))) as (xs & Hxs & Exs).
    destruct (exists_last (l := xs)) as (srcs & dest & ->). { intros ->. destruct sources; discriminate. }
    rewrite map_app in Exs. cbn [map] in Exs. apply app_inj_tail in Exs. destruct Exs as [Es Ed].
    exists (ICopy (CopyInstruction (at_ p w) fs srcs dest)). split.
    + apply closed_line. exists (bs "COPY"). do 2 eexists. split; [reflexivity|]. split; [reflexivity|]. split; [exact Hfs|].
      split; [exact Hxs|]. split; [|reflexivity]. cbn [copy_sources]. intros ->. apply Hne. rewrite <- Es. reflexivity.
    + cbn [view copy_flags copy_sources copy_destination]. rewrite Efs, Es, Ed. reflexivity.
  - intros Hl. destruct (exec_write "run" (bs "RUN") p l eq_refl Hl) as (sp & a & Ha & Ea).
    exists (IRun (RunInstruction sp (Exec a))). split; [apply closed_line; exact Ha|]. cbn [view run_expr]. rewrite Ea. reflexivity.
  - intros Hl. destruct (exec_write "cmd" (bs "CMD") p l eq_refl Hl) as (sp & a & Ha & Ea).
    exists (ICmd (CmdInstruction sp (Exec a))). split; [apply closed_line; exact Ha|]. cbn [view cmd_expr]. rewrite Ea. reflexivity.
  - intros Hl. destruct (exec_write "entrypoint" (bs "ENTRYPOINT") p l eq_refl Hl) as (sp & a & Ha & Ea).
    exists (IEntrypoint (EntrypointInstruction sp (Exec a))). split; [apply closed_line; exact Ha|]. cbn [view entrypoint_expr]. rewrite Ea. reflexivity.
  - intros (Hl & Hb). set (w := bs "RUN " ++ _).
    exists (IRun (RunInstruction (at_ p w) (Shell (BreakableString (at_ (p + 3 + 1) text) [text_part (p + 3 + 1) text])))). split.
    + apply open_line. exists (bs "RUN"), [32%N], text. eexists. split; [reflexivity|]. split; [reflexivity|]. split; [apply space_gap|].
      split; [discriminate|]. split; [apply Hl|]. split; [exact Hb|]. split; [apply line_text; exact Hl|]. split; reflexivity.
    + cbn [view run_expr]. unfold display_breakable. cbn. rewrite app_nil_r. reflexivity.
  - intros (Hn & Hr & Hl). set (w := name ++ _).
    exists (IMisc (MiscInstruction (at_ p w) (SpannedString (at_ p name) name) (BreakableString (at_ (p + length name) ([32%N] ++ arguments)) [text_part (p + length name) ([32%N] ++ arguments)]))). split.
    + apply open_line. exists name, ([32%N] ++ arguments). split; [reflexivity|]. split; [exact Hn|]. split; [exact Hr|]. split; [reflexivity|].
      destruct Hl as ((Hne & Hnl & Hv) & Hs & Hb).
      assert (Hc : ~ comment_like ([32%N] ++ arguments)).
      { intros (b & t & E & B). destruct b as [|x b]; cbn [app] in E; injection E as E1 E; [discriminate|]. subst x.
        apply (solid_no_comment arguments Hs). exists b, t. split; [exact E|]. inversion B; assumption. }
      split; [exact Hc|]. split; [reflexivity|]. split; [|reflexivity]. eexists. split; [|reflexivity]. apply clear_text.
      * split; [discriminate|]. split; [constructor; [reflexivity|exact Hnl]|]. cbn [app]. rewrite valid_utf8_cons_ascii by reflexivity. exact Hv.
      * exact Hc.
      * intros K. apply Hb. apply (backslash_in_value [32%N]); [|exact K]. intros [K1|[]]. discriminate.
    + cbn [view misc_name misc_arguments ss_content]. unfold display_breakable. cbn. rewrite app_nil_r. reflexivity.
Qed.

Lemma all_write l : Forall writable l -> forall p, exists is, clear_document_at unq p (write_all l) is /\ map view is = map Some l.
Proof.
  induction 1 as [|c l Hc Hl IH]; intros p.
  - exists []. split; [|reflexivity]. apply clear_last. apply clear_blank. constructor.
  - destruct (command_write c p Hc) as (i & Hi & Ei). destruct (IH (p + length (write c) + 1)) as (is & His & Eis).
    exists ([i] ++ is). split; [|cbn [map app]; rewrite Ei, Eis; reflexivity]. cbn [write_all flat_map]. rewrite <- app_assoc.
    apply clear_more; [exact Hi|constructor|exact His].
Qed.

Lemma view_numbered n l : map view (numbered n l) = map view l.
Proof. revert n. induction l as [|i l IH]; intros n; [reflexivity|]. destruct i; cbn [numbered map]; rewrite IH; reflexivity. Qed.

End Written.

(** ** Valid text *)
Lemma app_valid a b : valid_utf8 a = true -> valid_utf8 b = true -> valid_utf8 (a ++ b) = true.
Proof. intros Ha Hb. rewrite valid_utf8_app by exact Ha. exact Hb. Qed.

Lemma flat_valid {A} (f : A -> bytes) l : Forall (fun x => valid_utf8 (f x) = true) l -> valid_utf8 (flat_map f l) = true.
Proof. induction 1 as [|x l Hx Hl IH]; [reflexivity|]. cbn [flat_map]. apply app_valid; assumption. Qed.

Lemma quote_valid s : valid_utf8 s = true -> valid_utf8 (quote s) = true.
Proof. intros V. unfold quote. apply app_valid; [reflexivity|]. apply app_valid; [apply escape_valid; exact V|reflexivity]. Qed.

Lemma flags_valid l : Forall flag_word l -> valid_utf8 (flat_map write_flag l) = true.
Proof.
  intros H. apply flat_valid. eapply Forall_impl; [|exact H]. intros (n & v) (Hn & ((_ & _ & Hv) & _)). unfold write_flag. cbn [fst snd] in *.
  apply app_valid; [reflexivity|]. apply app_valid; [auto with vu|]. apply app_valid; [reflexivity|exact Hv].
Qed.

Lemma array_valid_text l : Forall plain_text l -> valid_utf8 (write_array l) = true.
Proof.
  assert (K : forall l, Forall plain_text l -> valid_utf8 (write_list l) = true).
  { induction 1 as [|s l' Hs Hl IH]; [reflexivity|]. cbn [write_list]. apply app_valid; [reflexivity|].
    apply app_valid; [apply quote_valid, Hs|exact IH]. }
  intros Hl. destruct Hl as [|s l Hs Hl]; [reflexivity|]. cbn [write_array]. apply app_valid; [reflexivity|].
  apply app_valid; [apply quote_valid, Hs|]. apply app_valid; [apply K; exact Hl|reflexivity].
Qed.

Lemma write_valid c : writable c -> valid_utf8 (write c) = true.
Proof.
  destruct c as [flags image alias|name value|l|l|flags sources destination|l|l|l|text|name arguments]; cbn [writable write].
  - intros (Hf & Hi & _ & _ & Ha). apply app_valid; [reflexivity|]. apply app_valid; [apply flags_valid; exact Hf|].
    apply app_valid; [reflexivity|]. apply app_valid; [auto with vu|]. destruct alias; [|reflexivity]. apply app_valid; [reflexivity|auto with vu].
  - intros (Hn & Hv). apply app_valid; [reflexivity|]. apply app_valid; [auto with vu|]. destruct value; [|reflexivity].
    apply app_valid; [reflexivity|apply quote_valid, Hv].
  - intros (_ & Hl). apply app_valid; [reflexivity|]. apply flat_valid. eapply Forall_impl; [|exact Hl]. intros x [Hn Hv].
    apply app_valid; [reflexivity|]. apply app_valid; [apply quote_valid, Hn|]. apply app_valid; [reflexivity|apply quote_valid, Hv].
  - intros (_ & Hl). apply app_valid; [reflexivity|]. apply flat_valid. eapply Forall_impl; [|exact Hl]. intros x [Hn Hv].
    apply app_valid; [reflexivity|]. apply app_valid; [auto with vu|]. apply app_valid; [reflexivity|apply quote_valid, Hv].
  - intros (Hf & _ & Hp). apply app_valid; [reflexivity|]. apply app_valid; [apply flags_valid; exact Hf|]. apply flat_valid.
    eapply Forall_impl; [|exact Hp]. intros x (((_ & _ & Hx) & _) & _). apply app_valid; [reflexivity|exact Hx].
  - intros Hl. apply app_valid; [reflexivity|apply array_valid_text; exact Hl].
  - intros Hl. apply app_valid; [reflexivity|apply array_valid_text; exact Hl].
  - intros Hl. apply app_valid; [reflexivity|apply array_valid_text; exact Hl].
  - intros (((_ & _ & Hv) & _) & _). apply app_valid; [reflexivity|exact Hv].
  - intros (Hn & _ & ((_ & _ & Hv) & _)). apply app_valid; [auto with vu|]. apply app_valid; [reflexivity|exact Hv].
Qed.

(** ** C64 *)
Theorem C64_round_trip unq l : inverts unq -> Forall writable l ->
  exists d, parse unq (write_all l) = Ok d /\ map view (d_instructions d) = map Some l.
Proof.
  intros U H. destruct (all_write unq U l H 0) as (is & Hd & Ev).
  assert (V : valid_utf8 (write_all l) = true).
  { apply flat_valid. eapply Forall_impl; [|exact H]. intros c Hc. apply app_valid; [apply write_valid; exact Hc|reflexivity]. }
  destruct (C38_complete unq (write_all l) is V Hd) as (d & E & _ & Ei & _). exists d. split; [exact E|].
  rewrite Ei, view_numbered. exact Ev.
Qed.

(** Different data is written differently. *)
Theorem C64_injective l l' : Forall writable l -> Forall writable l' -> write_all l = write_all l' -> l = l'.
Proof.
  intros H H' E. destruct (C64_round_trip enquote_unquote l enquote_inverts H) as (d & Ed & Ev).
  destruct (C64_round_trip enquote_unquote l' enquote_inverts H') as (d' & Ed' & Ev'). rewrite E, Ed' in Ed. injection Ed as ->.
  rewrite Ev in Ev'. clear -Ev'. revert l' Ev'. induction l as [|c l IH]; intros [|c' l'] E; try discriminate; [reflexivity|].
  cbn [map] in E. injection E as -> E. rewrite (IH l' E). reflexivity.
Qed.

Lemma display_moved g s : display_breakable (move_breakable g s) = display_breakable s.
Proof.
  unfold display_breakable, move_breakable. cbn [br_components]. induction (br_components s) as [|x l IH]; [reflexivity|].
  destruct x; cbn [map move_component display_components]; rewrite IH; reflexivity.
Qed.

Lemma contents_moved g l : map contents (map (move_flag g) l) = map contents l.
Proof. rewrite map_map. apply map_ext. reflexivity. Qed.
Lemma strings_moved g l : map ss_content (map (move_string g) l) = map ss_content l.
Proof. rewrite map_map. apply map_ext. reflexivity. Qed.

Lemma view_moved g i : view (move_instruction g i) = view i.
Proof.
  destruct i as [x|x|x|x|x|x|x|x|x]; cbn [move_instruction view].
  - destruct x as [sp fl im pa ix al]. unfold move_from. cbn [from_flags from_image from_alias]. rewrite contents_moved. destruct al; reflexivity.
  - destruct x as [sp nm v]. destruct v; reflexivity.
  - cbn [label_labels]. rewrite map_map. reflexivity.
  - destruct x as [sp e]. destruct e; cbn [run_expr move_command]; [rewrite display_moved; reflexivity|].
    unfold as_str_vec. cbn [move_array sa_elements]. rewrite strings_moved. reflexivity.
  - destruct x as [sp e]. destruct e; cbn [entrypoint_expr move_command]; [reflexivity|].
    unfold as_str_vec. cbn [move_array sa_elements]. rewrite strings_moved. reflexivity.
  - destruct x as [sp e]. destruct e; cbn [cmd_expr move_command]; [reflexivity|].
    unfold as_str_vec. cbn [move_array sa_elements]. rewrite strings_moved. reflexivity.
  - cbn [copy_flags copy_sources copy_destination]. rewrite contents_moved, strings_moved. reflexivity.
  - cbn [env_vars]. rewrite map_map. f_equal. f_equal. apply map_ext. intros v. unfold move_env. cbn [ev_key ev_value]. rewrite display_moved. reflexivity.
  - cbn [misc_name misc_arguments]. rewrite display_moved. reflexivity.
Qed.

Lemma view_later n m i : view (later n m i) = view i.
Proof. rewrite <- (view_moved (fun x => n + x) i). unfold later. destruct (move_instruction (fun x => n + x) i); reflexivity. Qed.

(** Commands written behind a document: its own instructions are as they were. *)
Theorem C64_appended unq a n l da : inverts unq -> Forall writable l -> valid_utf8 a = true -> complete a ->
  quotes_apart a (n ++ write_all l) -> breaks a n (write_all l) -> parse unq a = Ok da ->
  exists d more, parse unq (a ++ n ++ write_all l) = Ok d /\ d_instructions d = d_instructions da ++ more /\ map view more = map Some l.
Proof.
  intros U H V C Q B Ea. destruct (C64_round_trip unq l U H) as (db & Eb & Ev).
  assert (Vb : valid_utf8 (write_all l) = true).
  { apply flat_valid. eapply Forall_impl; [|exact H]. intros c Hc. apply app_valid; [apply write_valid; exact Hc|reflexivity]. }
  destruct (C56_joined unq a n (write_all l) V Vb C Q B) as (K & _). destruct (K da db Ea Eb) as (d & E & _ & Ei & _).
  exists d, (map (later (length (a ++ n)) (count_from (d_instructions da))) (d_instructions db)). split; [exact E|]. split; [exact Ei|].
  rewrite map_map. rewrite (map_ext _ view); [exact Ev|]. intros i. apply view_later.
Qed.

(** In a LABEL a backslash in front of a line feed is not read back: the text between
    quotes is taken for a continued line before it is unescaped. *)
Theorem C64_label_refuted : exists s, plain_text s /\ exists d,
  parse enquote_unquote (write_all [WLabel [(bs "k", s)]]) = Ok d /\
  map view (d_instructions d) = [Some (WLabel [(bs "k", [120; 8; 121]%N)])] /\ s = [120; BSLASH; LF; 98; 121]%N.
Proof.
  exists [120; BSLASH; LF; 98; 121]%N. split.
  - split; [vm_compute; reflexivity|]. split; intros K; repeat (destruct K as [K|K]; [discriminate|]); destruct K.
  - eexists. split; [vm_compute; reflexivity|]. split; vm_compute; reflexivity.
Qed.

(** The arguments of an exec form may be any text. *)
Example C64_case : Forall writable [WFrom [] (bs "a") (Some (bs "b")); WRun [bs "say"; bs """x\"; [LF; 195; 169]%N; []]; WArg (bs "v") (Some (bs "it's"))] /\
  write_all [WFrom [] (bs "a") (Some (bs "b")); WRun [bs "say"; bs """x\"; [LF; 195; 169]%N; []]; WArg (bs "v") (Some (bs "it's"))] =
  lines ["FROM a AS b"; "RUN [""say"", ""\""x\\"", """]%string ++ [195; 169]%N ++ lines [""", """"]"; "ARG v=""it's"""]%string.
Proof.
  split; [|vm_compute; reflexivity].
  assert (T : forall s, valid_utf8 s = true -> existsb (N.eqb 0) s = false -> existsb (N.eqb 31) s = false -> plain_text s).
  { intros s V H0 H1. split; [exact V|]. split; intros K.
    - rewrite <- not_true_iff_false in H0. apply H0, existsb_exists. exists 0%N. split; [exact K|reflexivity].
    - rewrite <- not_true_iff_false in H1. apply H1, existsb_exists. exists 31%N. split; [exact K|reflexivity]. }
  repeat constructor; try discriminate; try (apply T; vm_compute; reflexivity).
  - intros [t E]. discriminate.
  - intros r h Hr. apply image_parse_spec in Hr. subst r. vm_compute. discriminate.
  - exists 118%N, []. split; [reflexivity|]. split; [reflexivity|constructor].
Qed.

(** Behind a document with quotes of its own *)
Example C64_appended_case : complete labelled /\ (forall l, quotes_apart labelled ([LF] ++ write_all l)) /\ breaks labelled [LF] (write_all [WRun [bs "it's"]]) /\
  reads (labelled ++ [LF] ++ write_all [WRun [bs "it's"]]) (fun d => map view (skipn 3 (d_instructions d)) = [Some (WRun [bs "it's"])]).
Proof.
  destruct C56_quotes_case as (H1 & H2 & (H3 & H4 & H5) & _). split; [exact H1|]. split; [intros l; apply H2|].
  split; [split; [exact H3|split; [discriminate|exact H5]]|]. split; [reflexivity|]. eexists; split; [vm_compute; reflexivity|reflexivity].
Qed.

Print Assumptions C64_round_trip.
Print Assumptions C64_injective.
Print Assumptions C64_appended.
Print Assumptions C64_label_refuted.
