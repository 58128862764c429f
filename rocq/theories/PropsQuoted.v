(** C63: how the strings written in instructions are read. *)

From Coq Require Import String.
From Verif Require Import Bytes BytesFacts Grammar Peg Result Ast Splicer Image Convert Dockerfile Enquote EnquoteFacts SpecImage
  SpecSyntax SpecParts PartsFacts SpecLayout ParseFacts PropsDoc PropsParse.
Local Open Scope nat_scope.

(** The values of flags, the paths of COPY, the value of an ARG, the names and values of
    labels and the elements of an exec form *)
Definition written_strings (i : instruction) : list spanned_string :=
  map fl_value (flags_of i) ++
  match i with
  | ICopy x => copy_sources x ++ [copy_destination x]
  | IArg x => match arg_value x with Some v => [v] | None => [] end
  | ILabel x => flat_map (fun l => [lb_name l; lb_value l]) (label_labels x)
  | _ => match exec_of i with Some a => sa_elements a | None => [] end
  end.

(** A text that begins with a quote character is unescaped, any other is taken as it is;
    in a LABEL escaped line breaks are removed first. *)
Definition is_read (unq : bytes -> option bytes) (in_label : Prop) (t c : bytes) : Prop :=
  (~ begins_quoted t /\ c = t) \/
  (begins_quoted t /\ exists u, ((in_label /\ without_breaks t u) \/ (~ in_label /\ u = t)) /\ unq u = Some c).

Section Read.
Variable unq : bytes -> option bytes.
Variable input : bytes.

Definition read_at (in_label : Prop) (x : spanned_string) : Prop :=
  exists q u, placed input q u /\ ss_span x = at_ q u /\ is_read unq in_label u (ss_content x).

Lemma string_read (L : Prop) q u x : ~ L -> placed input q u -> string_at unq q u x -> read_at L x.
Proof.
  intros HL Hp (v & Hv & ->). exists q, u. split; [exact Hp|]. split; [reflexivity|]. cbn [ss_content].
  destruct Hv as [[Hb Hv]|[Hb ->]]; [right|left]; auto. split; [exact Hb|]. exists u. auto.
Qed.

Lemma no_breaks w : ~ In LF w -> without_breaks w w.
Proof.
  intros H. induction w as [|c w IH]; constructor.
  - intros t E. apply H. rewrite E. right. left. reflexivity.
  - apply IH. intros K. apply H. right. exact K.
Qed.

Lemma plain_read q u x : ~ In LF u -> placed input q u -> string_at unq q u x -> read_at True x.
Proof.
  intros Hn Hp (v & Hv & ->). exists q, u. split; [exact Hp|]. split; [reflexivity|]. cbn [ss_content].
  destruct Hv as [[Hb Hv]|[Hb ->]]; [right|left]; auto. split; [exact Hb|]. exists u. split; [left; split; [exact I|apply no_breaks; exact Hn]|exact Hv].
Qed.

Lemma clean_read q u x : placed input q u -> clean_quoted_at unq q u x -> read_at True x.
Proof.
  intros Hp (u' & v & Hq & Hw & E & ->). exists q, u. split; [exact Hp|]. split; [reflexivity|]. right.
  split; [|exists u'; auto]. destruct Hq as (c & b & Hc & -> & _). exists c, (b ++ [c]). split; [reflexivity|]. tauto.
Qed.

Lemma more_read (L : Prop) p m l : ~ L -> more_strings unq p m l -> placed input p m -> Forall (read_at L) l.
Proof.
  intros HL. induction 1 as [|p j g1 k g2 w x w2 l Hg1 Hg2 Hq Hx Hm IH]; intros Hp; [constructor|].
  apply placed_app in Hp; [|eauto with vu]. destruct Hp as [_ Hp]. apply placed_cons in Hp; [|reflexivity].
  apply placed_app in Hp; [|eauto with vu]. destruct Hp as [_ Hp].
  apply placed_app in Hp; [|auto with vu]. destruct Hp as [Hp1 Hp].
  constructor; [eauto using string_read|apply IH; exact Hp].
Qed.

Lemma array_read (L : Prop) p w a : ~ L -> array_at unq p w a -> placed input p w -> Forall (read_at L) (sa_elements a).
Proof.
  intros HL. destruct 1 as [p k g Hg|p k g w x m l comma j g2 text Hg Hq Hx Hm Hc Hg2 ->]; intros Hp; [constructor|]. cbn [sa_elements].
  apply placed_cons in Hp; [|reflexivity]. apply placed_app in Hp; [|eauto with vu]. destruct Hp as [_ Hp].
  apply placed_app in Hp; [|auto with vu]. destruct Hp as [Hp1 Hp]. apply placed_left in Hp.
  constructor; [eauto using string_read|eauto using more_read].
Qed.

Lemma command_read (L : Prop) k p w sp e : ~ L -> ascii_all (bs k) = true -> placed input p w -> command_at unq k p w sp e ->
  Forall (read_at L) (match as_exec e with Some a => sa_elements a | None => [] end).
Proof.
  intros HL Hk Hp (kw & g & c & -> & Hkw & Hg & _ & He & _). destruct e as [t|t]; cbn [as_exec]; [constructor|].
  apply placed_app in Hp; [|apply (keyword_valid k); assumption]. destruct Hp as [_ Hp].
  apply placed_app in Hp; [|eauto with vu]. destruct Hp as [_ Hp]. eapply array_read; eassumption.
Qed.

Lemma flags_read (L : Prop) p fl l : ~ L -> spaced (flag_at unq) p fl l -> placed input p fl -> Forall (read_at L) (map fl_value l).
Proof.
  intros HL Hfl Hp. apply Forall_forall. intros x Hx. apply in_map_iff in Hx. destruct Hx as (f & <- & Hf).
  destruct (spaced_in input _ (flag_valid unq) _ _ _ Hfl Hp f Hf) as (q & v & Hq & (n & u & y & -> & Hn & Hu & Hy & ->)).
  cbn [fl_value]. apply placed_app in Hq; [|reflexivity]. destruct Hq as [_ Hq]. cbn [length] in Hq.
  apply placed_app in Hq; [|auto with vu]. destruct Hq as [_ Hq]. apply placed_cons in Hq; [|reflexivity].
  eauto using string_read.
Qed.

Lemma word_no_lf w : word w -> ~ In LF w.
Proof. intros (_ & H & _) K. rewrite Forall_forall in H. destruct (H LF K) as [_ H1]. discriminate. Qed.
Lemma label_word_no_lf w : label_word w -> ~ In LF w.
Proof. intros (_ & H & _) K. rewrite Forall_forall in H. destruct (H LF K) as (_ & H1 & _). discriminate. Qed.

Lemma label_name_read q u x : placed input q u -> label_name_at unq q u x -> read_at True x.
Proof. intros Hp [H|[Hw H]]; [eauto using clean_read|]. eapply plain_read; [|exact Hp|exact H]. apply label_word_no_lf. exact Hw. Qed.
Lemma label_value_read q u x : placed input q u -> label_value_at unq q u x -> read_at True x.
Proof. intros Hp [H|[Hw H]]; [eauto using clean_read|]. eapply plain_read; [|exact Hp|exact H]. apply word_no_lf. exact Hw. Qed.

Lemma label_read p w x : placed input p w -> label_at unq p w x ->
  Forall (read_at True) (flat_map (fun l => [lb_name l; lb_value l]) (label_labels x)).
Proof.
  intros Hp (kw & r & -> & Hk & _ & Hr).
  apply placed_app in Hp; [|apply (keyword_valid "label"); [reflexivity|exact Hk]]. destruct Hp as [_ Hp].
  destruct Hr as [(l & (j & g1 & n & k & g2 & v & -> & Hg1 & _ & Hg2 & _ & Hn & Hv & _) & ->)|(ps & g & -> & _ & Hps & _)].
  - apply placed_app in Hp; [|eauto with vu]. destruct Hp as [_ Hp].
    apply placed_app in Hp; [|eapply label_name_valid; exact Hn]. destruct Hp as [Hp1 Hp].
    apply placed_app in Hp; [|eauto with vu]. destruct Hp as [_ Hp].
    cbn [flat_map app]. repeat constructor; eauto using label_name_read, label_value_read.
  - apply placed_left in Hp. apply Forall_forall. intros y Hy. apply in_flat_map in Hy. destruct Hy as (l & Hl & Hy).
    destruct (spaced_in input _ (label_pair_valid unq) _ _ _ Hps Hp l Hl) as (q & u & Hq & (n & v & -> & Hn & Hv & _)).
    apply placed_app in Hq; [|eapply label_name_valid; exact Hn]. destruct Hq as [Hq1 Hq]. apply placed_cons in Hq; [|reflexivity].
    destruct Hy as [<-|[<-|[]]]; eauto using label_name_read, label_value_read.
Qed.

Lemma instruction_read p w i : placed input p w -> instruction_at unq p w i ->
  Forall (read_at (exists x, i = ILabel x)) (written_strings i).
Proof.
  assert (Weak : forall (P Q : Prop) l, (P <-> Q) -> Forall (read_at P) l -> Forall (read_at Q) l).
  { intros P Q l K. apply Forall_impl. intros x (q & u & Hq & E & H). exists q, u. split; [exact Hq|]. split; [exact E|].
    destruct H as [H|(Hb & u' & Hu & Eu)]; [left; exact H|right]. split; [exact Hb|]. exists u'. split; [|exact Eu]. tauto. }
  intros Hp H. unfold written_strings. destruct i as [x|x|x|x|x|x|x|x|x]; cbn [instruction_at flags_of exec_of map app] in *.
  - destruct H as (kw & fl & k & g & img & al & -> & Hk & Hfl & _). rewrite app_nil_r.
    apply placed_app in Hp; [|apply (keyword_valid "from"); [reflexivity|exact Hk]]. destruct Hp as [_ Hp].
    apply placed_left in Hp. eapply flags_read; [intros (? & E0); discriminate E0|eassumption..].
  - destruct H as (kw & k & g & n & r & -> & Hk & Hg & _ & Hn & _ & _ & Hr).
    apply placed_app in Hp; [|apply (keyword_valid "arg"); [reflexivity|exact Hk]]. destruct Hp as [_ Hp].
    apply placed_app in Hp; [|eauto with vu]. destruct Hp as [_ Hp].
    apply placed_app in Hp; [|auto with vu]. destruct Hp as [_ Hp].
    destruct Hr as [(-> & ->)|(u & v & -> & _ & Hv & ->)]; [constructor|].
    apply placed_cons in Hp; [|reflexivity]. repeat constructor. eapply string_read; [intros (? & E0); discriminate E0|eassumption..].
  - apply (Weak True); [split; eauto|]. eapply label_read; eassumption.
  - eapply (command_read _ "run"); [intros (? & E0); discriminate E0|reflexivity|eassumption..].
  - eapply (command_read _ "entrypoint"); [intros (? & E0); discriminate E0|reflexivity|eassumption..].
  - eapply (command_read _ "cmd"); [intros (? & E0); discriminate E0|reflexivity|eassumption..].
  - destruct H as (kw & fl & ps & -> & Hk & Hfl & Hps & _).
    apply placed_app in Hp; [|apply (keyword_valid "copy"); [reflexivity|exact Hk]]. destruct Hp as [_ Hp].
    apply placed_app in Hp; [|eapply spaced_valid; [apply flag_valid|exact Hfl]]. destruct Hp as [Hp1 Hp].
    apply Forall_app. split; [eapply flags_read; [intros (? & E0); discriminate E0|eassumption..]|]. apply Forall_forall. intros y Hy.
    destruct (spaced_in input _ (path_valid unq) _ _ _ Hps Hp y Hy) as (q & u & Hq & [_ Hu]). eapply string_read; [intros (? & E0); discriminate E0|eassumption..].
  - constructor.
  - constructor.
Qed.

End Read.

(** ** C63 *)

Theorem C63_read unq input d i x : valid_utf8 input = true -> parse unq input = Ok d ->
  In i (d_instructions d) -> In x (written_strings i) ->
  is_read unq (exists l, i = ILabel l) (text_at (d_content d) (ss_span x)) (ss_content x).
Proof.
  intros V E Hi Hx. rewrite (proj1 (parsed_document unq input d V E)).
  destruct (parsed_instruction unq input d V E i Hi) as (p & w & Hp & H).
  pose proof (instruction_read unq input p w i Hp H) as K. rewrite Forall_forall in K.
  destruct (K x Hx) as (q & u & Hq & Es & Hr). rewrite Es, (placed_text _ _ _ Hq). exact Hr.
Qed.

Lemma without_breaks_plain w u : ~ In BSLASH w -> without_breaks w u -> u = w.
Proof.
  intros Hn. induction 1 as [|w v _ IH|c w v _ _ IH]; [reflexivity|exfalso; apply Hn; left; reflexivity|].
  rewrite IH; [reflexivity|]. intros K. apply Hn. right. exact K.
Qed.

(** What is asked of unescaping: between quotes everything but the quote itself and the
    backslash stands for itself.  The function that the library calls does so
    ([EnquoteFacts.unquote_plain]). *)
Definition plain_unquote (unq : bytes -> option bytes) : Prop :=
  forall q s, q = DQUOTE \/ q = SQUOTE -> ~ In q s -> ~ In BSLASH s -> unq (q :: s ++ [q]) = Some s.
Lemma enquote_plain : plain_unquote enquote_unquote.
Proof. exact unquote_plain. Qed.

(** Between quotes everything but the quote itself and the backslash is taken as it is. *)
Theorem C63_plain_quotes unq input d i x q s : plain_unquote unq -> valid_utf8 input = true -> parse unq input = Ok d ->
  In i (d_instructions d) -> In x (written_strings i) -> (q = DQUOTE \/ q = SQUOTE) -> ~ In q s -> ~ In BSLASH s ->
  text_at (d_content d) (ss_span x) = [q] ++ s ++ [q] -> ss_content x = s.
Proof.
  intros U V E Hi Hx Hq Hs Hb Ht. pose proof (C63_read _ input d i x V E Hi Hx) as K. rewrite Ht in K.
  assert (Bq : begins_quoted ([q] ++ s ++ [q])) by (exists q, (s ++ [q]); split; [reflexivity|tauto]).
  destruct K as [[K _]|(_ & u & Hu & K)]; [contradiction|].
  assert (u = [q] ++ s ++ [q]) as ->.
  { destruct Hu as [[_ Hu]|[_ ->]]; [|reflexivity]. eapply without_breaks_plain; [|exact Hu].
    cbn [app]. intros [K1|K1]; [destruct Hq; subst; discriminate|]. apply in_app_or in K1. destruct K1 as [K1|[K1|[]]]; [auto|].
    destruct Hq; subst; discriminate. }
  cbn [app] in K. rewrite (U q s Hq Hs Hb) in K. congruence.
Qed.

(** The value of a variable of ENV that is written as a quoted string is the string
    unescaped, and nothing else. *)
Theorem C63_env unq input d e v : valid_utf8 input = true -> parse unq input = Ok d ->
  In (IEnv e) (d_instructions d) -> In v (env_vars e) -> quoted_text (text_at (d_content d) (br_span (ev_value v))) ->
  exists c, unq (text_at (d_content d) (br_span (ev_value v))) = Some c /\
    br_components (ev_value v) = [BString (SpannedString (br_span (ev_value v)) c)].
Proof.
  intros V E Hi Hx. rewrite (proj1 (parsed_document unq input d V E)).
  destruct (parsed_instruction unq input d V E _ Hi) as (p & w & Hp & (kw & r & -> & Hk & _ & Hr)).
  apply placed_app in Hp; [|apply (keyword_valid "env"); [reflexivity|exact Hk]]. destruct Hp as [_ Hp].
  assert (Fin : forall q u (P : Prop), placed input q u -> (P -> br_span (ev_value v) = at_ q u) ->
    quoted_value_at unq q u (ev_value v) \/ (~ quoted_ahead u /\ P) ->
    quoted_text (text_at input (br_span (ev_value v))) -> exists c, unq (text_at input (br_span (ev_value v))) = Some c /\
      br_components (ev_value v) = [BString (SpannedString (br_span (ev_value v)) c)]).
  { intros q u P Hq HP [(c & _ & Ec & Ev)|[Ha HP']] Ht.
    - unfold plain_value_at in Ev. rewrite Ev. cbn [br_span br_components]. rewrite (placed_text _ _ _ Hq). exists c. auto.
    - exfalso. rewrite (HP HP'), (placed_text _ _ _ Hq) in Ht. apply Ha. exists u, []. rewrite app_nil_r. auto. }
  destruct Hr as [(l & (j & g1 & n & k & g2 & u & -> & H1 & _ & H2 & _ & Hn & _ & Hu & _) & El)|(ps & g & -> & _ & Hps & _)].
  - rewrite El in Hx. destruct Hx as [<-|[]].
    apply placed_app in Hp; [|eauto with vu]. destruct Hp as [_ Hp].
    apply placed_app in Hp; [|auto with vu]. destruct Hp as [_ Hp].
    apply placed_app in Hp; [|eauto with vu]. destruct Hp as [_ Hp].
    eapply Fin; [exact Hp| |exact Hu]. intros (c & _ & ->). reflexivity.
  - apply placed_left in Hp.
    destruct (spaced_in input _ (env_pair_valid unq) _ _ _ Hps Hp v Hx) as (q & t & Hq & (n & u & -> & Hn & _ & Hu & _)).
    apply placed_app in Hq; [|auto with vu]. destruct Hq as [_ Hq]. apply placed_cons in Hq; [|reflexivity].
    eapply (Fin _ _ (plain_value_at (q + length n + 1) u u (ev_value v))); [exact Hq|intros ->; reflexivity|].
    destruct Hu as [Hu|(_ & Ha & Hu)]; [left|right]; auto.
Qed.

(** Likewise, without backslashes *)
Theorem C63_env_plain unq input d e v q s : plain_unquote unq -> valid_utf8 input = true -> parse unq input = Ok d ->
  In (IEnv e) (d_instructions d) -> In v (env_vars e) -> (q = DQUOTE \/ q = SQUOTE) ->
  Forall (fun c => c <> q /\ c <> BSLASH /\ c <> 0%N /\ c <> 31%N) s -> valid_utf8 s = true ->
  text_at (d_content d) (br_span (ev_value v)) = [q] ++ s ++ [q] ->
  br_components (ev_value v) = [BString (SpannedString (br_span (ev_value v)) s)] /\ display_breakable (ev_value v) = s.
Proof.
  intros U V E Hi Hx Hq Hs Vs Ht. rewrite Forall_forall in Hs.
  assert (Qt : quoted_text ([q] ++ s ++ [q])).
  { exists q, s. split; [exact Hq|]. split; [reflexivity|]. split; [|exact Vs]. clear -Hs. induction s as [|c s IH]; [constructor|].
    destruct (Hs c (or_introl eq_refl)) as (K1 & K2 & K3 & K4). apply qb_plain; auto. apply IH. intros x Hx. apply Hs. right. exact Hx. }
  destruct (C63_env _ input d e v V E Hi Hx) as (c & Ec & Eb); [rewrite Ht; exact Qt|].
  rewrite Ht in Ec. cbn [app] in Ec. rewrite U in Ec; [|exact Hq|intros K; apply (proj1 (Hs _ K)); reflexivity|intros K; apply (proj1 (proj2 (Hs _ K))); reflexivity].
  injection Ec as <-. split; [exact Eb|]. unfold display_breakable. rewrite Eb. cbn. apply app_nil_r.
Qed.

(** Quoted and unquoted strings of every kind *)
Definition quoted_lines : bytes := lines ["ARG a=""x  y"""; "FROM --platform='p' img"; "LABEL ""k 1""='v # 2' k2=plain";
  "COPY --from=""s"" ""a"" b"; "RUN [ ""sh"", '-c' , ""echo 'x'""]"; "ENV A=""b c"" D=e"; "ENV N 'x y'"]%string.
Definition texts (o : outcome dockerfile) : list (list (bytes * bytes)) :=
  match o with
  | Ok d => map (fun i => map (fun x => (text_at (d_content d) (ss_span x), ss_content x)) (written_strings i)) (d_instructions d)
  | _ => []
  end.
Definition variables (o : outcome dockerfile) : list (bytes * bytes) :=
  match o with
  | Ok d => flat_map (fun i => match i with
      IEnv e => map (fun v => (text_at (d_content d) (br_span (ev_value v)), display_breakable (ev_value v))) (env_vars e)
    | _ => [] end) (d_instructions d)
  | _ => []
  end.
Example C63_case : valid_utf8 quoted_lines = true /\
  texts (parse enquote_unquote quoted_lines) =
  [[(bs """x  y""", bs "x  y")]; [(bs "'p'", bs "p")];
   [(bs """k 1""", bs "k 1"); (bs "'v # 2'", bs "v # 2"); (bs "k2", bs "k2"); (bs "plain", bs "plain")];
   [(bs """s""", bs "s"); (bs """a""", bs "a"); (bs "b", bs "b")];
   [(bs """sh""", bs "sh"); (bs "'-c'", bs "-c"); (bs """echo 'x'""", bs "echo 'x'")]; []; []] /\
  variables (parse enquote_unquote quoted_lines) = [(bs """b c""", bs "b c"); (bs "e", bs "e"); (bs "'x y'", bs "x y")].
Proof. split; [vm_compute; reflexivity|]. split; vm_compute; reflexivity. Qed.

Print Assumptions C63_read.
Print Assumptions C63_plain_quotes.
Print Assumptions C63_env.
Print Assumptions C63_env_plain.
