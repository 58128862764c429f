(** The texts of SpecSyntax.v are valid, and their parts are in place. *)

From Coq Require Import String.
From Verif Require Import Bytes BytesFacts Ast SpecImage SpecSplice SpecSyntax SpecParts.
Local Open Scope nat_scope.

(** ** Validity of texts *)

Lemma ascii_valid w : ascii_all w = true -> valid_utf8 w = true.
Proof. intros H. rewrite <- (app_nil_r w), (valid_utf8_ascii_app w [] H). reflexivity. Qed.

Lemma class_valid (P : N -> bool) w : (forall c, P c = true -> (c < 128)%N) ->
  Forall (fun c => P c = true) w -> valid_utf8 w = true.
Proof.
  intros HP H. apply ascii_valid. apply forallb_forall. intros c Hc. apply N.ltb_lt, HP.
  rewrite Forall_forall in H. apply H. exact Hc.
Qed.

Lemma valid_app a b : valid_utf8 a = true -> valid_utf8 b = true -> valid_utf8 (a ++ b) = true.
Proof. intros Ha Hb. rewrite valid_utf8_app by exact Ha. exact Hb. Qed.

Ltac ascii_class := intros c Hc;
  unfold alias_char, image_char, is_word, is_alnum, is_alpha, is_upper, is_lower, is_digit, is_blank in Hc;
  cbn [existsb] in Hc; rewrite ?orb_true_iff, ?in_range_spec, ?N.eqb_eq in Hc;
  repeat match type of Hc with _ \/ _ => destruct Hc as [Hc|Hc] end;
  try discriminate Hc; first [lia | subst c; reflexivity].

Lemma blank_ascii c : is_blank c = true -> (c < 128)%N.
Proof. revert c. ascii_class. Qed.
Lemma alpha_ascii c : is_alpha c = true -> (c < 128)%N.
Proof. revert c. ascii_class. Qed.
Lemma word_ascii c : is_word c = true -> (c < 128)%N.
Proof. revert c. ascii_class. Qed.
Lemma image_ascii c : image_char c = true -> (c < 128)%N.
Proof. revert c. ascii_class. Qed.
Lemma alias_ascii c : alias_char c = true -> (c < 128)%N.
Proof. revert c. ascii_class. Qed.

Lemma blanks_valid b : blanks b -> valid_utf8 b = true.
Proof. apply class_valid. exact blank_ascii. Qed.
Lemma newline_valid n : newline n -> valid_utf8 n = true.
Proof. destruct 1; reflexivity. Qed.
Lemma comment_valid t : comment_text t -> valid_utf8 t = true.
Proof. intros (u & -> & _ & H). exact H. Qed.
Lemma continuation_valid c : continuation c -> valid_utf8 c = true.
Proof.
  intros (b & n & -> & Hb & Hn). rewrite valid_utf8_cons_ascii by reflexivity.
  apply valid_app; [apply blanks_valid|apply newline_valid]; assumption.
Qed.
Lemma skipped_valid k l : skipped_lines k l -> valid_utf8 l = true.
Proof.
  induction 1; [reflexivity| |]; repeat apply valid_app; auto using blanks_valid, newline_valid, comment_valid.
Qed.
Lemma gap_valid k g : gap k g -> valid_utf8 g = true.
Proof.
  induction 1 as [|k c w Hc _ IH|j k c l w Hc Hl _ IH]; [reflexivity| |].
  - rewrite valid_utf8_cons_ascii by (apply blank_ascii; exact Hc). exact IH.
  - repeat apply valid_app; eauto using continuation_valid, skipped_valid.
Qed.
Lemma last_gap_valid g : last_gap g -> valid_utf8 g = true.
Proof.
  intros [(k & H)|(k & h & c & j & l & b & t & -> & H1 & H2 & H3 & H4 & H5)]; [apply (gap_valid _ _ H)|].
  repeat apply valid_app; eauto using continuation_valid, skipped_valid, gap_valid, blanks_valid, comment_valid.
Qed.

Lemma lower_ascii_back c : (lower_byte c < 128)%N -> (c < 128)%N.
Proof. unfold lower_byte. destruct (is_upper c); lia. Qed.
Lemma keyword_valid k w : ascii_all (bs k) = true -> keyword k w -> valid_utf8 w = true.
Proof.
  intros Hk H. apply ascii_valid. unfold keyword in H. rewrite <- H in Hk. clear H. unfold ascii_all in *.
  induction w as [|c w IH]; [reflexivity|]. cbn [to_lower map forallb] in *. apply andb_true_iff in Hk.
  destruct Hk as [H1 H2]. apply andb_true_iff. split; [|apply IH; exact H2].
  apply N.ltb_lt in H1. apply N.ltb_lt. apply lower_ascii_back. exact H1.
Qed.
Lemma letters_valid w : letters w -> valid_utf8 w = true.
Proof. intros [_ H]. revert H. apply class_valid. exact alpha_ascii. Qed.
Lemma image_text_valid w : image_text w -> valid_utf8 w = true.
Proof. intros [_ H]. revert H. apply class_valid. exact image_ascii. Qed.
Lemma alias_text_valid w : alias_text w -> valid_utf8 w = true.
Proof. intros [_ H]. revert H. apply class_valid. exact alias_ascii. Qed.
Lemma env_name_valid w : env_name_text w -> valid_utf8 w = true.
Proof. intros [_ H]. revert H. apply class_valid. exact word_ascii. Qed.
Lemma arg_name_word w : arg_name_text w -> w <> [] /\ Forall (fun c => is_word c = true) w.
Proof.
  intros (c & t & -> & Hc & Ht). split; [discriminate|]. constructor; [|exact Ht].
  unfold is_word, is_alnum. rewrite Hc. reflexivity.
Qed.
Lemma arg_name_valid w : arg_name_text w -> valid_utf8 w = true.
Proof. intros H. apply arg_name_word in H. revert H. apply env_name_valid. Qed.
Lemma word_valid w : word w -> valid_utf8 w = true.
Proof. intros (_ & _ & H). exact H. Qed.
Lemma label_word_valid w : label_word w -> valid_utf8 w = true.
Proof. intros (_ & _ & H). exact H. Qed.
Lemma chunk_valid w : chunk w -> valid_utf8 w = true.
Proof. intros (_ & _ & H). exact H. Qed.
Lemma quoted_valid w : quoted_text w -> valid_utf8 w = true.
Proof.
  intros (q & b & Hq & -> & _ & Hv).
  assert (Eq : (q < 128)%N) by (destruct Hq; subst; reflexivity).
  rewrite valid_utf8_cons_ascii by exact Eq. apply valid_app; [exact Hv|].
  rewrite valid_utf8_cons_ascii by exact Eq. reflexivity.
Qed.
Lemma quoted_nonempty w : quoted_text w -> w <> [].
Proof. intros (q & b & _ & -> & _). discriminate. Qed.

Create HintDb vu.
#[export] Hint Resolve valid_app blanks_valid newline_valid comment_valid continuation_valid skipped_valid gap_valid
  last_gap_valid letters_valid image_text_valid alias_text_valid env_name_valid arg_name_valid word_valid
  label_word_valid chunk_valid quoted_valid : vu.

Ltac valid := repeat first [apply valid_app | rewrite valid_utf8_cons_ascii by reflexivity]; eauto with vu; try reflexivity.

Section Unq.
Variable unq : bytes -> option bytes.

Lemma shell_valid p w l : shell_at p w l -> valid_utf8 w = true.
Proof. induction 1; valid. Qed.
Lemma shell_nonempty p w l : shell_at p w l -> w <> [].
Proof.
  destruct 1 as [p w Hw _|p w c w2 l Hw|p b t _ (u & -> & _)|p b t n _ (u & -> & _)|p b t n w l _ (u & -> & _)].
  - apply Hw.
  - destruct Hw as [Hw _]. intros E. apply app_eq_nil in E. apply Hw. apply E.
  - destruct b; discriminate.
  - destruct b; discriminate.
  - destruct b; discriminate.
Qed.
Lemma more_valid p w l : more_strings unq p w l -> valid_utf8 w = true.
Proof. induction 1; valid. Qed.
Lemma array_valid p w a : array_at unq p w a -> valid_utf8 w = true.
Proof. destruct 1; [valid|]. subst text. destruct H3; subst comma; valid; eapply more_valid; eassumption. Qed.
Lemma command_text_valid p w e : shell_or_exec_at unq p w e -> valid_utf8 w = true.
Proof. destruct e as [s|a]; [intros (l & H & _); eapply shell_valid; exact H|apply array_valid]. Qed.
Lemma flag_valid p w x : flag_at unq p w x -> valid_utf8 w = true.
Proof. intros (n & v & y & -> & Hn & Hv & _). cbn [app]. valid. Qed.
Lemma spaced_valid {A} (at1 : nat -> bytes -> A -> Prop) :
  (forall p w x, at1 p w x -> valid_utf8 w = true) -> forall p w l, spaced at1 p w l -> valid_utf8 w = true.
Proof. intros H p w l. induction 1; valid. Qed.
Lemma label_name_valid p w x : label_name_at unq p w x -> valid_utf8 w = true.
Proof. intros [(u & v & H & _)|[H _]]; valid. Qed.
Lemma label_value_valid p w x : label_value_at unq p w x -> valid_utf8 w = true.
Proof. intros [(u & v & H & _)|[H _]]; valid. Qed.
Lemma label_pair_valid p w x : label_pair_at unq p w x -> valid_utf8 w = true.
Proof. intros (n & v & -> & Hn & Hv & _). valid; [eapply label_name_valid|eapply label_value_valid]; eassumption. Qed.
Lemma value_valid p w x : quoted_value_at unq p w x \/ word w /\ ~ quoted_ahead w /\ plain_value_at p w w x -> valid_utf8 w = true.
Proof. intros [(v & H & _)|[H _]]; valid. Qed.
Lemma env_pair_valid p w x : env_pair_at unq p w x -> valid_utf8 w = true.
Proof. intros (n & v & -> & Hn & _ & Hv & _). valid. eapply value_valid; eassumption. Qed.
Lemma path_valid p w x : path_at unq p w x -> valid_utf8 w = true.
Proof. intros [H _]. valid. Qed.
Lemma alias_valid p w x : alias_at p w x -> valid_utf8 w = true.
Proof.
  intros [[-> _]|(j & g1 & a & k & g2 & al & -> & H1 & _ & Ha & H2 & _ & H3 & _)]; [reflexivity|].
  valid. apply (keyword_valid "as"); [reflexivity|exact Ha].
Qed.

(** ** Texts on one line *)

Lemma class_line (P : N -> bool) w : (forall c, P c = true -> c <> LF /\ c <> CR) ->
  Forall (fun c => P c = true) w -> no_newline w.
Proof.
  intros HP H. unfold no_newline. eapply Forall_impl; [|exact H]. intros c Hc. destruct (HP c Hc) as [H1 H2].
  unfold is_newline_byte. rewrite (proj2 (N.eqb_neq _ _) H1), (proj2 (N.eqb_neq _ _) H2). reflexivity.
Qed.

Ltac line_class := let c := fresh in let H := fresh in intros c H; split; intros ->; discriminate H.

Lemma letters_line w : letters w -> no_newline w.
Proof. intros [_ H]. revert H. apply class_line. line_class. Qed.
Lemma image_line w : image_text w -> no_newline w.
Proof. intros [_ H]. revert H. apply class_line. line_class. Qed.
Lemma alias_line w : alias_text w -> no_newline w.
Proof. intros [_ H]. revert H. apply class_line. line_class. Qed.
Lemma env_name_line w : env_name_text w -> no_newline w.
Proof. intros [_ H]. revert H. apply class_line. line_class. Qed.
Lemma arg_name_line w : arg_name_text w -> no_newline w.
Proof.
  intros (c & t & -> & Hc & Ht). constructor; [|revert Ht; apply class_line; line_class].
  unfold is_newline_byte. destruct (N.eqb_spec c LF) as [->|_]; [discriminate|].
  destruct (N.eqb_spec c CR) as [->|_]; [discriminate|reflexivity].
Qed.
Lemma word_line w : word w -> no_newline w.
Proof. intros (_ & H & _). eapply Forall_impl; [|exact H]. cbn. tauto. Qed.
Lemma label_word_line w : label_word w -> no_newline w.
Proof. intros (_ & H & _). eapply Forall_impl; [|exact H]. cbn. tauto. Qed.
Lemma chunk_line w : chunk w -> no_newline w.
Proof. intros (_ & H & _). exact H. Qed.
Local Hint Resolve letters_line image_line alias_line env_name_line arg_name_line word_line label_word_line chunk_line : vu.

(** ** Placement *)

Variable src : bytes.

(** [w] stands at [p], on character boundaries. *)
Definition placed (p : nat) (w : bytes) : Prop :=
  exists pre post, src = pre ++ w ++ post /\ p = length pre /\ valid_utf8 pre = true /\ valid_utf8 (w ++ post) = true.

Lemma placed_app p a b : placed p (a ++ b) -> valid_utf8 a = true -> placed p a /\ placed (p + length a) b.
Proof.
  intros (pre & post & E & -> & H1 & H2) Ha. rewrite <- app_assoc in E, H2. split.
  - exists pre, (b ++ post). auto.
  - exists (pre ++ a), post. rewrite <- !app_assoc, app_length. split; [exact E|]. split; [reflexivity|].
    split; [apply valid_app; assumption|]. rewrite valid_utf8_app in H2 by exact Ha. exact H2.
Qed.

Lemma placed_cons p c w : placed p (c :: w) -> (c < 128)%N -> placed (p + 1) w.
Proof.
  intros H Hc. change (c :: w) with ([c] ++ w) in H. apply placed_app in H; [apply H|].
  rewrite valid_utf8_cons_ascii by exact Hc. reflexivity.
Qed.

Lemma placed_left p a b : placed p (a ++ b) -> placed p a.
Proof.
  intros (pre & post & E & -> & H1 & H2). rewrite <- app_assoc in E, H2. exists pre, (b ++ post). auto.
Qed.

Lemma placed_text p w : placed p w -> text_at src (at_ p w) = w.
Proof. intros (pre & post & E & -> & _). unfold text_at, at_; cbn [s_start s_end]. rewrite E. apply slice_app. Qed.

Lemma placed_sliceable p w : placed p w -> valid_utf8 w = true -> sliceable src (at_ p w).
Proof.
  intros (pre & post & E & -> & H1 & H2) Hw. unfold at_, sliceable, on_boundaries; cbn [s_start s_end]. rewrite E.
  split; [lia|]. split; [rewrite !app_length; lia|]. split.
  - apply boundary_of_app. exact H2.
  - rewrite <- app_length, app_assoc. apply boundary_of_app. rewrite valid_utf8_app in H2 by exact Hw. exact H2.
Qed.

Lemma placed_length p w : placed p w -> p + length w <= length src.
Proof. intros (pre & post & E & -> & _). rewrite E, !app_length. lia. Qed.

(** A part in its place: the text is there, the content fits it, the sub-parts are in
    place and in order. *)
Inductive in_place : part -> Prop :=
| in_place_part p w c sub : placed p w -> valid_utf8 w = true -> w <> [] ->
    match c with
    | Nothing => True
    | AString x => read_as unq w x /\ (no_newline w \/ quoted_text w)
    | AComment x => x = w /\ comment_text w
    end ->
    in_order p (p + length w) (map part_span sub) -> Forall in_place sub ->
    in_place (Part (at_ p w) c sub).

(** These parts stand in order between [a] and [b], each in its place. *)
Definition row (a b : nat) (l : list part) : Prop := in_order a b (map part_span l) /\ Forall in_place l.

Lemma in_order_weaken a b a' b' l : in_order a b l -> a' <= a -> b <= b' -> in_order a' b' l.
Proof.
  revert a a'. induction l as [|s l IH]; intros a a' H Ha Hb; [exact I|]. cbn in *. destruct H as (H1 & H2 & H3 & H4).
  repeat split; try lia. eapply IH; [exact H4|lia|lia].
Qed.

Lemma in_order_app a b c l1 l2 : a <= b -> in_order a b l1 -> in_order b c l2 -> b <= c -> in_order a c (l1 ++ l2).
Proof.
  revert a. induction l1 as [|s l1 IH]; intros a Hab H1 H2 Hbc; cbn [app].
  - eapply in_order_weaken; [exact H2|exact Hab|lia].
  - cbn in *. destruct H1 as (K1 & K2 & K3 & K4). repeat split; try lia. apply IH; auto.
Qed.

Lemma row_nil a b : row a b [].
Proof. split; [exact I|constructor]. Qed.

Lemma row_app a b c l1 l2 : row a b l1 -> row b c l2 -> a <= b -> b <= c -> row a c (l1 ++ l2).
Proof.
  intros [H1 K1] [H2 K2] Ha Hb. split; [|apply Forall_app; auto]. rewrite map_app. eapply in_order_app; eauto.
Qed.

Lemma row_weaken a b a' b' l : row a b l -> a' <= a -> b <= b' -> row a' b' l.
Proof. intros [H K] Ha Hb. split; [eapply in_order_weaken; eauto|exact K]. Qed.

Lemma in_place_nonempty x : in_place x -> s_start (part_span x) < s_end (part_span x).
Proof. destruct 1 as [p w c sub _ _ Hn]. cbn. destruct w; [congruence|cbn [length]; lia]. Qed.

Lemma row_one p w c sub : in_place (Part (at_ p w) c sub) -> row p (p + length w) [Part (at_ p w) c sub].
Proof.
  intros H. split; [|constructor; [exact H|constructor]]. apply in_place_nonempty in H. cbn in *.
  repeat split; lia.
Qed.

Lemma row_part p w sub : placed p w -> valid_utf8 w = true -> w <> [] -> row p (p + length w) sub ->
  row p (p + length w) [Part (at_ p w) Nothing sub].
Proof. intros H1 H2 H3 [H4 H5]. apply row_one. constructor; auto. Qed.

Lemma row_string p w x : placed p w -> valid_utf8 w = true -> w <> [] -> no_newline w \/ quoted_text w ->
  read_as unq w (ss_content x) -> ss_span x = at_ p w -> row p (p + length w) [string_part x].
Proof. intros H1 H2 H3 H4 H5 E. unfold string_part. rewrite E. apply row_one. constructor; cbn; auto. Qed.

Lemma stands_read w v : stands_for unq w v -> read_as unq w v.
Proof. intros [[H E]|[_ ->]]; [right; auto|left; reflexivity]. Qed.

Lemma string_row p w x : placed p w -> valid_utf8 w = true -> w <> [] -> no_newline w \/ quoted_text w ->
  string_at unq p w x -> row p (p + length w) [string_part x].
Proof. intros H1 H2 H3 Hl (v & Hv & ->). apply row_string; auto. apply stands_read. exact Hv. Qed.

Lemma plain_row p w : placed p w -> valid_utf8 w = true -> w <> [] -> no_newline w ->
  row p (p + length w) [string_part (SpannedString (at_ p w) w)].
Proof. intros H1 H2 H3 H4. apply row_string; auto. left. reflexivity. Qed.

(** ** Commands *)

Lemma comment_row p t : placed p t -> comment_text t -> row p (p + length t) [component_part (comment_part p t)].
Proof.
  intros H Ht. apply row_one. constructor; cbn; auto with vu. destruct Ht as (u & -> & _). discriminate.
Qed.

Lemma shell_row p w l : placed p w -> shell_at p w l -> row p (p + length w) (map component_part l).
Proof.
  intros Hp H. induction H as [p w Hw _|p w c w2 l Hw _ Hc H IH|p b t Hb Ht|p b t n Hb Ht Hn|p b t n w l Hb Ht Hn H IH].
  - cbn [map]. apply plain_row; auto with vu. apply Hw.
  - apply placed_app in Hp; [|auto with vu]. destruct Hp as [Hp1 Hp2].
    apply placed_app in Hp2; [|auto with vu]. destruct Hp2 as [_ Hp2].
    cbn [map]. rewrite !app_length.
    change (component_part (text_part p w) :: map component_part l) with
      ([component_part (text_part p w)] ++ map component_part l).
    eapply row_app with (b := p + length w); [|eapply row_weaken; [apply IH; exact Hp2|lia|lia]|lia|lia].
    apply plain_row; auto with vu. apply Hw.
  - apply placed_app in Hp; [|auto with vu]. cbn [map]. rewrite app_length.
    eapply row_weaken; [apply comment_row; [apply Hp|exact Ht]|lia|lia].
  - apply placed_app in Hp; [|auto with vu]. destruct Hp as [_ Hp]. apply placed_left in Hp.
    cbn [map]. rewrite !app_length. eapply row_weaken; [apply comment_row; [apply Hp|exact Ht]|lia|lia].
  - apply placed_app in Hp; [|auto with vu]. destruct Hp as [_ Hp]. pose proof (placed_left _ _ _ Hp) as Hp1.
    apply placed_app in Hp; [|auto with vu]. destruct Hp as [_ Hp].
    apply placed_app in Hp; [|auto with vu]. destruct Hp as [_ Hp].
    cbn [map]. rewrite !app_length.
    change (component_part (comment_part (p + length b) t) :: map component_part l) with
      ([component_part (comment_part (p + length b) t)] ++ map component_part l).
    eapply row_app with (b := p + length b + length t);
      [eapply row_weaken; [apply comment_row; [exact Hp1|exact Ht]|lia|lia]
      |eapply row_weaken; [apply IH; exact Hp|lia|lia]|lia|lia].
Qed.

Lemma breakable_row p w x : placed p w -> breakable_at p w x -> row p (p + length w) [breakable_part x].
Proof.
  intros Hp (l & H & ->). apply row_part; auto.
  - eapply shell_valid; exact H.
  - eapply shell_nonempty; exact H.
  - cbn. apply shell_row; auto.
Qed.

Lemma more_row p w l : placed p w -> more_strings unq p w l -> row p (p + length w) (map string_part l).
Proof.
  intros Hp H. induction H as [p|p j g1 k g2 w x w2 l H1 H2 Hq Hx Hm IH]; [apply row_nil|].
  apply placed_app in Hp; [|eauto with vu]. destruct Hp as [_ Hp].
  apply placed_cons in Hp; [|reflexivity].
  apply placed_app in Hp; [|eauto with vu]. destruct Hp as [_ Hp].
  apply placed_app in Hp; [|eauto with vu]. destruct Hp as [Hp1 Hp].
  cbn [map]. rewrite !app_length. cbn [length]. rewrite !app_length.
  change (string_part x :: map string_part l) with ([string_part x] ++ map string_part l).
  eapply row_app with (b := p + length g1 + 1 + length g2 + length w); [| |lia|lia].
  - eapply row_weaken; [apply string_row; [exact Hp1|auto with vu|apply quoted_nonempty; exact Hq|auto with vu|exact Hx]|lia|lia].
  - eapply row_weaken; [apply IH; exact Hp|lia|lia].
Qed.

Lemma array_row p w a : placed p w -> array_at unq p w a -> row p (p + length w) [array_part a].
Proof.
  intros Hp H. pose proof (array_valid _ _ _ H) as Hv.
  destruct H as [p k g Hg|p k g w x m l comma j g2 text Hg Hq Hx Hm Hc Hg2 Et].
  - apply row_part; auto; [discriminate|apply row_nil].
  - apply row_part; auto; [subst; discriminate|]. cbn [sa_elements map].
    rewrite Et in Hp |- *. apply placed_cons in Hp; [|reflexivity].
    apply placed_app in Hp; [|eauto with vu]. destruct Hp as [_ Hp].
    apply placed_app in Hp; [|eauto with vu]. destruct Hp as [Hp1 Hp].
    apply placed_left in Hp. cbn [length]. rewrite !app_length.
    change (string_part x :: map string_part l) with ([string_part x] ++ map string_part l).
    eapply row_app with (b := p + 1 + length g + length w); [| |lia|lia].
    + eapply row_weaken; [apply string_row; [exact Hp1|auto with vu|apply quoted_nonempty; exact Hq|auto with vu|exact Hx]|lia|lia].
    + eapply row_weaken; [apply more_row; [exact Hp|exact Hm]|lia|lia].
Qed.

Lemma command_text_row p w e : placed p w -> shell_or_exec_at unq p w e -> row p (p + length w) [command_part e].
Proof. destruct e as [s|a]; [apply breakable_row|apply array_row]. Qed.

(** ** Lists *)

Lemma spaced_row {A} (at1 : nat -> bytes -> A -> Prop) (f : A -> part) :
  (forall p w x, at1 p w x -> valid_utf8 w = true) ->
  (forall p w x, placed p w -> at1 p w x -> row p (p + length w) [f x]) ->
  forall p w l, placed p w -> spaced at1 p w l -> row p (p + length w) (map f l).
Proof.
  intros Hv Hr p w l Hp H. induction H as [p|p k g w x w2 l Hg _ Hx Hl IH]; [apply row_nil|].
  apply placed_app in Hp; [|eauto with vu]. destruct Hp as [_ Hp].
  apply placed_app in Hp; [|eapply Hv; exact Hx]. destruct Hp as [Hp1 Hp].
  cbn [map]. rewrite !app_length. change (f x :: map f l) with ([f x] ++ map f l).
  eapply row_app with (b := p + length g + length w); [| |lia|lia].
  - eapply row_weaken; [apply Hr; [exact Hp1|exact Hx]|lia|lia].
  - eapply row_weaken; [apply IH; exact Hp|lia|lia].
Qed.

Lemma flag_row p w x : placed p w -> flag_at unq p w x -> row p (p + length w) [flag_part x].
Proof.
  intros Hp H. pose proof (flag_valid _ _ _ H) as Hv. destruct H as (n & v & y & -> & Hn & Hw & Hy & ->).
  apply row_part; auto; [discriminate|]. cbn [fl_name fl_value].
  apply placed_app in Hp; [|reflexivity]. destruct Hp as [_ Hp]. cbn [length] in Hp.
  apply placed_app in Hp; [|auto with vu]. destruct Hp as [Hp1 Hp].
  apply placed_cons in Hp; [|reflexivity]. rewrite !app_length. cbn [length].
  change [string_part (SpannedString (at_ (p + 2) n) n); string_part y] with
    ([string_part (SpannedString (at_ (p + 2) n) n)] ++ [string_part y]).
  eapply row_app with (b := p + 2 + length n); [| |lia|lia].
  - eapply row_weaken; [apply plain_row; [exact Hp1|auto with vu|apply Hn|auto with vu]|lia|lia].
  - eapply row_weaken; [apply string_row; [exact Hp|auto with vu|apply Hw|auto with vu|exact Hy]|lia|lia].
Qed.

(** ** Instructions *)

Lemma alias_row p w x : placed p w -> alias_at p w x -> row p (p + length w) (maybe x).
Proof.
  intros Hp [[-> ->]|(j & g1 & a & k & g2 & al & -> & H1 & _ & Ha & H2 & _ & H3 & ->)]; [apply row_nil|].
  apply placed_app in Hp; [|eauto with vu]. destruct Hp as [_ Hp].
  apply placed_app in Hp; [|apply (keyword_valid "as"); [reflexivity|exact Ha]]. destruct Hp as [_ Hp].
  apply placed_app in Hp; [|eauto with vu]. destruct Hp as [_ Hp]. rewrite !app_length.
  eapply row_weaken; [apply plain_row; [exact Hp|auto with vu|apply H3|auto with vu]|lia|lia].
Qed.

Lemma from_row p w x : placed p w -> from_at unq p w x -> row p (p + length w) (parts (IFrom x)).
Proof.
  intros Hp (kw & fl & k & g & img & al & -> & Hk & Hfl & Hg & _ & Hi & E & _ & _ & Hal & _).
  apply placed_app in Hp; [|apply (keyword_valid "from"); [reflexivity|exact Hk]]. destruct Hp as [_ Hp].
  apply placed_app in Hp; [|eapply spaced_valid; [apply flag_valid|exact Hfl]]. destruct Hp as [Hp1 Hp].
  apply placed_app in Hp; [|eauto with vu]. destruct Hp as [_ Hp].
  apply placed_app in Hp; [|auto with vu]. destruct Hp as [Hp2 Hp].
  rewrite !app_length. cbn [parts]. rewrite E.
  eapply row_app with (b := p + length kw + length fl); [| |lia|lia].
  - eapply row_weaken; [eapply spaced_row; [apply flag_valid|apply flag_row|exact Hp1|exact Hfl]|lia|lia].
  - eapply row_app with (b := p + length kw + length fl + length g + length img); [| |lia|lia].
    + eapply row_weaken; [apply plain_row; [exact Hp2|auto with vu|apply Hi|auto with vu]|lia|lia].
    + eapply row_weaken; [apply alias_row; [exact Hp|exact Hal]|lia|lia].
Qed.

Lemma arg_row p w x : placed p w -> arg_at unq p w x -> row p (p + length w) (parts (IArg x)).
Proof.
  intros Hp (kw & k & g & n & r & -> & Hk & Hg & _ & Hn & E & _ & Hr).
  apply placed_app in Hp; [|apply (keyword_valid "arg"); [reflexivity|exact Hk]]. destruct Hp as [_ Hp].
  apply placed_app in Hp; [|eauto with vu]. destruct Hp as [_ Hp].
  apply placed_app in Hp; [|auto with vu]. destruct Hp as [Hp1 Hp].
  rewrite !app_length. cbn [parts]. rewrite E.
  change (string_part (SpannedString (at_ (p + length kw + length g) n) n) :: maybe (arg_value x)) with
    ([string_part (SpannedString (at_ (p + length kw + length g) n) n)] ++ maybe (arg_value x)).
  eapply row_app with (b := p + length kw + length g + length n); [| |lia|lia].
  - eapply row_weaken; [apply plain_row; [exact Hp1|auto with vu|apply (arg_name_word _ Hn)|auto with vu]|lia|lia].
  - destruct Hr as [[-> ->]|(v & y & -> & Hv & Hy & ->)]; [apply row_nil|].
    apply placed_cons in Hp; [|reflexivity]. cbn [length maybe].
    eapply row_weaken; [apply string_row; [exact Hp| | | |exact Hy]|lia|lia].
    + destruct Hv; auto with vu.
    + destruct Hv as [Hv|Hv]; [apply quoted_nonempty; exact Hv|apply Hv].
    + destruct Hv; auto with vu.
Qed.

Lemma clean_row p w x : placed p w -> clean_quoted_at unq p w x -> row p (p + length w) [string_part x].
Proof.
  intros Hp (u & v & Hq & Hb & E & ->). apply row_string; auto with vu; [apply quoted_nonempty; exact Hq|].
  right. split; [destruct Hq as (q & b & Hq & -> & _); exists q, (b ++ [q]); intuition|]. right. exists u. auto.
Qed.

Lemma label_name_row p w x : placed p w -> label_name_at unq p w x -> row p (p + length w) [string_part x].
Proof.
  intros Hp [H|[Hw Hx]]; [apply clean_row; assumption|]. apply string_row; auto with vu. apply Hw.
Qed.
Lemma label_value_row p w x : placed p w -> label_value_at unq p w x -> row p (p + length w) [string_part x].
Proof.
  intros Hp [H|[Hw Hx]]; [apply clean_row; assumption|]. apply string_row; auto with vu. apply Hw.
Qed.

Lemma label_pair_row p w x : placed p w -> label_pair_at unq p w x -> row p (p + length w) [label_part x].
Proof.
  intros Hp H. pose proof (label_pair_valid _ _ _ H) as Hv. destruct H as (n & v & -> & Hn & Hvl & E).
  unfold label_part. rewrite E. apply row_part; auto; [destruct n; discriminate|].
  apply placed_app in Hp; [|eapply label_name_valid; exact Hn]. destruct Hp as [Hp1 Hp].
  apply placed_cons in Hp; [|reflexivity]. rewrite app_length. cbn [length].
  change [string_part (lb_name x); string_part (lb_value x)] with ([string_part (lb_name x)] ++ [string_part (lb_value x)]).
  eapply row_app with (b := p + length n); [| |lia|lia].
  - apply label_name_row; assumption.
  - eapply row_weaken; [apply label_value_row; [exact Hp|exact Hvl]|lia|lia].
Qed.

Lemma label_single_row p w x : placed p w -> label_single_at unq p w x -> row p (p + length w) [label_part x].
Proof.
  intros Hp (j & g1 & n & k & g2 & v & -> & H1 & H1n & H2 & _ & Hn & Hvl & E).
  unfold label_part. rewrite E. apply row_part; auto.
  - valid; [eapply label_name_valid|eapply label_value_valid]; eassumption.
  - destruct g1; [congruence|discriminate].
  - apply placed_app in Hp; [|eauto with vu]. destruct Hp as [_ Hp].
    apply placed_app in Hp; [|eapply label_name_valid; exact Hn]. destruct Hp as [Hp1 Hp].
    apply placed_app in Hp; [|eauto with vu]. destruct Hp as [_ Hp]. rewrite !app_length.
    change [string_part (lb_name x); string_part (lb_value x)] with ([string_part (lb_name x)] ++ [string_part (lb_value x)]).
    eapply row_app with (b := p + length g1 + length n); [| |lia|lia].
    + eapply row_weaken; [apply label_name_row; [exact Hp1|exact Hn]|lia|lia].
    + eapply row_weaken; [apply label_value_row; [exact Hp|exact Hvl]|lia|lia].
Qed.

Lemma label_row p w x : placed p w -> label_at unq p w x -> row p (p + length w) (parts (ILabel x)).
Proof.
  intros Hp (kw & r & -> & Hk & _ & Hr).
  apply placed_app in Hp; [|apply (keyword_valid "label"); [reflexivity|exact Hk]]. destruct Hp as [_ Hp].
  rewrite app_length. cbn [parts]. destruct Hr as [(l & Hl & ->)|(ps & g & -> & _ & Hps & _)].
  - cbn [map]. eapply row_weaken; [apply label_single_row; [exact Hp|exact Hl]|lia|lia].
  - apply placed_left in Hp. rewrite app_length.
    eapply row_weaken; [eapply spaced_row; [apply label_pair_valid|apply label_pair_row|exact Hp|exact Hps]|lia|lia].
Qed.

Lemma command_row k p w sp e : ascii_all (bs k) = true -> placed p w -> command_at unq k p w sp e ->
  row p (p + length w) [command_part e].
Proof.
  intros Ha Hp (kw & g & c & -> & Hk & Hg & _ & He & _).
  apply placed_app in Hp; [|apply (keyword_valid k); [exact Ha|exact Hk]]. destruct Hp as [_ Hp].
  apply placed_app in Hp; [|eauto with vu]. destruct Hp as [_ Hp]. rewrite !app_length.
  eapply row_weaken; [apply command_text_row; [exact Hp|exact He]|lia|lia].
Qed.

Lemma path_row p w x : placed p w -> path_at unq p w x -> row p (p + length w) [string_part x].
Proof. intros Hp [Hw Hx]. apply string_row; auto with vu. apply Hw. Qed.

Lemma copy_row p w x : placed p w -> copy_at unq p w x -> row p (p + length w) (parts (ICopy x)).
Proof.
  intros Hp (kw & fl & ps & -> & Hk & Hfl & Hps & _ & _).
  apply placed_app in Hp; [|apply (keyword_valid "copy"); [reflexivity|exact Hk]]. destruct Hp as [_ Hp].
  apply placed_app in Hp; [|eapply spaced_valid; [apply flag_valid|exact Hfl]]. destruct Hp as [Hp1 Hp].
  rewrite !app_length. cbn [parts].
  change (map string_part (copy_sources x) ++ [string_part (copy_destination x)]) with
    (map string_part (copy_sources x) ++ map string_part [copy_destination x]). rewrite <- map_app.
  eapply row_app with (b := p + length kw + length fl); [| |lia|lia].
  - eapply row_weaken; [eapply spaced_row; [apply flag_valid|apply flag_row|exact Hp1|exact Hfl]|lia|lia].
  - eapply row_weaken; [eapply spaced_row; [apply path_valid|apply path_row|exact Hp|exact Hps]|lia|lia].
Qed.

Lemma quoted_value_row p w x : placed p w -> quoted_value_at unq p w x -> row p (p + length w) [breakable_part x].
Proof.
  intros Hp (v & Hq & E & ->). unfold plain_value_at, breakable_part; cbn [br_span br_components map component_part].
  pose proof (quoted_nonempty _ Hq). apply row_part; auto with vu. apply row_string; auto with vu.
  right. split; [destruct Hq as (q & b & Hq & -> & _); exists q, (b ++ [q]); intuition|]. left. exact E.
Qed.

Lemma env_value_row p w x : placed p w -> quoted_value_at unq p w x \/ word w /\ ~ quoted_ahead w /\ plain_value_at p w w x ->
  row p (p + length w) [breakable_part x].
Proof.
  intros Hp [H|(Hw & _ & ->)]; [apply quoted_value_row; assumption|].
  unfold breakable_part; cbn [br_span br_components map component_part].
  pose proof (proj1 Hw). apply row_part; auto with vu. apply plain_row; auto with vu.
Qed.

Lemma env_pair_row p w x : placed p w -> env_pair_at unq p w x -> row p (p + length w) [var_part x].
Proof.
  intros Hp H. pose proof (env_pair_valid _ _ _ H) as Hv. destruct H as (n & v & -> & Hn & Ek & Hvl & E).
  unfold var_part. rewrite E, Ek. apply row_part; auto; [destruct n; discriminate|].
  apply placed_app in Hp; [|auto with vu]. destruct Hp as [Hp1 Hp].
  apply placed_cons in Hp; [|reflexivity]. rewrite app_length. cbn [length].
  match goal with |- row _ _ [?a; ?b] => change [a; b] with ([a] ++ [b]) end.
  eapply row_app with (b := p + length n); [| |lia|lia].
  - apply plain_row; auto with vu. apply Hn.
  - eapply row_weaken; [apply env_value_row; [exact Hp|exact Hvl]|lia|lia].
Qed.

Lemma single_value_row p w x : placed p w -> quoted_value_at unq p w x \/ (~ quoted_ahead w /\ breakable_at p w x) ->
  row p (p + length w) [breakable_part x].
Proof. intros Hp [H|[_ H]]; [apply quoted_value_row|apply breakable_row]; assumption. Qed.

Lemma single_value_valid p w x : quoted_value_at unq p w x \/ (~ quoted_ahead w /\ breakable_at p w x) -> valid_utf8 w = true.
Proof. intros [(v & H & _)|(_ & l & H & _)]; [auto with vu|eapply shell_valid; exact H]. Qed.

Lemma env_single_row p w x : placed p w -> env_single_at unq p w x -> row p (p + length w) [var_part x].
Proof.
  intros Hp (j & g1 & n & k & g2 & v & -> & H1 & H1n & H2 & _ & Hn & Ek & Hvl & E).
  apply placed_app in Hp; [|eauto with vu]. destruct Hp as [_ Hp]. rewrite app_length, Nat.add_assoc.
  unfold var_part. rewrite E, Ek.
  eapply row_weaken; [apply row_part; [exact Hp| | |]|lia|lia].
  - valid. eapply single_value_valid; exact Hvl.
  - destruct Hn as [Hn _]. destruct n; [congruence|discriminate].
  - apply placed_app in Hp; [|auto with vu]. destruct Hp as [Hp1 Hp].
    apply placed_app in Hp; [|eauto with vu]. destruct Hp as [_ Hp]. rewrite !app_length.
    match goal with |- row _ _ [?a; ?b] => change [a; b] with ([a] ++ [b]) end.
    eapply row_app with (b := p + length g1 + length n); [| |lia|lia].
    + apply plain_row; auto with vu. apply Hn.
    + eapply row_weaken; [apply single_value_row; [exact Hp|exact Hvl]|lia|lia].
Qed.

Lemma env_row p w x : placed p w -> env_at unq p w x -> row p (p + length w) (parts (IEnv x)).
Proof.
  intros Hp (kw & r & -> & Hk & _ & Hr).
  apply placed_app in Hp; [|apply (keyword_valid "env"); [reflexivity|exact Hk]]. destruct Hp as [_ Hp].
  rewrite app_length. cbn [parts]. destruct Hr as [(l & Hl & ->)|(ps & g & -> & _ & Hps & _)].
  - cbn [map]. eapply row_weaken; [apply env_single_row; [exact Hp|exact Hl]|lia|lia].
  - apply placed_left in Hp. rewrite app_length.
    eapply row_weaken; [eapply spaced_row; [apply env_pair_valid|apply env_pair_row|exact Hp|exact Hps]|lia|lia].
Qed.

Lemma misc_row p w x : placed p w -> misc_at p w x -> row p (p + length w) (parts (IMisc x)).
Proof.
  intros Hp (n & a & -> & Hn & _ & En & Ha & _). cbn [parts]. rewrite En.
  apply placed_app in Hp; [|auto with vu]. destruct Hp as [Hp1 Hp]. rewrite app_length.
  match goal with |- row _ _ [?a; ?b] => change [a; b] with ([a] ++ [b]) end.
  eapply row_app with (b := p + length n); [| |lia|lia].
  - apply plain_row; auto with vu. apply Hn.
  - eapply row_weaken; [apply breakable_row; [exact Hp|exact Ha]|lia|lia].
Qed.

Lemma instruction_row p w i : placed p w -> instruction_at unq p w i -> row p (p + length w) (parts i).
Proof.
  destruct i; cbn [instruction_at].
  - apply from_row.
  - apply arg_row.
  - apply label_row.
  - apply command_row. reflexivity.
  - apply command_row. reflexivity.
  - apply command_row. reflexivity.
  - apply copy_row.
  - apply env_row.
  - apply misc_row.
Qed.

Lemma keyword_nonempty k w : keyword k w -> bs k <> [] -> w <> [].
Proof. unfold keyword. intros H Hk ->. apply Hk. symmetry. exact H. Qed.

Lemma instruction_valid p w i : instruction_at unq p w i -> valid_utf8 w = true /\ w <> [] /\ instruction_span i = at_ p w.
Proof.
  destruct i as [x|x|x|x|x|x|x|x|x]; cbn [instruction_at instruction_span]; unfold command_at.
  - intros (kw & fl & k & g & img & al & -> & Hk & Hfl & Hg & _ & Hi & E & _ & _ & Hal & Es).
    split; [|split; [|exact Es]].
    + valid; [apply (keyword_valid "from"); [reflexivity|exact Hk]|eapply spaced_valid; [apply flag_valid|exact Hfl]|eapply alias_valid; exact Hal].
    + apply keyword_nonempty in Hk; [|discriminate]. destruct kw; [congruence|discriminate].
  - intros (kw & k & g & n & r & -> & Hk & Hg & _ & Hn & E & Es & Hr). split; [|split; [|exact Es]].
    + valid; [apply (keyword_valid "arg"); [reflexivity|exact Hk]|].
      destruct Hr as [[-> _]|(v & y & -> & Hv & _)]; [reflexivity|]. valid. destruct Hv; auto with vu.
    + apply keyword_nonempty in Hk; [|discriminate]. destruct kw; [congruence|discriminate].
  - intros (kw & r & -> & Hk & Es & Hr). split; [|split; [|exact Es]].
    + valid; [apply (keyword_valid "label"); [reflexivity|exact Hk]|].
      destruct Hr as [(l & (j & g1 & n & k & g2 & v & -> & H1 & _ & H2 & _ & Hn & Hv & _) & _)|(ps & g & -> & _ & Hps & Hg)].
      * valid; [eapply label_name_valid|eapply label_value_valid]; eassumption.
      * valid. eapply spaced_valid; [apply label_pair_valid|exact Hps].
    + apply keyword_nonempty in Hk; [|discriminate]. destruct kw; [congruence|discriminate].
  - intros (kw & g & c & -> & Hk & Hg & _ & He & Es). split; [|split; [|exact Es]].
    + valid; [apply (keyword_valid "run"); [reflexivity|exact Hk]|eapply command_text_valid; exact He].
    + apply keyword_nonempty in Hk; [|discriminate]. destruct kw; [congruence|discriminate].
  - intros (kw & g & c & -> & Hk & Hg & _ & He & Es). split; [|split; [|exact Es]].
    + valid; [apply (keyword_valid "entrypoint"); [reflexivity|exact Hk]|eapply command_text_valid; exact He].
    + apply keyword_nonempty in Hk; [|discriminate]. destruct kw; [congruence|discriminate].
  - intros (kw & g & c & -> & Hk & Hg & _ & He & Es). split; [|split; [|exact Es]].
    + valid; [apply (keyword_valid "cmd"); [reflexivity|exact Hk]|eapply command_text_valid; exact He].
    + apply keyword_nonempty in Hk; [|discriminate]. destruct kw; [congruence|discriminate].
  - intros (kw & fl & ps & -> & Hk & Hfl & Hps & _ & Es). split; [|split; [|exact Es]].
    + valid; [apply (keyword_valid "copy"); [reflexivity|exact Hk]|eapply spaced_valid; [apply flag_valid|exact Hfl]
             |eapply spaced_valid; [apply path_valid|exact Hps]].
    + apply keyword_nonempty in Hk; [|discriminate]. destruct kw; [congruence|discriminate].
  - intros (kw & r & -> & Hk & Es & Hr). split; [|split; [|exact Es]].
    + valid; [apply (keyword_valid "env"); [reflexivity|exact Hk]|].
      destruct Hr as [(l & (j & g1 & n & k & g2 & v & -> & H1 & _ & H2 & _ & Hn & _ & Hv & _) & _)|(ps & g & -> & _ & Hps & Hg)].
      * valid. eapply single_value_valid; exact Hv.
      * valid. eapply spaced_valid; [apply env_pair_valid|exact Hps].
    + apply keyword_nonempty in Hk; [|discriminate]. destruct kw; [congruence|discriminate].
  - intros (n & a & -> & Hn & _ & En & (l & Ha & _) & Es). split; [|split; [|exact Es]].
    + valid. eapply shell_valid; exact Ha.
    + destruct Hn as [Hn _]. destruct n; [congruence|discriminate].
Qed.

Lemma instruction_in_place p w i : placed p w -> instruction_at unq p w i -> in_place (instruction_part i).
Proof.
  intros Hp H. destruct (instruction_valid p w i H) as (Hv & Hn & E). unfold instruction_part. rewrite E.
  destruct (instruction_row p w i Hp H) as [H1 H2]. constructor; auto.
Qed.

(** ** Documents *)

Lemma line_valid p w l : line_at unq p w l -> valid_utf8 w = true.
Proof.
  destruct 1; valid. eapply instruction_valid; eassumption.
Qed.

Lemma line_instruction p w l i : placed p w -> line_at unq p w l -> In i l ->
  exists q v, placed q v /\ instruction_at unq q v i.
Proof.
  intros Hp H Hi. destruct H as [p b Hb|p b t Hb Ht|p b w b2 j Hb Hj Hb2]; [destruct Hi|destruct Hi|].
  destruct Hi as [<-|[]]. apply placed_app in Hp; [|auto with vu]. destruct Hp as [_ Hp]. apply placed_left in Hp. eauto.
Qed.

Lemma document_instruction p w l : document_at unq p w l -> placed p w -> forall i, In i l ->
  exists q v, placed q v /\ instruction_at unq q v i.
Proof.
  induction 1 as [p w l Hl|p w n w2 l l2 Hl Hn Hd IH]; intros Hp i Hi; [eapply line_instruction; eassumption|].
  apply in_app_or in Hi. destruct Hi as [Hi|Hi].
  - eapply line_instruction; [eapply placed_left; exact Hp|exact Hl|exact Hi].
  - apply IH; [|exact Hi]. apply placed_app in Hp; [|eapply line_valid; exact Hl]. destruct Hp as [_ Hp].
    apply placed_app in Hp; [|auto with vu]. apply Hp.
Qed.

End Unq.
