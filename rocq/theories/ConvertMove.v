(** The conversion of tokens to instructions, for tokens whose offsets are moved and
    whose texts stay the same: the instruction is moved. *)

From Coq Require Import String.
From Verif Require Import Bytes BytesFacts Grammar Peg Result Ast Splicer Image Convert Dockerfile SpecMove Shift Sound.
Local Open Scope nat_scope.

Definition omap {A B} (f : A -> B) (o : outcome A) : outcome B :=
  match o with Ok a => Ok (f a) | Err e => Err e | Panic => Panic | Diverge => Diverge end.

Lemma bind_move {A A' C C'} (mv : A -> A') (mv2 : C -> C') (o : outcome A) (o' : outcome A') k k' :
  o' = omap mv o -> (forall x, k' (mv x) = omap mv2 (k x)) -> bind o' k' = omap mv2 (bind o k).
Proof. intros -> H. destruct o; cbn [omap bind]; [apply H|reflexivity..]. Qed.

Section ConvertMove.
Variable unq : bytes -> option bytes.
Variables src src' : bytes.
Variable g : nat -> nat.

Fixpoint settled (t : tree) : Prop :=
  match t with
  | Node _ a b l => slice src a b = slice src' (g a) (g b) /\
    (fix all (l : list tree) : Prop := match l with [] => True | t :: l' => settled t /\ all l' end) l
  end.

Lemma settled_node r a b l : settled (Node r a b l) <-> slice src a b = slice src' (g a) (g b) /\ Forall settled l.
Proof.
  cbn [settled]. assert (E : forall l, (fix all (l : list tree) : Prop := match l with [] => True | t :: l' => settled t /\ all l' end) l
    <-> Forall settled l).
  { induction l0 as [|t l0 IH]; [split; auto|]. rewrite IH. split; [intros [H1 H2]; constructor; assumption|].
    intros H. inversion H. auto. }
  rewrite E. reflexivity.
Qed.

Notation mt := (move_tree g).

Lemma rule_move t : t_rule (mt t) = t_rule t.
Proof. destruct t. reflexivity. Qed.
Lemma children_move t : t_children (mt t) = map mt (t_children t).
Proof. destruct t. reflexivity. Qed.
Lemma span_move t : span_of (mt t) = move_span g (span_of t).
Proof. destruct t. reflexivity. Qed.
Lemma text_move t : settled t -> as_str src' (mt t) = as_str src t.
Proof. destruct t as [r a b l]. rewrite settled_node. intros [H _]. unfold as_str. cbn. symmetry. exact H. Qed.
Lemma children_settled t : settled t -> Forall settled (t_children t).
Proof. destruct t as [r a b l]. rewrite settled_node. intros [_ H]. exact H. Qed.

Lemma for_each_move {S S'} (mv : S -> S') (step : S -> tree -> outcome S) (step' : S' -> tree -> outcome S') l :
  Forall settled l -> (forall st t, settled t -> step' (mv st) (mt t) = omap mv (step st t)) ->
  forall st st', st' = mv st -> for_each step' (map mt l) st' = omap mv (for_each step l st).
Proof.
  intros Hl Hs. induction Hl as [|t l Ht Hl IH]; intros st st' ->; [reflexivity|]. cbn [map for_each].
  apply (bind_move mv); [apply Hs; exact Ht|]. intros x. apply IH. reflexivity.
Qed.

Lemma parse_string_move t : settled t -> parse_string unq src' (mt t) = omap (move_string g) (parse_string unq src t).
Proof.
  intros H. unfold parse_string. rewrite (text_move t H), span_move.
  apply (bind_move (fun x => x)); [|reflexivity]. destruct (starts_quoted (as_str src t)); [|reflexivity].
  unfold unquote. destruct (unq (as_str src t)); reflexivity.
Qed.

Lemma unquote_clean_move t : settled t -> unquote_clean unq src' (mt t) = omap (move_string g) (unquote_clean unq src t).
Proof.
  intros H. unfold unquote_clean. rewrite (text_move t H), span_move.
  apply (bind_move (fun x => x)); [|reflexivity]. unfold unquote. destruct (unq _); reflexivity.
Qed.

Lemma ok_or_move {A A'} (mv : A -> A') x e : ok_or (option_map mv x) e = omap mv (ok_or x e).
Proof. destruct x; reflexivity. Qed.

Definition move2 {A C} (f : A -> A) (h : C -> C) : option A * option C -> option A * option C :=
  fun '(a, b) => (option_map f a, option_map h b).

(** A [for] loop whose body looks at the rule of each child *)
Ltac each := intros st u Hu; destruct st; cbn [move2]; rewrite rule_move; destruct (t_rule u); try reflexivity.

Ltac loop mv t Ht := apply (bind_move mv);
  [rewrite children_move; apply for_each_move; [apply children_settled; exact Ht| |reflexivity]|].

Lemma array_move t : settled t -> parse_string_array unq src' (mt t) = omap (move_array g) (parse_string_array unq src t).
Proof.
  intros Ht. unfold parse_string_array. loop (map (move_string g)) t Ht.
  - intros st u Hu. rewrite rule_move. destruct (t_rule u); try reflexivity.
    apply (bind_move (move_string g)); [apply parse_string_move; exact Hu|]. intros x. cbn [omap]. rewrite map_app. reflexivity.
  - intros x. cbn [omap]. rewrite span_move. reflexivity.
Qed.

Lemma breakable_inner_move t : settled t ->
  parse_any_breakable_inner src' (mt t) = omap (map (move_component g)) (parse_any_breakable_inner src t).
Proof.
  induction t as [r a b l IH] using tree_induction. intros Ht. apply settled_node in Ht. destruct Ht as [_ Hl].
  cbn [move_tree parse_any_breakable_inner].
  assert (K : forall acc, 
    (fix loop (l : list tree) (components : list breakable_component) {struct l} :=
     match l with
     | [] => Ok components
     | field :: l' =>
       match t_rule field with
       | R_any_breakable =>
         more <- parse_any_breakable_inner src' field;; loop l' (components ++ more)
       | R_comment =>
         loop l' (components ++ [BComment (SpannedComment (span_of field) (as_str src' field))])
       | R_any_content =>
         loop l' (components ++ [BString (SpannedString (span_of field) (as_str src' field))])
       | r => unexpected_token r
       end
     end) (map mt l) (map (move_component g) acc) =
    omap (map (move_component g)) ((fix loop (l : list tree) (components : list breakable_component) {struct l} :=
     match l with
     | [] => Ok components
     | field :: l' =>
       match t_rule field with
       | R_any_breakable =>
         more <- parse_any_breakable_inner src field;; loop l' (components ++ more)
       | R_comment =>
         loop l' (components ++ [BComment (SpannedComment (span_of field) (as_str src field))])
       | R_any_content =>
         loop l' (components ++ [BString (SpannedString (span_of field) (as_str src field))])
       | r => unexpected_token r
       end
     end) l acc)).
  { induction Hl as [|t l Ht Hl IHl]; intros acc; [reflexivity|]. cbn [map]. inversion IH as [|? ? It IH']. subst. specialize (IHl IH').
    rewrite rule_move. destruct (t_rule t); try reflexivity.
    - specialize (IHl (acc ++ [BComment (SpannedComment (span_of t) (as_str src t))])). rewrite map_app in IHl.
      rewrite span_move, (text_move t Ht). exact IHl.
    - specialize (IHl (acc ++ [BString (SpannedString (span_of t) (as_str src t))])). rewrite map_app in IHl.
      rewrite span_move, (text_move t Ht). exact IHl.
    - apply (bind_move (map (move_component g))); [apply It; exact Ht|]. intros x. specialize (IHl (acc ++ x)).
      rewrite map_app in IHl. exact IHl. }
  exact (K []).
Qed.

Lemma breakable_move t : settled t -> parse_any_breakable src' (mt t) = omap (move_breakable g) (parse_any_breakable src t).
Proof.
  intros Ht. unfold parse_any_breakable. apply (bind_move (map (move_component g))); [apply breakable_inner_move; exact Ht|].
  intros x. cbn [omap]. rewrite span_move. reflexivity.
Qed.

Ltac string_field Ht := apply (bind_move (move_string g)); [apply parse_string_move; exact Ht|reflexivity].
Ltac clean_field Ht := apply (bind_move (move_string g)); [apply unquote_clean_move; exact Ht|reflexivity].

Lemma from_flag_move t : settled t -> from_flag_of unq src' (mt t) = omap (move_flag g) (from_flag_of unq src t).
Proof.
  intros Ht. unfold from_flag_of. loop (move2 (move_string g) (move_string g)) t Ht.
  - each; string_field Hu.
  - intros [n v]. cbn [move2]. apply (bind_move (move_string g)); [apply ok_or_move|]. intros n'.
    apply (bind_move (move_string g)); [apply ok_or_move|]. intros v'. cbn [omap]. rewrite span_move. reflexivity.
Qed.

Lemma copy_flag_move t : settled t -> copy_flag_of unq src' (mt t) = omap (move_flag g) (copy_flag_of unq src t).
Proof.
  intros Ht. unfold copy_flag_of. loop (move2 (move_string g) (move_string g)) t Ht.
  - each; string_field Hu.
  - intros [n v]. cbn [move2]. apply (bind_move (move_string g)); [apply ok_or_move|]. intros n'.
    apply (bind_move (move_string g)); [apply ok_or_move|]. intros v'. cbn [omap]. rewrite span_move. reflexivity.
Qed.

Lemma arg_move t : settled t -> arg_of unq src' (mt t) = omap (move_arg g) (arg_of unq src t).
Proof.
  intros Ht. unfold arg_of. loop (move2 (move_string g) (move_string g)) t Ht.
  - each; string_field Hu.
  - intros [n v]. cbn [move2]. apply (bind_move (move_string g)); [apply ok_or_move|]. intros n'.
    cbn [omap]. rewrite span_move. reflexivity.
Qed.

Lemma label_move t : settled t -> label_of unq src' (mt t) = omap (move_label g) (label_of unq src t).
Proof.
  intros Ht. unfold label_of. loop (move2 (move_string g) (move_string g)) t Ht.
  - each; first [string_field Hu|clean_field Hu].
  - intros [n v]. cbn [move2]. apply (bind_move (move_string g)); [apply ok_or_move|]. intros n'.
    apply (bind_move (move_string g)); [apply ok_or_move|]. intros v'. cbn [omap]. rewrite span_move. reflexivity.
Qed.

Lemma label_instruction_move t : settled t -> label_instruction_of unq src' (mt t) =
  omap (fun x => LabelInstruction (move_span g (label_span x)) (map (move_label g) (label_labels x))) (label_instruction_of unq src t).
Proof.
  intros Ht. unfold label_instruction_of. loop (map (move_label g)) t Ht.
  - intros st u Hu. rewrite rule_move. destruct (t_rule u); try reflexivity;
      (apply (bind_move (move_label g)); [apply label_move; exact Hu|]; intros x; cbn [omap]; rewrite map_app; reflexivity).
  - intros x. cbn [omap]. rewrite span_move. reflexivity.
Qed.

Lemma command_move r1 r2 t : settled t -> shell_or_exec_of unq src' r1 r2 (mt t) = omap (move_command g) (shell_or_exec_of unq src r1 r2 t).
Proof.
  intros Ht. unfold shell_or_exec_of. rewrite children_move. apply children_settled in Ht.
  destruct (t_children t) as [|u l]; [reflexivity|]. cbn [map]. inversion Ht as [|? ? Hu _]. subst. rewrite rule_move.
  destruct (rule_eq_dec (t_rule u) r1).
  - apply (bind_move (move_array g)); [apply array_move; exact Hu|reflexivity].
  - destruct (rule_eq_dec (t_rule u) r2); [|reflexivity].
    apply (bind_move (move_breakable g)); [apply breakable_move; exact Hu|reflexivity].
Qed.

Lemma pop_map {A C} (f : A -> C) l : pop (map f l) = option_map (fun '(a, b) => (map f a, f b)) (pop l).
Proof.
  induction l as [|x l IH]; [reflexivity|]. cbn [map pop]. rewrite IH. destruct (pop l) as [[a b]|]; reflexivity.
Qed.

Lemma copy_move t : settled t -> copy_of unq src' (mt t) =
  omap (fun x => CopyInstruction (move_span g (copy_span x)) (map (move_flag g) (copy_flags x))
      (map (move_string g) (copy_sources x)) (move_string g (copy_destination x))) (copy_of unq src t).
Proof.
  intros Ht. unfold copy_of. loop (fun '(a, b) => (map (move_flag g) a, map (move_string g) b)) t Ht.
  - each.
    + apply (bind_move (move_flag g)); [apply copy_flag_move; exact Hu|]. intros x. cbn [omap]. rewrite map_app. reflexivity.
    + apply (bind_move (move_string g)); [apply parse_string_move; exact Hu|]. intros x. cbn [omap]. rewrite map_app. reflexivity.
  - intros [fl ps]. rewrite map_length, pop_map. destruct (length ps <? 2); [reflexivity|].
    destruct (pop ps) as [[a b]|]; [|reflexivity]. cbn [option_map omap]. rewrite span_move. reflexivity.
Qed.

Lemma field_move t v : breakable_of_field (mt t) v = move_breakable g (breakable_of_field t v).
Proof. unfold breakable_of_field. rewrite span_move. reflexivity. Qed.

Lemma env_pair_move t : settled t -> env_pair_of unq src' (mt t) = omap (move_env g) (env_pair_of unq src t).
Proof.
  intros Ht. unfold env_pair_of. loop (move2 (move_string g) (move_breakable g)) t Ht.
  - each; [string_field Hu| |].
    + cbn [move2 omap option_map]. rewrite field_move, (text_move u Hu). reflexivity.
    + apply (bind_move (fun x => x)); [rewrite (text_move u Hu); unfold unquote; destruct (unq _); reflexivity|].
      intros x. cbn [move2 omap option_map]. rewrite field_move. reflexivity.
  - intros [n v]. cbn [move2]. apply (bind_move (move_string g)); [apply ok_or_move|]. intros n'.
    apply (bind_move (move_breakable g)); [apply ok_or_move|]. intros v'. cbn [omap]. rewrite span_move. reflexivity.
Qed.

Notation move_env_instruction := (fun x => EnvInstruction (move_span g (env_span x)) (map (move_env g) (env_vars x))).

Lemma env_pairs_move sp t : settled t -> env_pairs_of unq src' (move_span g sp) (mt t) =
  omap move_env_instruction (env_pairs_of unq src sp t).
Proof.
  intros Ht. unfold env_pairs_of. loop (map (move_env g)) t Ht.
  - intros st u Hu. rewrite rule_move. destruct (t_rule u); try reflexivity.
    apply (bind_move (move_env g)); [apply env_pair_move; exact Hu|]; intros x; cbn [omap]; rewrite map_app; reflexivity.
  - intros x. reflexivity.
Qed.

Lemma env_single_move sp t : settled t -> env_single_of unq src' (move_span g sp) (mt t) =
  omap move_env_instruction (env_single_of unq src sp t).
Proof.
  intros Ht. unfold env_single_of. loop (move2 (move_string g) (move_breakable g)) t Ht.
  - each.
    + string_field Hu.
    + apply (bind_move (fun x => x)); [rewrite (text_move u Hu); unfold unquote; destruct (unq _); reflexivity|].
      intros x. cbn [move2 omap option_map]. rewrite field_move. reflexivity.
    + apply (bind_move (move_breakable g)); [apply breakable_move; exact Hu|reflexivity].
  - intros [n v]. cbn [move2]. apply (bind_move (move_string g)); [apply ok_or_move|]. intros n'.
    apply (bind_move (move_breakable g)); [apply ok_or_move|]. intros v'. reflexivity.
Qed.

Lemma env_move t : settled t -> env_of unq src' (mt t) = omap move_env_instruction (env_of unq src t).
Proof.
  intros Ht. unfold env_of. rewrite children_move, span_move. apply children_settled in Ht.
  destruct (t_children t) as [|u l]; [reflexivity|]. cbn [map]. inversion Ht as [|? ? Hu _]. subst. rewrite rule_move.
  destruct (t_rule u); try reflexivity; [apply env_pairs_move; exact Hu|apply env_single_move; exact Hu].
Qed.

Lemma misc_move t : settled t -> misc_of unq src' (mt t) =
  omap (fun x => MiscInstruction (move_span g (misc_span x)) (move_string g (misc_name x)) (move_breakable g (misc_arguments x)))
    (misc_of unq src t).
Proof.
  intros Ht. unfold misc_of. loop (move2 (move_string g) (move_breakable g)) t Ht.
  - each; [string_field Hu|]. apply (bind_move (move_breakable g)); [apply breakable_move; exact Hu|reflexivity].
  - intros [n v]. cbn [move2]. apply (bind_move (move_string g)); [apply ok_or_move|]. intros n'.
    apply (bind_move (move_breakable g)); [apply ok_or_move|]. intros v'. cbn [omap]. rewrite span_move. reflexivity.
Qed.

(** ** FROM, of which the image may have another text *)

Definition from_fields : Type := (option tree * option tree * list flag)%type.
Definition move_fields : from_fields -> from_fields := fun '(i, a, l) => (option_map mt i, option_map mt a, map (move_flag g) l).

Definition from_loop (s : bytes) : from_fields -> tree -> outcome from_fields := fun '(image_field, alias_field, flags) field =>
    match t_rule field with
    | R_from_flag => x <- from_flag_of unq s field;; Ok (image_field, alias_field, flags ++ [x])
    | R_from_image => Ok (Some field, alias_field, flags)
    | R_from_alias => Ok (image_field, Some field, flags)
    | R_comment => Ok (image_field, alias_field, flags)
    | r => unexpected_token r
    end.

Lemma from_loop_move st t : settled t \/ t_rule t = R_from_image ->
  from_loop src' (move_fields st) (mt t) = omap move_fields (from_loop src st t).
Proof.
  destruct st as [[i a] l]. intros H. unfold from_loop. cbn [move_fields]. rewrite rule_move.
  destruct (t_rule t); try reflexivity.
  apply (bind_move (move_flag g)); [apply from_flag_move; destruct H; [assumption|discriminate]|].
  intros x. cbn [omap move_fields]. rewrite map_app. reflexivity.
Qed.

Lemma from_fields_move l : Forall (fun t => settled t \/ t_rule t = R_from_image) l -> forall st,
  for_each (from_loop src') (map mt l) (move_fields st) = omap move_fields (for_each (from_loop src) l st).
Proof.
  induction 1 as [|t l Ht Hl IH]; intros st; [reflexivity|]. cbn [map for_each].
  apply (bind_move move_fields); [apply from_loop_move; exact Ht|]. exact IH.
Qed.

(** Fields that the loop does not change *)
Lemma loop_image s l : Forall (fun t => t_rule t <> R_from_image) l -> forall i a fl i' a' fl',
  for_each (from_loop s) l (i, a, fl) = Ok (i', a', fl') -> i' = i.
Proof.
  induction 1 as [|t l Ht Hl IH]; intros i a fl i' a' fl' H; cbn [for_each] in H; [congruence|].
  unfold from_loop in H at 1. destruct (t_rule t); try discriminate; try contradiction; cbn [bind] in H; try (apply IH in H; exact H).
  destruct (from_flag_of unq s t); try discriminate. cbn [bind] in H. apply IH in H. exact H.
Qed.

Lemma loop_alias s l : forall i a fl i' a' fl',
  for_each (from_loop s) l (i, a, fl) = Ok (i', a', fl') -> match a' with Some t => In t l \/ a = Some t | None => True end.
Proof.
  induction l as [|t l IH]; intros i a fl i' a' fl' H; cbn [for_each] in H.
  - injection H as <- <- <-. destruct a; auto.
  - unfold from_loop in H at 1. destruct (t_rule t) eqn:Er; try discriminate; cbn [bind] in H;
      try (apply IH in H; destruct a' as [u|]; [|exact I]; cbn [In]; tauto).
    + destruct (from_flag_of unq s t); try discriminate. cbn [bind] in H. apply IH in H. destruct a' as [u|]; [|exact I]; cbn [In]; tauto.
    + apply IH in H. destruct a' as [u|]; [|exact I]. cbn [In]. destruct H as [H|H]; [tauto|]. injection H as <-. tauto.
Qed.

Lemma loop_alias_rule s l : forall i a fl i' a' fl', match a with Some t => t_rule t = R_from_alias | None => True end ->
  for_each (from_loop s) l (i, a, fl) = Ok (i', a', fl') -> match a' with Some t => t_rule t = R_from_alias | None => True end.
Proof.
  induction l as [|t l IH]; intros i a fl i' a' fl' Ha H; cbn [for_each] in H.
  - injection H as <- <- <-. exact Ha.
  - unfold from_loop in H at 1. destruct (t_rule t) eqn:Er; try discriminate; cbn [bind] in H;
      try (eapply IH in H; [exact H|exact Ha]).
    + destruct (from_flag_of unq s t); try discriminate. cbn [bind] in H. eapply IH in H; [exact H|exact Ha].
    + eapply IH in H; [exact H|exact Er].
Qed.

(** The FROM with a new image *)
Lemma from_move r p q c1 img c2 n f : Forall settled c1 -> Forall settled c2 ->
  t_rule img = R_from_image -> Forall (fun t => t_rule t <> R_from_image) c2 ->
  from_of unq src (Node r p q (c1 ++ img :: c2)) n = Ok f ->
  forall text ref, ref = image_parse text -> as_str src' (mt img) = text -> starts_quoted text = false ->
  (forall h, i_hash ref = Some h -> digest_ok h = true) ->
  from_of unq src' (mt (Node r p q (c1 ++ img :: c2))) n = Ok (with_image (move_from g f) text ref).
Proof.
  intros H1 H2 Hr Hr2 H text ref Eref Et Hq Hd.
  change (('(image_field, alias_field, flags) <- for_each (from_loop src) (c1 ++ img :: c2) (None, None, []);;
    image <- match image_field with Some f => parse_string unq src f | None => generic "missing from image" end;;
    let image_parsed := image_parse (ss_content image) in
    _ <- match i_hash image_parsed with
         | Some hash => if digest_ok hash then Ok tt else generic "image reference digest is invalid"
         | None => Ok tt
         end;;
    alias <- match alias_field with Some f => x <- parse_string unq src f;; Ok (Some x) | None => Ok None end;;
    Ok (FromInstruction (Span p q) flags image image_parsed n alias)) = Ok f) in H.
  change (('(image_field, alias_field, flags) <- for_each (from_loop src') (map mt (c1 ++ img :: c2)) (move_fields (None, None, []));;
    image <- match image_field with Some f => parse_string unq src' f | None => generic "missing from image" end;;
    let image_parsed := image_parse (ss_content image) in
    _ <- match i_hash image_parsed with
         | Some hash => if digest_ok hash then Ok tt else generic "image reference digest is invalid"
         | None => Ok tt
         end;;
    alias <- match alias_field with Some f => x <- parse_string unq src' f;; Ok (Some x) | None => Ok None end;;
    Ok (FromInstruction (Span (g p) (g q)) flags image image_parsed n alias)) = Ok (with_image (move_from g f) text ref)).
  assert (Hall : Forall (fun t => settled t \/ t_rule t = R_from_image) (c1 ++ img :: c2)).
  { apply Forall_app. split; [eapply Forall_impl; [|exact H1]; tauto|]. constructor; [tauto|]. eapply Forall_impl; [|exact H2]; tauto. }
  rewrite (from_fields_move _ Hall).
  destruct (for_each (from_loop src) (c1 ++ img :: c2) (None, None, [])) as [[[i a] fl]|e| |] eqn:El; try discriminate.
  cbn [omap bind move_fields] in *.
  assert (Ei : i = Some img).
  { rewrite for_each_app in El. destruct (for_each (from_loop src) c1 (None, None, [])) as [[[i1 a1] fl1]|e| |]; try discriminate.
    cbn [bind for_each] in El. unfold from_loop in El at 1. rewrite Hr in El. cbn [bind] in El.
    apply (loop_image _ _ Hr2) in El. exact El. }
  subst i. cbn [option_map].
  assert (Ea : match a with Some t => settled t | None => True end).
  { pose proof (loop_alias _ _ _ _ _ _ _ _ El) as Ha. pose proof (loop_alias_rule src _ None None [] _ _ _ I El) as Har.
    destruct a as [t|]; [|exact I]. destruct Ha as [Ha|Ha]; [|discriminate]. rewrite Forall_forall in Hall.
    destruct (Hall t Ha) as [K|K]; [exact K|congruence]. }
  unfold parse_string at 1. rewrite Et, Hq. cbn [bind ss_content ss_span].
  destruct (parse_string unq src img) as [im|e| |] eqn:Ep; try discriminate. cbn [bind] in H.
  assert (Esp : ss_span im = span_of img).
  { unfold parse_string in Ep. destruct (if starts_quoted (as_str src img) then _ else _); try discriminate. cbn [bind] in Ep.
    injection Ep as <-. reflexivity. }
  rewrite <- Eref.
  assert (E3 : match i_hash ref with Some hash => if digest_ok hash then Ok tt else generic "image reference digest is invalid" | None => Ok tt end = Ok tt).
  { destruct (i_hash ref) as [h|]; [|reflexivity]. rewrite (Hd h eq_refl). reflexivity. }
  rewrite E3. cbn [bind].
  destruct (match i_hash (image_parse (ss_content im)) with Some hash => _ | None => _ end); try discriminate. cbn [bind] in H.
  assert (E4 : match option_map mt a with Some f => x <- parse_string unq src' f;; Ok (Some x) | None => Ok None end =
    omap (option_map (move_string g)) (match a with Some f => x <- parse_string unq src f;; Ok (Some x) | None => Ok None end)).
  { destruct a as [t|]; [|reflexivity]. cbn [option_map]. apply (bind_move (move_string g)); [apply parse_string_move; exact Ea|reflexivity]. }
  rewrite E4. destruct (match a with Some f => _ | None => _ end) as [al|e| |]; try discriminate. cbn [bind omap] in *.
  injection H as <-. unfold with_image, move_from. cbn. rewrite span_move, <- Esp. reflexivity.
Qed.

(** A FROM that stays as it is *)
Lemma loop_image_in s l : forall i a fl i' a' fl',
  for_each (from_loop s) l (i, a, fl) = Ok (i', a', fl') -> match i' with Some t => In t l \/ i = Some t | None => True end.
Proof.
  induction l as [|t l IH]; intros i a fl i' a' fl' H; cbn [for_each] in H.
  - injection H as <- <- <-. destruct i; auto.
  - unfold from_loop in H at 1. destruct (t_rule t) eqn:Er; try discriminate; cbn [bind] in H;
      try (apply IH in H; destruct i' as [u|]; [|exact I]; cbn [In]; tauto).
    + destruct (from_flag_of unq s t); try discriminate. cbn [bind] in H. apply IH in H. destruct i' as [u|]; [|exact I]; cbn [In]; tauto.
    + apply IH in H. destruct i' as [u|]; [|exact I]. cbn [In]. destruct H as [H|H]; [tauto|]. injection H as <-. tauto.
Qed.

Lemma from_same_move t n : settled t -> from_of unq src' (mt t) n = omap (move_from g) (from_of unq src t n).
Proof.
  intros Ht. apply children_settled in Ht. destruct t as [r p q l]. cbn [t_children] in Ht.
  change (('(image_field, alias_field, flags) <- for_each (from_loop src') (map mt l) (move_fields (None, None, []));;
    image <- match image_field with Some f => parse_string unq src' f | None => generic "missing from image" end;;
    let image_parsed := image_parse (ss_content image) in
    _ <- match i_hash image_parsed with
         | Some hash => if digest_ok hash then Ok tt else generic "image reference digest is invalid"
         | None => Ok tt
         end;;
    alias <- match alias_field with Some f => x <- parse_string unq src' f;; Ok (Some x) | None => Ok None end;;
    Ok (FromInstruction (Span (g p) (g q)) flags image image_parsed n alias)) =
    omap (move_from g) ('(image_field, alias_field, flags) <- for_each (from_loop src) l (None, None, []);;
    image <- match image_field with Some f => parse_string unq src f | None => generic "missing from image" end;;
    let image_parsed := image_parse (ss_content image) in
    _ <- match i_hash image_parsed with
         | Some hash => if digest_ok hash then Ok tt else generic "image reference digest is invalid"
         | None => Ok tt
         end;;
    alias <- match alias_field with Some f => x <- parse_string unq src f;; Ok (Some x) | None => Ok None end;;
    Ok (FromInstruction (Span p q) flags image image_parsed n alias))).
  rewrite from_fields_move by (eapply Forall_impl; [|exact Ht]; tauto).
  destruct (for_each (from_loop src) l (None, None, [])) as [[[i a] fl]|e| |] eqn:El; [|reflexivity..].
  cbn [omap bind move_fields]. rewrite Forall_forall in Ht.
  apply (bind_move (move_string g)).
  { pose proof (loop_image_in _ _ _ _ _ _ _ _ El) as K. destruct i as [t|]; [|reflexivity]. cbn [option_map].
    apply parse_string_move. destruct K as [K|K]; [apply Ht; exact K|discriminate]. }
  intros im. cbn [move_string ss_content]. apply (bind_move (fun x => x)).
  { destruct (i_hash _); [destruct (digest_ok _)|]; reflexivity. }
  intros _. apply (bind_move (option_map (move_string g))); [|reflexivity].
  pose proof (loop_alias _ _ _ _ _ _ _ _ El) as K. destruct a as [t|]; [|reflexivity]. cbn [option_map].
  apply (bind_move (move_string g)); [|reflexivity].
  apply parse_string_move. destruct K as [K|K]; [apply Ht; exact K|discriminate].
Qed.

Theorem instruction_move t : settled t -> instruction_of unq src' (mt t) = omap (move_instruction g) (instruction_of unq src t).
Proof.
  intros Ht. unfold instruction_of. rewrite rule_move. destruct (t_rule t); try reflexivity.
  - apply (bind_move (move_from g)); [apply from_same_move; exact Ht|reflexivity].
  - apply (bind_move (move_arg g)); [apply arg_move; exact Ht|reflexivity].
  - eapply bind_move; [apply label_instruction_move; exact Ht|reflexivity].
  - unfold run_of. eapply (bind_move (fun x => RunInstruction (move_span g (run_span x)) (move_command g (run_expr x)))); [|reflexivity].
    apply (bind_move (move_command g)); [apply command_move; exact Ht|]. intros x. cbn [omap]. rewrite span_move. reflexivity.
  - unfold entrypoint_of. eapply (bind_move (fun x => EntrypointInstruction (move_span g (entrypoint_span x)) (move_command g (entrypoint_expr x)))); [|reflexivity].
    apply (bind_move (move_command g)); [apply command_move; exact Ht|]. intros x. cbn [omap]. rewrite span_move. reflexivity.
  - unfold cmd_of. eapply (bind_move (fun x => CmdInstruction (move_span g (cmd_span x)) (move_command g (cmd_expr x)))); [|reflexivity].
    apply (bind_move (move_command g)); [apply command_move; exact Ht|]. intros x. cbn [omap]. rewrite span_move. reflexivity.
  - eapply bind_move; [apply copy_move; exact Ht|reflexivity].
  - eapply bind_move; [apply env_move; exact Ht|reflexivity].
  - eapply bind_move; [apply misc_move; exact Ht|reflexivity].
Qed.

(** ** The loop over the document *)

Definition move_state (st : doc_state) : doc_state :=
  DocState (map (move_instruction g) (ds_instructions st)) (map (move_arg g) (ds_global_args st)) (ds_from_found st) (ds_from_index st).

Lemma doc_step_move st t : settled t -> doc_step unq src' (move_state st) (mt t) = omap move_state (doc_step unq src st t).
Proof.
  intros Ht. unfold doc_step. rewrite rule_move.
  assert (K : (instruction <- instruction_of unq src' (mt t);;
    match instruction with
    | IFrom f =>
      Ok (DocState (ds_instructions (move_state st) ++ [IFrom (set_index f (ds_from_index (move_state st)))])
                   (ds_global_args (move_state st)) true (S (ds_from_index (move_state st))))
    | IArg a =>
      Ok (DocState (ds_instructions (move_state st) ++ [IArg a])
                   (if ds_from_found (move_state st) then ds_global_args (move_state st) else ds_global_args (move_state st) ++ [a])
                   (ds_from_found (move_state st)) (ds_from_index (move_state st)))
    | i =>
      Ok (DocState (ds_instructions (move_state st) ++ [i])
                   (ds_global_args (move_state st)) (ds_from_found (move_state st)) (ds_from_index (move_state st)))
    end) = omap move_state (instruction <- instruction_of unq src t;;
    match instruction with
    | IFrom f =>
      Ok (DocState (ds_instructions st ++ [IFrom (set_index f (ds_from_index st))])
                   (ds_global_args st) true (S (ds_from_index st)))
    | IArg a =>
      Ok (DocState (ds_instructions st ++ [IArg a])
                   (if ds_from_found st then ds_global_args st else ds_global_args st ++ [a])
                   (ds_from_found st) (ds_from_index st))
    | i =>
      Ok (DocState (ds_instructions st ++ [i])
                   (ds_global_args st) (ds_from_found st) (ds_from_index st))
    end)).
  { apply (bind_move (move_instruction g)); [apply instruction_move; exact Ht|]. intros i.
    destruct st as [l ga ff n]. destruct i; cbn [move_instruction omap move_state ds_instructions ds_global_args ds_from_found ds_from_index];
      unfold move_state; cbn [ds_instructions ds_global_args ds_from_found ds_from_index]; rewrite ?map_app; try reflexivity.
    destruct ff; rewrite ?map_app; reflexivity. }
  destruct (t_rule t); try exact K; reflexivity.
Qed.

Lemma doc_steps_move l : Forall settled l -> forall st,
  for_each (doc_step unq src') (map mt l) (move_state st) = omap move_state (for_each (doc_step unq src) l st).
Proof.
  induction 1 as [|t l Ht Hl IH]; intros st; [reflexivity|]. cbn [map for_each].
  apply (bind_move move_state); [apply doc_step_move; exact Ht|]. exact IH.
Qed.

End ConvertMove.
