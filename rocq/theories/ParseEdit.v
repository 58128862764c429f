(** Parsing an edited document. *)

From Coq Require Import String.
From Verif Require Import Bytes BytesFacts Ast SpecImage SpecSyntax SpecClear SpecDoc SpecMove MoveFacts Result Splicer
  SpecSplice SplicerFacts Dockerfile DocFacts Forward Forward5 EditFacts SpecParts PartsFacts ParseFacts.
Local Open Scope nat_scope.

(** ** Moving twice *)

Lemma move_instruction_comp g h i : move_instruction g (move_instruction h i) = move_instruction (fun x => g (h x)) i.
Proof.
  assert (S : forall x, move_string g (move_string h x) = move_string (fun x => g (h x)) x) by reflexivity.
  assert (SL : forall l, map (move_string g) (map (move_string h) l) = map (move_string (fun x => g (h x))) l)
    by (intros l; rewrite map_map; apply map_ext; exact S).
  assert (FL : forall l, map (move_flag g) (map (move_flag h) l) = map (move_flag (fun x => g (h x))) l)
    by (intros l; rewrite map_map; apply map_ext; reflexivity).
  assert (B : forall x, move_breakable g (move_breakable h x) = move_breakable (fun x => g (h x)) x).
  { intros [sp l]. unfold move_breakable. cbn [br_span br_components]. f_equal. rewrite map_map. apply map_ext.
    intros []; reflexivity. }
  assert (C : forall x, move_command g (move_command h x) = move_command (fun x => g (h x)) x).
  { intros [x|[sp l]]; cbn [move_command]; [f_equal; apply B|]. unfold move_array. cbn [sa_span sa_elements].
    f_equal. f_equal. apply SL. }
  destruct i as [x|x|x|x|x|x|x|x|x]; cbn [move_instruction]; f_equal.
  - unfold move_from. cbn. rewrite FL. f_equal. destruct (from_alias x); reflexivity.
  - unfold move_arg. cbn. f_equal. destruct (arg_value x); reflexivity.
  - cbn. f_equal. rewrite map_map. apply map_ext. reflexivity.
  - cbn. f_equal. apply C.
  - cbn. f_equal. apply C.
  - cbn. f_equal. apply C.
  - cbn. rewrite FL, SL. reflexivity.
  - cbn. f_equal. rewrite map_map. apply map_ext. intros y. unfold move_env. cbn. f_equal. apply B.
  - cbn. f_equal. apply B.
Qed.

(** ** Numbers of FROM instructions *)

Lemma numbered_twice n m l : numbered n (numbered m l) = numbered n l.
Proof. revert n m. induction l as [|i l IH]; intros n m; [reflexivity|]. destruct i; cbn; rewrite IH; reflexivity. Qed.

Definition index_of (i : instruction) : option nat := match i with IFrom f => Some (from_index f) | _ => None end.
Lemma numbered_fixed F l n : (forall i, index_of (F i) = index_of i) -> numbered n l = l -> numbered n (map F l) = map F l.
Proof.
  intros HF. revert n. induction l as [|i l IH]; intros n H; [reflexivity|]. pose proof (HF i) as Hi.
  cbn [map]. destruct i as [f|x|x|x|x|x|x|x|x]; cbn [index_of] in Hi; cbn [numbered] in H.
  - injection H as H1 H2. destruct (F (IFrom f)) as [f'| | | | | | | |]; try discriminate. cbn [index_of] in Hi. injection Hi as Hi.
    cbn [numbered]. rewrite (IH (S n) H2). f_equal. rewrite <- H1 in Hi. cbn in Hi. destruct f'. cbn in *. subst. reflexivity.
  - injection H as H2. match goal with |- context [F ?x] => destruct (F x) end; try discriminate; cbn [numbered]; rewrite (IH n H2); reflexivity.
  - injection H as H2. match goal with |- context [F ?x] => destruct (F x) end; try discriminate; cbn [numbered]; rewrite (IH n H2); reflexivity.
  - injection H as H2. match goal with |- context [F ?x] => destruct (F x) end; try discriminate; cbn [numbered]; rewrite (IH n H2); reflexivity.
  - injection H as H2. match goal with |- context [F ?x] => destruct (F x) end; try discriminate; cbn [numbered]; rewrite (IH n H2); reflexivity.
  - injection H as H2. match goal with |- context [F ?x] => destruct (F x) end; try discriminate; cbn [numbered]; rewrite (IH n H2); reflexivity.
  - injection H as H2. match goal with |- context [F ?x] => destruct (F x) end; try discriminate; cbn [numbered]; rewrite (IH n H2); reflexivity.
  - injection H as H2. match goal with |- context [F ?x] => destruct (F x) end; try discriminate; cbn [numbered]; rewrite (IH n H2); reflexivity.
  - injection H as H2. match goal with |- context [F ?x] => destruct (F x) end; try discriminate; cbn [numbered]; rewrite (IH n H2); reflexivity.
Qed.

Section Edit.
Variable unq : bytes -> option bytes.

Lemma line_numbered n p w l : clear_line_at unq p w l -> clear_line_at unq p w (numbered n l).
Proof.
  intros H. destruct H as [p b Hb|p b t Hb Ht|p b w b2 i Hb Hi Hb2|p b w i Hb Hi].
  - constructor; assumption.
  - constructor; assumption.
  - destruct i; constructor; try assumption; exact Hi.
  - destruct i; apply clear_open; assumption.
Qed.
Lemma document_numbered p w l : clear_document_at unq p w l -> forall n, clear_document_at unq p w (numbered n l).
Proof.
  induction 1 as [p w l H|p w nl w2 l l' H Hn Hd IH]; intros n.
  - constructor. apply line_numbered. exact H.
  - rewrite numbered_app. apply clear_more; [apply line_numbered; exact H|exact Hn|apply IH].
Qed.

(** A document that is written clearly is so with the instructions that are read. *)
Lemma parse_clear input : clearly_written unq input -> exists d, parse unq input = Ok d /\ d_content d = input /\
  clear_document unq input (d_instructions d) /\ numbered 0 (d_instructions d) = d_instructions d.
Proof.
  intros [Hv [l H]]. destruct (parse_complete unq input l Hv H) as (d & E & Ec & El). exists d.
  split; [exact E|]. split; [exact Ec|]. rewrite El. split; [apply document_numbered; exact H|apply numbered_twice].
Qed.

(** Global arguments *)
Lemma before_map f l pre : (forall i, is_from_b (f i) = is_from_b i) -> before_first_from l pre ->
  before_first_from (map f l) (map f pre).
Proof.
  intros Hf (post & -> & Hp & Hq). exists (map f post). rewrite map_app. split; [reflexivity|].
  split; [apply Forall_map; eapply Forall_impl; [|exact Hp]; cbn; intros; congruence|].
  destruct post; cbn; [exact I|]. congruence.
Qed.

(** Nothing but a FROM changes into a FROM, and an ARG only moves. *)
Definition only_moves (g : nat -> nat) (f : instruction -> instruction) : Prop :=
  forall i, is_from_b (f i) = is_from_b i /\
    (match i with IArg a => f i = IArg (move_arg g a) | _ => match f i with IArg _ => False | _ => True end end).

Lemma args_map g f l : only_moves g f -> args_among (map f l) = map (move_arg g) (args_among l).
Proof.
  intros Hf. unfold args_among. induction l as [|i l IH]; [reflexivity|]. cbn [map flat_map]. rewrite IH, map_app. f_equal.
  destruct (Hf i) as [_ K]. destruct i; cbn; try rewrite K; try reflexivity; destruct (f _); try reflexivity; contradiction.
Qed.

Lemma global_args_map input input' d d' g f : only_moves g f -> parse unq input = Ok d -> parse unq input' = Ok d' ->
  d_instructions d' = map f (d_instructions d) -> d_global_args d' = map (move_arg g) (d_global_args d).
Proof.
  intros Hf E E' El. destruct (parse_global_args _ _ _ E) as (pre & Hp & ->). destruct (parse_global_args _ _ _ E') as (pre' & Hp' & ->).
  rewrite El in Hp'. apply (before_map f) in Hp; [|intros i; apply Hf].
  rewrite (before_first_from_fun _ _ _ Hp' Hp). apply args_map. exact Hf.
Qed.

Lemma move_only_moves g : only_moves g (move_instruction g).
Proof. intros i. split; destruct i; try exact I; reflexivity. Qed.
Lemma with_new_image_only choose g : only_moves g (with_new_image choose g).
Proof.
  intros i. split; destruct i as [f| | | | | | | |]; try exact I; try reflexivity; cbn;
    destruct (choose f) as [[t r]|]; try exact I; reflexivity.
Qed.

Lemma map_dockerfile input input' d d' g : parse unq input = Ok d -> parse unq input' = Ok d' ->
  d_instructions d' = map (move_instruction g) (d_instructions d) -> d' = move_dockerfile g input' d.
Proof.
  intros E E' El. pose proof (global_args_map _ _ _ _ _ _ (move_only_moves g) E E' El) as Ea.
  pose proof (parse_content _ _ _ E') as Ec. destruct d' as [c a l]. cbn in *. subst. reflexivity.
Qed.

(** ** Lines between instructions *)

Lemma valid_lines pre post : valid_utf8 (pre ++ post) = true -> ends_line pre -> valid_utf8 pre = true.
Proof.
  intros Hv [->|(t & c & -> & Hc)]; [reflexivity|]. rewrite <- app_assoc in Hv. cbn [app] in Hv.
  assert (Hasc : (c < 128)%N) by (unfold is_newline_byte in Hc; apply orb_true_iff in Hc; rewrite !N.eqb_eq in Hc; destruct Hc; subst; reflexivity).
  assert (Ht : valid_utf8 t = true).
  { apply (valid_utf8_cut _ Hv t (c :: post) eq_refl). unfold is_newline_byte in Hc. apply orb_true_iff in Hc.
    rewrite !N.eqb_eq in Hc. destruct Hc; subst; reflexivity. }
  rewrite valid_utf8_app by exact Ht. rewrite valid_utf8_cons_ascii by exact Hasc. reflexivity.
Qed.

Lemma insert_lines pre post k extra d : clearly_written unq (pre ++ post) -> ends_line pre -> skipped_lines k extra ->
  parse unq (pre ++ post) = Ok d -> (forall i, In i (d_instructions d) -> outside (length pre) i) ->
  parse unq (pre ++ extra ++ post) =
    Ok (move_dockerfile (insertion (length pre) (length extra)) (pre ++ extra ++ post) d) /\
  clearly_written unq (pre ++ extra ++ post).
Proof.
  intros Hc He Hk E Ho. destruct (parse_clear _ Hc) as (d0 & E0 & _ & Hd & Hn).
  assert (d0 = d) by congruence. subst d0. clear E0.
  destruct (document_split unq 0 _ _ Hd pre post eq_refl He Ho) as (l1 & l2 & El & Hp & Hk2). cbn [Nat.add] in *.
  set (g := insertion (length pre) (length extra)).
  assert (K : clear_document unq (pre ++ extra ++ post) (map (move_instruction g) (d_instructions d))).
  { rewrite El, map_app. destruct (Hk2 (extra ++ post) (map (move_instruction g) l2)) as [_ K].
    - apply (document_skipped unq k extra Hk).
      assert (Eg : g (length pre) = length pre + length extra) by (unfold g, insertion; rewrite Nat.ltb_irrefl; reflexivity).
      rewrite <- Eg. apply document_move; [exact Hp|]. apply insertion_after. lia.
    - apply K. intros q Hq. unfold g, insertion. destruct (Nat.ltb_spec q (length pre)); [reflexivity|lia]. }
  assert (Hv : valid_utf8 (pre ++ extra ++ post) = true).
  { destruct Hc as [Hv _]. pose proof (valid_lines _ _ Hv He) as Hpre. rewrite valid_utf8_app in * by exact Hpre.
    rewrite (valid_skipped k) by exact Hk. exact Hv. }
  assert (Hc' : clearly_written unq (pre ++ extra ++ post)) by (split; [exact Hv|eauto]).
  destruct (parse_complete unq _ _ Hv K) as (d' & E' & _ & El').
  split; [|exact Hc']. rewrite E'. f_equal. apply (map_dockerfile (pre ++ post)); [exact E|exact E'|].
  rewrite El', numbered_move, Hn. reflexivity.
Qed.

Lemma remove_lines pre post k extra d : clearly_written unq (pre ++ extra ++ post) -> ends_line pre -> skipped_lines k extra ->
  parse unq (pre ++ extra ++ post) = Ok d -> (forall i, In i (d_instructions d) -> outside (length pre) i) ->
  parse unq (pre ++ post) = Ok (move_dockerfile (deletion (length pre) (length extra)) (pre ++ post) d) /\
  clearly_written unq (pre ++ post).
Proof.
  intros Hc He Hk E Ho. destruct (parse_clear _ Hc) as (d0 & E0 & _ & Hd & Hn).
  assert (d0 = d) by congruence. subst d0. clear E0.
  destruct (document_split unq 0 _ _ Hd pre (extra ++ post) eq_refl He Ho) as (l1 & l2 & El & Hp & Hk2). cbn [Nat.add] in *.
  apply (document_unskipped unq k extra Hk) in Hp.
  set (g := deletion (length pre) (length extra)).
  assert (K : clear_document unq (pre ++ post) (map (move_instruction g) (d_instructions d))).
  { rewrite El, map_app. destruct (Hk2 post (map (move_instruction g) l2)) as [_ K].
    - assert (Eg : g (length pre + length extra) = length pre).
      { unfold g, deletion. destruct (Nat.ltb_spec (length pre + length extra) (length pre)); lia. }
      rewrite <- Eg at 1. apply document_move; [exact Hp|]. intros q H1 H2. rewrite Eg. unfold g, deletion.
      destruct (Nat.ltb_spec q (length pre)); lia.
    - apply K. intros q Hq. unfold g, deletion. destruct (Nat.ltb_spec q (length pre)); [reflexivity|lia]. }
  assert (Hv : valid_utf8 (pre ++ post) = true).
  { destruct Hc as [Hv _]. pose proof (valid_lines _ _ Hv He) as Hpre. rewrite valid_utf8_app in * by exact Hpre.
    rewrite (valid_skipped k) in Hv by exact Hk. exact Hv. }
  assert (Hc' : clearly_written unq (pre ++ post)) by (split; [exact Hv|eauto]).
  destruct (parse_complete unq _ _ Hv K) as (d' & E' & _ & El').
  split; [|exact Hc']. rewrite E'. f_equal. apply (map_dockerfile (pre ++ extra ++ post)); [exact E|exact E'|].
  rewrite El', numbered_move, Hn. reflexivity.
Qed.

(** ** One document after another *)

Lemma document_after p a l n q b l2 : clear_document_at unq p a l -> newline n -> clear_document_at unq q b l2 ->
  q = p + length a + length n -> clear_document_at unq p (a ++ n ++ b) (l ++ l2).
Proof.
  intros Ha Hn Hb. induction Ha as [p w l H|p w nl w2 l l' H Hnl Hd IH]; intros E.
  - subst q. apply clear_more; assumption.
  - rewrite <- !app_assoc. apply clear_more; [exact H|exact Hnl|]. apply IH. rewrite !app_length in E. lia.
Qed.

Lemma numbered_later n m k l : numbered (m + n) (map (move_instruction (fun x => k + x)) l) =
  map (later k m) (numbered n l).
Proof.
  revert n. induction l as [|i l IH]; intros n; [reflexivity|].
  destruct i; cbn [map move_instruction numbered]; [|rewrite IH; reflexivity..].
  f_equal. rewrite <- IH. f_equal. lia.
Qed.

Lemma newline_valid n : newline n -> valid_utf8 n = true.
Proof. intros H. destruct H; reflexivity. Qed.

Lemma join_documents a n b da db : clearly_written unq a -> clearly_written unq b -> newline n ->
  parse unq a = Ok da -> parse unq b = Ok db ->
  clearly_written unq (a ++ n ++ b) /\
  exists d, parse unq (a ++ n ++ b) = Ok d /\ d_content d = a ++ n ++ b /\
    d_instructions d = d_instructions da ++
      map (later (length (a ++ n)) (count_from (d_instructions da))) (d_instructions db).
Proof.
  intros Ha Hb Hn Ea Eb.
  destruct (parse_clear _ Ha) as (d1 & E1 & _ & H1 & N1). assert (d1 = da) by congruence. subst d1.
  destruct (parse_clear _ Hb) as (d2 & E2 & _ & H2 & N2). assert (d2 = db) by congruence. subst d2. clear E1 E2.
  set (g := fun x => length (a ++ n) + x).
  assert (K : clear_document unq (a ++ n ++ b) (d_instructions da ++ map (move_instruction g) (d_instructions db))).
  { eapply document_after; [exact H1|exact Hn|apply (document_move unq g 0); [exact H2|]|].
    - intros q _ _. unfold g. lia.
    - unfold g. rewrite app_length. lia. }
  assert (Hv : valid_utf8 (a ++ n ++ b) = true).
  { rewrite valid_utf8_app by apply Ha. rewrite valid_utf8_app by (apply newline_valid; exact Hn). apply Hb. }
  split; [split; [exact Hv|eauto]|].
  destruct (parse_complete unq _ _ Hv K) as (d & E & Ec & El). exists d. split; [exact E|]. split; [exact Ec|].
  rewrite El, numbered_app, N1. f_equal. rewrite <- N2 at 2. rewrite <- numbered_later. f_equal. lia.
Qed.

Lemma args_later k m l : args_among (map (later k m) l) = map (move_arg (fun x => k + x)) (args_among l).
Proof.
  unfold args_among. induction l as [|i l IH]; [reflexivity|]. cbn [map flat_map]. rewrite IH, map_app. f_equal.
  destruct i; reflexivity.
Qed.
Lemma later_from k m i : is_from_b (later k m i) = is_from_b i.
Proof. destruct i; reflexivity. Qed.

Lemma join_args input ia ib d da db k m : parse unq input = Ok d -> parse unq ia = Ok da -> parse unq ib = Ok db ->
  d_instructions d = d_instructions da ++ map (later k m) (d_instructions db) ->
  d_global_args d = d_global_args da ++
    (if existsb is_from_b (d_instructions da) then [] else map (move_arg (fun x => k + x)) (d_global_args db)).
Proof.
  intros E Ea Eb El. destruct (parse_global_args _ _ _ E) as (pre & Hp & ->).
  destruct (parse_global_args _ _ _ Ea) as (p1 & H1 & ->). destruct (parse_global_args _ _ _ Eb) as (p2 & H2 & ->).
  rewrite El in Hp. destruct (existsb is_from_b (d_instructions da)) eqn:Ef.
  - rewrite app_nil_r. f_equal. apply (before_first_from_fun _ _ _ Hp).
    destruct H1 as (q & Eq & F1 & F2). rewrite Eq. exists (q ++ map (later k m) (d_instructions db)).
    split; [rewrite <- app_assoc; reflexivity|]. split; [exact F1|]. destruct q as [|x q]; [|exact F2].
    exfalso. rewrite Eq, app_nil_r in Ef. apply existsb_exists in Ef. destruct Ef as (x & Hx & Kx).
    rewrite Forall_forall in F1. rewrite (F1 x Hx) in Kx. discriminate.
  - assert (p1 = d_instructions da).
    { destruct H1 as (q & Eq & F1 & F2). destruct q as [|x q]; [rewrite Eq, app_nil_r; reflexivity|].
      exfalso. rewrite Eq, existsb_app in Ef. cbn [existsb] in Ef. rewrite F2 in Ef. apply orb_false_iff in Ef. destruct Ef. discriminate. }
    subst p1. rewrite <- (args_later k m). unfold args_among. rewrite <- flat_map_app. f_equal.
    apply (before_first_from_fun _ _ _ Hp). destruct H1 as (q & _ & _). destruct H2 as (q2 & Eq & F1 & F2). rewrite Eq.
    exists (map (later k m) q2). split; [rewrite map_app, app_assoc; reflexivity|]. split.
    + apply Forall_app. split.
      * apply Forall_forall. intros x Hx. destruct (is_from_b x) eqn:Ex; [|reflexivity]. exfalso.
        assert (existsb is_from_b (d_instructions da) = true) by (apply existsb_exists; eauto). congruence.
      * apply Forall_map. eapply Forall_impl; [|exact F1]. cbn. intros. rewrite later_from. assumption.
    + destruct q2; [exact I|]. cbn [map]. rewrite later_from. exact F2.
Qed.

(** ** Images *)

Lemma in_order_from p q r b : p <= q -> in_order q r b -> in_order p r b.
Proof. intros H. destruct b as [|s b]; [trivial|]. cbn. intros (H1 & H2). split; [lia|exact H2]. Qed.
Lemma in_order_join p q r a b : p <= q -> q <= r -> in_order p q a -> in_order q r b -> in_order p r (a ++ b).
Proof.
  intros Hpq Hqr. revert p Hpq. induction a as [|s a IH]; intros p Hpq Ha Hb.
  - apply (in_order_from p q); assumption.
  - cbn [app in_order] in *. destruct Ha as (H1 & H2 & H3 & H4). split; [exact H1|]. split; [exact H2|]. split; [lia|].
    apply IH; assumption.
Qed.

Lemma move_instruction_id i : move_instruction (fun x => x) i = i.
Proof.
  assert (Sp : forall s, move_span (fun x => x) s = s) by (intros []; reflexivity).
  assert (S : forall x, move_string (fun x => x) x = x) by (intros [[] ]; reflexivity).
  assert (SL : forall l, map (move_string (fun x => x)) l = l)
    by (intros l; rewrite <- map_id; apply map_ext; exact S).
  assert (FL : forall l, map (move_flag (fun x => x)) l = l).
  { intros l. rewrite <- map_id. apply map_ext. intros [sp n v]. unfold move_flag. cbn. rewrite Sp, !S. reflexivity. }
  assert (B : forall x, move_breakable (fun x => x) x = x).
  { intros [sp l]. unfold move_breakable. cbn [br_span br_components]. rewrite Sp. f_equal. rewrite <- map_id. apply map_ext.
    intros [x|[[] ?] ]; cbn; [rewrite S|]; reflexivity. }
  assert (C : forall x, move_command (fun x => x) x = x).
  { intros [x|[sp l]]; cbn [move_command]; [rewrite B; reflexivity|]. unfold move_array. cbn [sa_span sa_elements].
    rewrite Sp, SL. reflexivity. }
  destruct i as [[]|[]|[]|[]|[]|[]|[]|[]|[]]; cbn; rewrite ?Sp, ?S, ?FL, ?SL, ?B, ?C; try reflexivity.
  - unfold move_from. cbn. rewrite Sp, FL, S. destruct from_alias; cbn; rewrite ?S; reflexivity.
  - unfold move_arg. cbn. rewrite Sp, S. destruct arg_value; cbn; rewrite ?S; reflexivity.
  - do 2 f_equal. rewrite <- map_id. apply map_ext. intros []. unfold move_label. cbn. rewrite Sp, !S. reflexivity.
  - do 2 f_equal. rewrite <- map_id. apply map_ext. intros []. unfold move_env. cbn. rewrite Sp, !S, B. reflexivity.
Qed.

Lemma app_same_length (a b c d : bytes) : a ++ b = c ++ d -> length a = length c -> a = c /\ b = d.
Proof.
  revert c. induction a as [|x a IH]; intros [|y c] E L; try discriminate; [auto|]. cbn in *. injection E as -> E.
  destruct (IH c E) as [-> ->]; [lia|]. auto.
Qed.

Section Images.
Variable choose : from_instruction -> option (bytes * image_ref).

Lemma images_in_order p w l : clear_document_at unq p w l -> in_order p (p + length w) (map fst (image_edits choose l)).
Proof.
  assert (L : forall p w l, clear_line_at unq p w l -> in_order p (p + length w) (map fst (image_edits choose l))).
  { clear. intros p w l H. destruct H as [p b Hb|p b t Hb Ht|p b w b2 i Hb Hi Hb2|p b w i Hb Hi]; try exact I.
    - destruct i as [f| | | | | | | |]; try exact I. cbn [image_edits flat_map image_edit app].
      destruct (choose f) as [[t r]|]; [|exact I]. cbn [app map fst in_order].
      destruct (from_replace _ _ _ _ Hi) as (pre & post & -> & Hne & Hsp & _). rewrite Hsp. cbn [at_ s_start s_end].
      rewrite !app_length. destruct (ss_content (from_image f)); [congruence|]. cbn [length]. repeat split; lia.
    - destruct i as [f| | | | | | | |]; try exact I. contradiction. }
  induction 1 as [p w l H|p w n w2 l l' H Hn Hd IH]; [apply L; exact H|].
  unfold image_edits in *. rewrite flat_map_app, map_app. apply (in_order_join p (p + length w)); [lia|rewrite !app_length; lia|apply L; exact H|].
  apply (in_order_from _ (p + length w + length n)); [lia|]. rewrite !app_length.
  replace (p + (length w + (length n + length w2))) with (p + length w + length n + length w2) by lia. exact IH.
Qed.

(** Edits behind a point do not move it. *)
Lemma after_edits_id q edits len : in_order q len (map fst edits) -> forall x, x <= q -> after_edits edits x = x.
Proof.
  revert q. induction edits as [|[[a b] t] edits IH]; intros q H x Hx; [reflexivity|].
  cbn [map fst in_order s_start s_end] in H. destruct H as (H1 & H2 & H3 & H4).
  cbn [after_edits fold_right fst snd s_start s_end]. fold (after_edits edits x). rewrite (IH b H4) by lia.
  apply replacement_id. lia.
Qed.

Lemma move_with_new_image g G i : move_instruction g (with_new_image choose G i) = with_new_image choose (fun x => g (G x)) i.
Proof.
  destruct i as [f|x|x|x|x|x|x|x|x]; try apply move_instruction_comp. cbn [with_new_image].
  pose proof (move_instruction_comp g G (IFrom f)) as K. cbn [move_instruction] in K. injection K as K1 K2.
  destruct (choose f) as [[t r]|]; cbn [move_instruction]; [|f_equal; unfold move_from; cbn; f_equal; assumption].
  f_equal. unfold with_image, move_from. cbn. f_equal; assumption.
Qed.

Lemma starts_from_order q len edits : in_order q len (map fst edits) -> starts_from q edits.
Proof. destruct edits as [|[s t] edits]; cbn; [trivial|]. intros H. apply H. Qed.

Lemma rewrite_images w : forall l2 l1, (forall f t r, In (IFrom f) l2 -> choose f = Some (t, r) -> image_ok t r) ->
  clear_document unq w (l1 ++ l2) ->
  clear_document unq (replaced w 0 (image_edits choose l2))
    (map (move_instruction (after_edits (image_edits choose l2))) l1 ++
     map (with_new_image choose (after_edits (image_edits choose l2))) l2).
Proof.
  induction l2 as [|i l2 IH]; intros l1 Hok H.
  - cbn [image_edits flat_map replaced skipn map app]. rewrite app_nil_r in *.
    rewrite (map_ext _ (fun i => i)); [rewrite map_id; exact H|]. intros i. apply move_instruction_id.
  - pose proof (images_in_order _ _ _ H) as Ho.
    replace (l1 ++ i :: l2) with ((l1 ++ [i]) ++ l2) in H by (rewrite <- app_assoc; reflexivity).
    pose proof H as H0. apply IH in H; [|intros f t r Hf; apply Hok; right; exact Hf]. clear IH. unfold image_edits in *. rewrite flat_map_app, map_app in Ho.
    cbn [flat_map] in *. fold (image_edits choose l2) in *.
    destruct (image_edit choose i) as [|e es] eqn:Ee.
    + cbn [app]. rewrite map_app, <- app_assoc in H. cbn [map app] in H.
      assert (Ei : forall G, with_new_image choose G i = move_instruction G i).
      { intros G. destruct i as [f| | | | | | | |]; try reflexivity. cbn in *. destruct (choose f) as [[t r]|]; [discriminate|reflexivity]. }
      cbn [map]. rewrite Ei. exact H.
    + destruct i as [f| | | | | | | |]; try discriminate. cbn [image_edit] in Ee. destruct (choose f) as [[t r]|] eqn:Ec; [|discriminate].
      injection Ee as <- <-. cbn [app] in *. rewrite map_app, <- app_assoc in H. cbn [map app move_instruction] in H.
      set (G := after_edits (image_edits choose l2)) in *.
      destruct (document_replace unq 0 _ _ H _ _ _ eq_refl) as (pre & post & Ew & Hne & Hsp & Hnew).
      specialize (Hnew t r (Hok f t r (or_introl eq_refl) Ec) _ eq_refl). cbn [Nat.add move_from from_image move_string ss_content ss_span] in *.
      set (img := ss_content (from_image f)) in *.
      (* the spans of the original document *)
      apply in_order_app_r with (q := 0) in Ho; [|intros; lia].
      cbn [map fst in_order] in Ho. destruct Ho as (_ & Ho1 & Ho2 & Ho3).
      assert (Eg : forall x, x <= s_end (ss_span (from_image f)) -> G x = x) by (intros x Hx; apply (after_edits_id _ _ _ Ho3 x Hx)).
      unfold move_span in Hsp. rewrite !Eg in Hsp by lia. destruct (ss_span (from_image f)) as [a b] eqn:Esp.
      cbn [s_start s_end] in *. unfold at_ in Hsp. cbn [Nat.add] in Hsp. injection Hsp as Ea Eb.
      assert (Et : replaced w 0 ((Span a b, t) :: image_edits choose l2) = pre ++ t ++ post).
      { cbn [replaced s_start s_end]. pose proof (starts_from_order _ _ _ Ho3) as Hst.
        rewrite (replaced_split w 0 b) in Ew by (try exact Hst; lia). rewrite (slice_split w 0 a b) in Ew by lia.
        rewrite <- app_assoc in Ew.
        assert (L1 : length (slice w 0 a) = length pre) by (rewrite slice_length; lia).
        destruct (app_same_length _ _ _ _ Ew L1) as [E1 E2].
        assert (L2 : length (slice w a b) = length img) by (rewrite slice_length; lia).
        destruct (app_same_length _ _ _ _ E2 L2) as [_ E3]. rewrite E1, E3. reflexivity. }
      rewrite Et. cbn [map with_new_image]. rewrite Ec.
      rewrite !map_map in Hnew. rewrite (map_ext _ _ (move_instruction_comp _ G)) in Hnew.
      rewrite (map_ext _ _ (move_with_new_image _ G)) in Hnew.
      unfold clear_document. replace (length pre + length img) with b in Hnew by lia. rewrite <- Ea in Hnew.
      pose proof (move_instruction_comp (replacement a b (length t)) G (IFrom f)) as K. cbn [move_instruction] in K.
      injection K as K1 K2.
      match type of Hnew with clear_document_at _ _ _ (_ ++ IFrom ?old :: _) =>
        replace old with (with_image (move_from (fun x => replacement a b (length t) (G x)) f) t r) in Hnew end; [exact Hnew|].
      unfold with_image, move_from. cbn. f_equal; congruence.
Qed.

End Images.
End Edit.
