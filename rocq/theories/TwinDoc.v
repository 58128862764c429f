(** Parsing texts that differ only in the case of letters and in the choice between
    spaces and tabs. *)

From Coq Require Import String.
From Verif Require Import Bytes BytesFacts Grammar Peg PegFacts SpecSyntax PegRules Result Ast Convert Dockerfile SoundDoc Sound
  SpecParts SpecMove Shift ConvertMove ParseEdit Once ConvertSame Twin.
Local Open Scope nat_scope.

Section Same.
Variable unq : bytes -> option bytes.
Variables src src' : bytes.
Variable g : nat -> nat.

Lemma doc_step_same st t st' : orderly t -> doc_step unq src st t = Ok st' -> Forall (same_instruction src src' g) (ds_instructions st') ->
  Forall (same_instruction src src' g) (ds_instructions st) /\ doc_step unq src' (move_state g st) (move_tree g t) = Ok (move_state g st').
Proof.
  intros Ht H HP. assert (K : forall i, instruction_of unq src t = Ok i -> same_instruction src src' g i ->
    instruction_of unq src' (move_tree g t) = Ok (move_instruction g i)).
  { intros i. apply instruction_same. exact Ht. }
  assert (Keep : forall i, (i <- instruction_of unq src t;;
      match i with
      | IFrom f => Ok (DocState (ds_instructions st ++ [IFrom (set_index f (ds_from_index st))]) (ds_global_args st) true (S (ds_from_index st)))
      | IArg a => Ok (DocState (ds_instructions st ++ [IArg a])
                   (if ds_from_found st then ds_global_args st else ds_global_args st ++ [a]) (ds_from_found st) (ds_from_index st))
      | i => Ok (DocState (ds_instructions st ++ [i]) (ds_global_args st) (ds_from_found st) (ds_from_index st))
      end) = Ok st' -> instruction_of unq src t = Ok i -> Forall (same_instruction src src' g) (ds_instructions st) /\ same_instruction src src' g i).
  { intros i Hb Ei. rewrite Ei in Hb. cbn [bind] in Hb. destruct i; injection Hb as <-; cbn [ds_instructions] in HP;
      apply Forall_app in HP; destruct HP as [H1 H2]; apply Forall_inv in H2; split; try exact H1; exact H2. }
  unfold doc_step in *. rewrite rule_move. destruct (t_rule t); try (injection H as <-; auto; fail);
    (destruct (instruction_of unq src t) as [i|e| |] eqn:Ei; try discriminate; destruct (Keep i H eq_refl) as [H1 H2];
     split; [exact H1|]; rewrite (K i eq_refl H2); cbn [bind] in *;
     destruct i; injection H as <-; cbn [move_instruction]; unfold move_state;
     cbn [ds_instructions ds_global_args ds_from_found ds_from_index]; rewrite ?map_app; try reflexivity;
     destruct (ds_from_found st); rewrite ?map_app; reflexivity).
Qed.

Theorem parse_same d q s' f q' s'' : run ctx0 (Call R_dockerfile) 0 src = Done q s' f ->
  run ctx0 (Call R_dockerfile) 0 src' = Done q' s'' (map (move_tree g) f) -> parse unq src = Ok d ->
  (forall i y, In i (d_instructions d) -> In y (within (instruction_part i)) -> part_carried y <> Nothing ->
    text_at src' (move_span g (part_span y)) = text_at src (part_span y)) ->
  parse unq src' = Ok (move_dockerfile g src' d).
Proof.
  intros R R' H HP. unfold parse in *. rewrite pest_parse_run in *. rewrite R in H. rewrite R'. apply run_orderly in R.
  destruct f as [|top f]; [discriminate|]. apply Forall_inv in R. cbn [map]. rewrite children_move.
  destruct (for_each (doc_step unq src) (t_children top) (DocState [] [] false 0)) as [st|e| |] eqn:E; try discriminate.
  cbn [bind] in H. injection H as <-. cbn [d_instructions d_global_args] in *.
  eapply (for_each_bind g (move_state g) (fun st => Forall (same_instruction src src' g) (ds_instructions st)) (fun _ l => Forall orderly l));
    [exact E|reflexivity|reflexivity|apply children_orderly; exact R| |reflexivity|].
  - apply Forall_forall. intros i Hi. apply parts_same. intros y Hy Hc. apply (HP i y Hi Hy Hc).
  - clear. intros st t l st' Hf E. split; [eapply tail_orderly; exact Hf|]. intros HP.
    apply (doc_step_same st t st'); [eapply head_orderly; exact Hf|exact E|exact HP].
Qed.

End Same.

Lemma move_tree_id t : move_tree (fun x => x) t = t.
Proof.
  induction t as [r a b l IH] using tree_induction. cbn [move_tree]. f_equal. rewrite <- (map_id l) at 2. apply map_ext_in.
  rewrite Forall_forall in IH. exact IH.
Qed.

Lemma move_arg_id a : move_arg (fun x => x) a = a.
Proof. pose proof (move_instruction_id (IArg a)) as H. cbn [move_instruction] in H. congruence. Qed.

Lemma twins_run input input' : valid_utf8 input = true -> valid_utf8 input' = true -> twins input input' ->
  ends_alike ctx0 (Call R_dockerfile) 0 input' (run ctx0 (Call R_dockerfile) 0 input).
Proof. intros H1 H2 Ht. apply run_twins; auto. Qed.

Theorem parse_twins unq input input' d : valid_utf8 input = true -> valid_utf8 input' = true -> twins input input' ->
  parse unq input = Ok d ->
  (forall i y, In i (d_instructions d) -> In y (within (instruction_part i)) -> part_carried y <> Nothing ->
    text_at input' (part_span y) = text_at input (part_span y)) ->
  parse unq input' = Ok (Dockerfile input' (d_global_args d) (d_instructions d)).
Proof.
  intros V V' Ht H HP. pose proof (twins_run input input' V V' Ht) as K.
  destruct (run ctx0 (Call R_dockerfile) 0 input) as [q s' f| |] eqn:R; try (unfold parse in H; rewrite pest_parse_run, R in H; discriminate).
  cbn [ends_alike] in K. destruct K as (t1 & K & _).
  rewrite (parse_same unq input input' (fun x => x) d q s' f q t1 R); [| |exact H|].
  - unfold move_dockerfile. rewrite (map_ext _ (fun i => i) move_instruction_id), (map_ext _ (fun i => i) move_arg_id), !map_id. reflexivity.
  - rewrite (map_ext _ (fun i => i) move_tree_id), map_id. exact K.
  - intros i y Hi Hy Hc. rewrite <- (HP i y Hi Hy Hc). destruct (part_span y). reflexivity.
Qed.

Lemma rejected_run unq input : valid_utf8 input = true -> (parse unq input = Err EParse <-> run ctx0 (Call R_dockerfile) 0 input = Fail).
Proof.
  intros V. split; intros H.
  - destruct (run ctx0 (Call R_dockerfile) 0 input) as [q s' f| |] eqn:R; [|reflexivity|].
    + pose proof (accepted_sound unq input q s' f V ltac:(rewrite pest_parse_run; exact R)) as K. rewrite H in K. inversion K.
    + exfalso. unfold parse in H. rewrite pest_parse_run, R in H. discriminate.
  - unfold parse. rewrite pest_parse_run, H. reflexivity.
Qed.

Theorem rejected_twins unq input input' : valid_utf8 input = true -> valid_utf8 input' = true -> twins input input' ->
  parse unq input = Err EParse -> parse unq input' = Err EParse.
Proof.
  intros V V' Ht H. apply rejected_run in H; [|exact V]. apply rejected_run; [exact V'|].
  pose proof (twins_run input input' V V' Ht) as K. rewrite H in K. exact K.
Qed.
