(** From texts to runs of the grammar, continued: the choice of the instruction,
    lines, documents. *)

From Coq Require Import String.
From Verif Require Import Bytes BytesFacts Grammar Peg Result Ast Splicer Image Convert Dockerfile
  SpecDoc DocFacts PegFacts SpecImage ImageFacts SpecSyntax SpecClear PegRules PegTokens PegQuoted Sound SoundRules SoundInstr
  Forward Forward2 Forward3 Forward4.
Local Open Scope nat_scope.

(** ** The rules of the other keywords fail *)

(** An expression that fails unless a gap comes first *)
Definition needs_gap (e : expr) : Prop :=
  forall c p s, gap_here s = false -> valid_utf8 s = true -> run c e p s = Fail.

Lemma needs_gap_ws : needs_gap arg_ws.
Proof. intros c p s H Hv. apply gap_fails; assumption. Qed.
Lemma needs_gap_seq a b : good (Seq a b) = true -> needs_gap a -> needs_gap (Seq a b).
Proof. intros G H c p s Hs Hv. rewrite run_seq by exact G. rewrite H by assumption. reflexivity. Qed.
Lemma needs_gap_alt a b : good (Alt a b) = true -> needs_gap a -> needs_gap b -> needs_gap (Alt a b).
Proof. intros G Ha Hb c p s Hs Hv. rewrite run_alt by exact G. rewrite Ha by assumption. apply Hb; assumption. Qed.
Lemma needs_gap_rep a b : good (Seq (Rep a) b) = true -> needs_gap a -> needs_gap b -> needs_gap (Seq (Rep a) b).
Proof.
  intros G Ha Hb c p s Hs Hv. rewrite run_seq by exact G. rewrite run_rep by (apply (good_sub _ G)).
  rewrite Ha by assumption. rewrite Hb by assumption. reflexivity.
Qed.
Lemma needs_gap_call r : needs_gap (snd (grammar r)) -> needs_gap (Call r).
Proof. intros H c p s Hs Hv. rewrite run_call, H by assumption. reflexivity. Qed.

Ltac needs :=
  lazymatch goal with
  | |- needs_gap (Call R_arg_ws) => exact needs_gap_ws
  | |- needs_gap (Seq (Rep _) _) => refine (needs_gap_rep _ _ _ _ _); [reflexivity|needs|needs]
  | |- needs_gap (Seq _ _) => refine (needs_gap_seq _ _ _ _); [reflexivity|needs]
  | |- needs_gap (Alt _ _) => refine (needs_gap_alt _ _ _ _ _); [reflexivity|needs|needs]
  | |- needs_gap (rep1 ?e) => change (rep1 e) with (Seq e (Rep e)); needs
  | |- needs_gap arg_ws => exact needs_gap_ws
  | |- needs_gap (Call _) => refine (needs_gap_call _ _); cbn [grammar snd]; needs
  end.

Definition no_letter (s : bytes) : Prop := match s with x :: _ => is_alpha x = false | [] => True end.

Lemma other_keyword r k e p name s : grammar r = (Normal, Seq (Insens (bs k)) e) ->
  good (Seq (Insens (bs k)) e) = true -> needs_gap e ->
  to_lower (bs k) = bs k -> Forall (fun c => is_alpha c = true) (bs k) ->
  Forall (fun c => is_alpha c = true) name -> no_letter s -> to_lower name <> bs k ->
  valid_utf8 (name ++ s) = true -> run ctx0 (Call r) p (name ++ s) = Fail.
Proof.
  intros Hr G He Hlow Hk Hn Hs Hne Hv. rewrite run_call, Hr. cbn [fst snd rule_inner rule_outer].
  rewrite run_seq by exact G. rewrite run_insens.
  destruct (match_insens (bs k) (name ++ s)) as [s'|] eqn:E; [|reflexivity].
  apply match_insens_app in E. destruct E as (w & E & Hw). rewrite Hlow in Hw.
  assert (Hwa : Forall (fun c => is_alpha c = true) w).
  { rewrite <- Hw in Hk. clear - Hk. unfold to_lower in Hk. rewrite Forall_map in Hk. revert Hk.
    apply Forall_impl. intros c. rewrite lower_is_alpha. auto. }
  assert (Hlet : exists x t, s' = x :: t /\ is_alpha x = true).
  { apply app_eq_app in E. destruct E as (l & [[E1 E2]|[E1 E2]]).
    - destruct l as [|x l]; [rewrite app_nil_r in E1; subst name; congruence|].
      exists x, (l ++ s). split; [exact E2|]. rewrite E1 in Hn. apply Forall_app in Hn. destruct Hn as [_ Hn].
      inversion Hn; subst; assumption.
    - destruct l as [|x l]; [rewrite app_nil_r in E1; subst w; congruence|]. exfalso.
      rewrite E1 in Hwa. apply Forall_app in Hwa. destruct Hwa as [_ Hwa]. inversion Hwa; subst.
      cbn in Hs. congruence. }
  assert (Hv' : valid_utf8 s' = true).
  { rewrite E, (class_valid is_alpha) in Hv; [exact Hv|apply alpha_ascii|exact Hwa]. }
  destruct Hlet as (x & t & -> & Hx). rewrite He; [reflexivity| |exact Hv'].
  apply gap_stops_here. apply alpha_solid. exact Hx.
Qed.

(** Every keyword rule but that of the keyword itself *)
Definition others (name s : bytes) (p : nat) (r : rule) (k : string) : Prop :=
  to_lower name <> bs k -> run ctx0 (Call r) p (name ++ s) = Fail.

Lemma others_fail p name s : Forall (fun c => is_alpha c = true) name -> no_letter s -> valid_utf8 (name ++ s) = true ->
  others name s p R_from "from" /\ others name s p R_run "run" /\ others name s p R_arg "arg" /\
  others name s p R_label "label" /\ others name s p R_copy "copy" /\ others name s p R_entrypoint "entrypoint" /\
  others name s p R_cmd "cmd" /\ others name s p R_env "env".
Proof.
  intros Hn Hs Hv. refine (conj _ (conj _ (conj _ (conj _ (conj _ (conj _ (conj _ _))))))); intros Hne;
    (eapply other_keyword; [reflexivity|reflexivity|needs|reflexivity|repeat constructor|exact Hn|exact Hs|exact Hne|exact Hv]).
Qed.

Lemma misc_fails p s : no_letter s -> run ctx0 (Call R_misc) p s = Fail.
Proof.
  intros Hs. rewrite run_call. cbn [grammar fst snd]. rewrite run_seq by reflexivity.
  rewrite run_call. cbn [grammar fst snd].
  rewrite (class_rep1_fails _ is_alpha); [reflexivity|reflexivity|apply class_alpha|exact Hs].
Qed.

(** ** The keyword of an instruction *)

Definition keyword_rules : list (string * rule) :=
  [("from", R_from); ("run", R_run); ("arg", R_arg); ("label", R_label); ("copy", R_copy);
   ("entrypoint", R_entrypoint); ("cmd", R_cmd); ("env", R_env)]%string.

Lemma step_keyword k r p name s q s' f : In (k, r) keyword_rules -> keyword k name -> no_letter s ->
  valid_utf8 (name ++ s) = true -> run ctx0 (Call r) p (name ++ s) = Done q s' f ->
  run ctx0 (Call R_step) p (name ++ s) = Done q s' f.
Proof.
  intros Hin Hk Hs Hv Hrun. unfold keyword in Hk.
  assert (Hn : Forall (fun c => is_alpha c = true) name).
  { assert (K : Forall (fun c => is_alpha c = true) (bs k)).
    { cbn in Hin. repeat (destruct Hin as [E|Hin]; [injection E as <- <-; repeat constructor|]). contradiction. }
    rewrite <- Hk in K. unfold to_lower in K. rewrite Forall_map in K. revert K. apply Forall_impl.
    intros c. rewrite lower_is_alpha. auto. }
  destruct (others_fail p name s Hn Hs Hv) as (H1 & H2 & H3 & H4 & H5 & H6 & H7 & H8). unfold others in *. rewrite Hk in *.
  rewrite run_call. change (snd (grammar R_step)) with
    (Alt (Call R_from) (Alt (Call R_run) (Alt (Call R_arg) (Alt (Call R_label) (Alt (Call R_copy)
      (Alt (Call R_entrypoint) (Alt (Call R_cmd) (Alt (Call R_env) (Call R_misc))))))))).
  change (fst (grammar R_step)) with Silent. cbn [rule_inner rule_outer rule_tokens].
  cbn in Hin.
  repeat (destruct Hin as [E|Hin]; [injection E as <- <-;
    repeat (rewrite run_alt by reflexivity);
    rewrite ?H1, ?H2, ?H3, ?H4, ?H5, ?H6, ?H7, ?H8 by discriminate; rewrite Hrun; reflexivity|]).
  contradiction.
Qed.

Lemma step_misc p name s q s' f : letters name -> (forall k, In k reserved -> ~ keyword k name) -> no_letter s ->
  valid_utf8 (name ++ s) = true -> run ctx0 (Call R_misc) p (name ++ s) = Done q s' f ->
  run ctx0 (Call R_step) p (name ++ s) = Done q s' f.
Proof.
  intros [_ Hn] Hr Hs Hv Hrun. unfold keyword in Hr.
  destruct (others_fail p name s Hn Hs Hv) as (H1 & H2 & H3 & H4 & H5 & H6 & H7 & H8). unfold others in *.
  rewrite run_call. change (snd (grammar R_step)) with
    (Alt (Call R_from) (Alt (Call R_run) (Alt (Call R_arg) (Alt (Call R_label) (Alt (Call R_copy)
      (Alt (Call R_entrypoint) (Alt (Call R_cmd) (Alt (Call R_env) (Call R_misc))))))))).
  change (fst (grammar R_step)) with Silent. cbn [rule_inner rule_outer rule_tokens].
  repeat (rewrite run_alt by reflexivity).
  rewrite H1, H2, H3, H4, H5, H6, H7, H8 by (apply Hr; unfold reserved; cbn [In]; repeat (first [left; reflexivity|right])). rewrite Hrun. reflexivity.
Qed.

Lemma step_fails p s : no_letter s -> valid_utf8 s = true -> run ctx0 (Call R_step) p s = Fail.
Proof.
  intros Hs Hv. destruct (others_fail p [] s (Forall_nil _) Hs Hv) as (H1 & H2 & H3 & H4 & H5 & H6 & H7 & H8).
  unfold others in *. cbn [app] in *. rewrite run_call. change (snd (grammar R_step)) with
    (Alt (Call R_from) (Alt (Call R_run) (Alt (Call R_arg) (Alt (Call R_label) (Alt (Call R_copy)
      (Alt (Call R_entrypoint) (Alt (Call R_cmd) (Alt (Call R_env) (Call R_misc))))))))).
  change (fst (grammar R_step)) with Silent. cbn [rule_inner rule_outer rule_tokens].
  repeat (rewrite run_alt by reflexivity).
  rewrite H1, H2, H3, H4, H5, H6, H7, H8 by discriminate. rewrite misc_fails by exact Hs. reflexivity.
Qed.

(** ** Instructions *)

(** The arguments of an instruction do not begin with a letter. *)
Lemma gap_no_letter k g s : gap k g -> g <> [] -> no_letter (g ++ s).
Proof. intros Hg Hne. apply (gap_class is_alpha k); [exact Hg|exact Hne|apply alpha_solid]. Qed.

Lemma spaced_no_letter {A} (at1 : nat -> bytes -> A -> Prop) p w l s : spaced at1 p w l -> no_letter s -> no_letter (w ++ s).
Proof.
  intros H Hs. destruct H as [|p k g w x w2 l Hg Hne Hx Hl]; [exact Hs|]. rewrite <- app_assoc.
  apply (gap_no_letter k); assumption.
Qed.

Lemma spaced_no_letter_ne {A} (at1 : nat -> bytes -> A -> Prop) p w l s : spaced at1 p w l -> l <> [] -> no_letter (w ++ s).
Proof.
  intros H Hl. destruct H as [|p k g w x w2 l Hg Hne Hx H]; [congruence|]. rewrite <- app_assoc.
  apply (gap_no_letter k); assumption.
Qed.

Lemma blanks_no_letter b s : blanks b -> no_letter s -> no_letter (b ++ s).
Proof.
  intros Hb Hs. destruct Hb as [|x b Hx Hb]; [exact Hs|]. cbn. clear - Hx. unfold is_blank in Hx.
  apply orb_true_iff in Hx. rewrite !N.eqb_eq in Hx. destruct Hx; subst; reflexivity.
Qed.

Lemma line_end_no_letter s : at_line_end s -> no_letter s.
Proof.
  intros Hs. apply (closed_class is_alpha); [apply at_line_end_closed; exact Hs|apply alpha_solid].
Qed.

Section Doc.
Variable unq : bytes -> option bytes.
Variable src : bytes.
Notation pos := (Sound.pos src).

(** The token of an instruction: what the loop over the document makes of it *)
Definition gives (t : tree) (i : instruction) : Prop :=
  t_rule t <> R_EOI /\ t_rule t <> R_comment /\
  match i with
  | IFrom x => exists y, instruction_of unq src t = Ok (IFrom y) /\ forall n, set_index y n = set_index x n
  | _ => instruction_of unq src t = Ok i
  end.

Ltac finish_step k r t Hrun Ht :=
  exists t; split;
  [ rewrite <- ?app_assoc in *; eapply (step_keyword k r);
    [unfold keyword_rules; cbn [In]; repeat (first [left; reflexivity|right])|eassumption| |eassumption|exact Hrun]
  | unfold gives; rewrite Ht; split; [discriminate|split; [discriminate|]] ].

Lemma closed_step_fwd p w i s : clear_closed_at unq p w i -> closed_end s -> valid_utf8 (w ++ s) = true -> pos p (w ++ s) ->
  exists t, run ctx0 (Call R_step) p (w ++ s) = Done (p + length w) s [t] /\ gives t i.
Proof.
  intros H Hs Hv Hp. destruct i as [x|x|x|x|x|x|x|x|x]; cbn [clear_closed_at] in H.
  - pose proof (from_fwd unq src p w x s H Hs Hv Hp) as (t & Hrun & Ht & Ho).
    destruct H as (kw & fl & k & g & img & al & -> & Hkw & Hfl & Hg & Hne & _).
    finish_step "from"%string R_from t Hrun Ht.
    + eapply spaced_no_letter; [exact Hfl|]. apply (gap_no_letter k); assumption.
    + exists (set_index x 0). split; [|reflexivity]. unfold instruction_of. rewrite Ht, Ho. reflexivity.
  - pose proof (arg_fwd unq src p w x s H Hs Hv Hp) as (t & Hrun & Ht & Ho).
    destruct H as (kw & k & g & name & rest & -> & Hkw & Hg & Hne & _).
    finish_step "arg"%string R_arg t Hrun Ht; [apply (gap_no_letter k); assumption|exact Ho].
  - pose proof (label_single_fwd unq src p w x s H Hs Hv Hp) as (t & Hrun & Ht & Ho).
    destruct H as (kw & j & g1 & n & k & c & g2 & v & lb & -> & Hkw & Hg & Hne & _).
    finish_step "label"%string R_label t Hrun Ht; [apply (gap_no_letter j); assumption|exact Ho].
  - pose proof (run_fwd unq src p w x s (or_introl (conj H Hs)) Hv Hp) as (t & Hrun & Ht & Ho).
    destruct H as (kw & g & cmd & a & -> & Hkw & Hg & Hne & _).
    finish_step "run"%string R_run t Hrun Ht; [apply (gap_no_letter 0); assumption|exact Ho].
  - pose proof (entrypoint_fwd unq src p w x s (or_introl (conj H Hs)) Hv Hp) as (t & Hrun & Ht & Ho).
    destruct H as (kw & g & cmd & a & -> & Hkw & Hg & Hne & _).
    finish_step "entrypoint"%string R_entrypoint t Hrun Ht; [apply (gap_no_letter 0); assumption|exact Ho].
  - pose proof (cmd_fwd unq src p w x s (or_introl (conj H Hs)) Hv Hp) as (t & Hrun & Ht & Ho).
    destruct H as (kw & g & cmd & a & -> & Hkw & Hg & Hne & _).
    finish_step "cmd"%string R_cmd t Hrun Ht; [apply (gap_no_letter 0); assumption|exact Ho].
  - pose proof (copy_fwd unq src p w x s H Hs Hv Hp) as (t & Hrun & Ht & Ho).
    destruct H as (kw & fl & paths & -> & Hkw & Hfl & Hpa & _).
    finish_step "copy"%string R_copy t Hrun Ht; [|exact Ho]. eapply spaced_no_letter; [exact Hfl|].
    eapply spaced_no_letter_ne; [exact Hpa|]. destruct (copy_sources x); discriminate.
  - pose proof (env_single_fwd unq src p w x s (or_introl (conj H Hs)) Hv Hp) as (t & Hrun & Ht & Ho).
    destruct H as (kw & j & g1 & n & k & g2 & v & e & -> & Hkw & Hg & Hne & _).
    finish_step "env"%string R_env t Hrun Ht; [apply (gap_no_letter j); assumption|exact Ho].
  - contradiction.
Qed.

Lemma open_step_fwd p w i s : clear_open_at unq p w i -> at_line_end s -> valid_utf8 (w ++ s) = true -> pos p (w ++ s) ->
  exists t, run ctx0 (Call R_step) p (w ++ s) = Done (p + length w) s [t] /\ gives t i.
Proof.
  intros H Hs Hv Hp. destruct i as [x|x|x|x|x|x|x|x|x]; cbn [clear_open_at] in H; try contradiction.
  - pose proof (labels_fwd unq src p w x s H Hs Hv Hp) as (t & Hrun & Ht & Ho).
    destruct H as (kw & pairs & b & -> & Hkw & _ & Hpairs & Hb & _).
    finish_step "label"%string R_label t Hrun Ht; [|exact Ho]. eapply spaced_no_letter; [exact Hpairs|].
    apply blanks_no_letter; [exact Hb|apply line_end_no_letter; exact Hs].
  - pose proof (run_fwd unq src p w x s (or_intror (conj H Hs)) Hv Hp) as (t & Hrun & Ht & Ho).
    destruct H as (kw & g & cmd & a & -> & Hkw & Hg & Hne & _).
    finish_step "run"%string R_run t Hrun Ht; [apply (gap_no_letter 0); assumption|exact Ho].
  - pose proof (entrypoint_fwd unq src p w x s (or_intror (conj H Hs)) Hv Hp) as (t & Hrun & Ht & Ho).
    destruct H as (kw & g & cmd & a & -> & Hkw & Hg & Hne & _).
    finish_step "entrypoint"%string R_entrypoint t Hrun Ht; [apply (gap_no_letter 0); assumption|exact Ho].
  - pose proof (cmd_fwd unq src p w x s (or_intror (conj H Hs)) Hv Hp) as (t & Hrun & Ht & Ho).
    destruct H as (kw & g & cmd & a & -> & Hkw & Hg & Hne & _).
    finish_step "cmd"%string R_cmd t Hrun Ht; [apply (gap_no_letter 0); assumption|exact Ho].
  - destruct H as [H|H].
    + pose proof (envs_fwd unq src p w x s H Hs Hv Hp) as (t & Hrun & Ht & Ho).
      destruct H as (kw & pairs & b & -> & Hkw & _ & Hpairs & Hb & _).
      finish_step "env"%string R_env t Hrun Ht; [|exact Ho]. eapply spaced_no_letter; [exact Hpairs|].
      apply blanks_no_letter; [exact Hb|apply line_end_no_letter; exact Hs].
    + pose proof (env_single_fwd unq src p w x s (or_intror (conj H Hs)) Hv Hp) as (t & Hrun & Ht & Ho).
      destruct H as (kw & j & g1 & n & k & g2 & v & e & -> & Hkw & Hg & Hne & _).
      finish_step "env"%string R_env t Hrun Ht; [apply (gap_no_letter j); assumption|exact Ho].
  - pose proof (misc_fwd unq src p w x s H Hs Hv Hp) as (t & Hrun & Ht & Ho).
    destruct H as (name & args & -> & Hl & Hr & Hh & _ & _ & (l & Hsh & _) & _). exists t. split.
    + rewrite <- app_assoc in *. apply step_misc; try assumption.
      destruct args as [|c args]; [|exact Hh]. apply line_end_no_letter. exact Hs.
    + unfold gives. rewrite Ht. split; [discriminate|]. split; [discriminate|exact Ho].
Qed.

(** ** Lines *)

(** What the loop over the document makes of these tokens: these instructions. *)
Definition adds (f : list tree) (l : list instruction) : Prop :=
  forall st, exists st', for_each (doc_step unq src) f st = Ok st' /\
    ds_instructions st' = ds_instructions st ++ numbered (ds_from_index st) l /\
    ds_from_index st' = ds_from_index st + count_from l.

Lemma numbered_app n l1 l2 : numbered n (l1 ++ l2) = numbered n l1 ++ numbered (n + count_from l1) l2.
Proof.
  revert n. induction l1 as [|i l1 IH]; intros n; [cbn; rewrite Nat.add_0_r; reflexivity|].
  destruct i; cbn [app numbered count_from filter is_from_b length]; rewrite IH; try reflexivity.
  cbn [app]. do 2 f_equal. unfold count_from. f_equal. lia.
Qed.

Lemma adds_nil f : f = [] -> adds f [].
Proof. intros -> st. exists st. cbn. rewrite app_nil_r, Nat.add_0_r. auto. Qed.

Lemma adds_app f1 f2 l1 l2 : adds f1 l1 -> adds f2 l2 -> adds (f1 ++ f2) (l1 ++ l2).
Proof.
  intros H1 H2 st. destruct (H1 st) as (st1 & E1 & I1 & N1). destruct (H2 st1) as (st2 & E2 & I2 & N2).
  exists st2. rewrite for_each_app, E1. cbn [bind]. split; [exact E2|].
  rewrite I2, I1, N2, N1, numbered_app, <- app_assoc. split; [reflexivity|].
  unfold count_from. rewrite filter_app, app_length. lia.
Qed.

Lemma adds_comment p q : adds [Node R_comment p q []] [].
Proof. intros st. exists st. cbn. rewrite app_nil_r, Nat.add_0_r. auto. Qed.

Lemma adds_gives t i : gives t i -> adds [t] [i].
Proof.
  intros (H1 & H2 & H) st. cbn [for_each].
  assert (E : doc_step unq src st t =
    bind (instruction_of unq src t) (fun instruction =>
    match instruction with
    | IFrom f =>
      Ok (DocState (ds_instructions st ++ [IFrom (set_index f (ds_from_index st))])
                   (ds_global_args st) true (S (ds_from_index st)))
    | IArg a =>
      Ok (DocState (ds_instructions st ++ [IArg a])
                   (if ds_from_found st then ds_global_args st else ds_global_args st ++ [a])
                   (ds_from_found st) (ds_from_index st))
    | i =>
      Ok (DocState (ds_instructions st ++ [i])
                   (ds_global_args st) (ds_from_found st) (ds_from_index st))
    end)) by (unfold doc_step; destruct (t_rule t); try congruence; reflexivity).
  rewrite E. destruct i as [x|x|x|x|x|x|x|x|x];
    [destruct H as (y & H & Hy)|..]; rewrite H; cbn [bind];
    (eexists; split; [reflexivity|]); cbn [ds_instructions ds_from_index numbered count_from filter is_from_b length];
    rewrite ?Hy; (split; [reflexivity|cbn; lia]).
Qed.

Lemma comment_no_letter t s : comment_text t -> no_letter (t ++ s).
Proof. intros (u & -> & _). reflexivity. Qed.

Lemma no_letter_comment_fails p s : at_line_end s -> valid_utf8 s = true -> run ctx0 comment p s = Fail.
Proof.
  intros Hs Hv. rewrite run_comment by exact Hv. destruct Hs as [-> |Hs]; [reflexivity|].
  destruct s as [|x s]; [reflexivity|]. destruct (x =? HASH)%N eqn:E; [|reflexivity].
  apply N.eqb_eq in E. subst. discriminate.
Qed.

Lemma line_end_not_blank s : at_line_end s -> match s with x :: _ => is_blank x = false | [] => True end.
Proof.
  intros [-> |H]; [exact I|]. destruct s as [|x s]; [exact I|]. cbn in H. unfold is_blank, is_newline_byte in *.
  destruct (x =? SP)%N eqn:E1; [apply N.eqb_eq in E1; subst; discriminate|].
  destruct (x =? TAB)%N eqn:E2; [apply N.eqb_eq in E2; subst; discriminate|]. reflexivity.
Qed.

Lemma letter_not_blank x : is_alpha x = true -> is_blank x = false.
Proof. intros H. apply alpha_solid in H. apply H. Qed.

(** An instruction begins with a letter. *)
Lemma keyword_head k kw s : keyword k kw -> bs k <> [] -> Forall (fun c => is_alpha c = true) (bs k) ->
  match kw ++ s with x :: _ => is_alpha x = true | [] => False end.
Proof.
  unfold keyword. intros E Hne H. rewrite <- E in *. destruct kw as [|x kw]; [contradiction Hne; reflexivity|].
  cbn [app]. inversion H as [|? ? Hx]. rewrite lower_is_alpha in Hx. exact Hx.
Qed.

Ltac kw_head := rewrite <- ?app_assoc; eapply keyword_head; [eassumption|discriminate|repeat constructor].

Lemma closed_head_letter p w i s : clear_closed_at unq p w i ->
  match w ++ s with x :: _ => is_alpha x = true | [] => False end.
Proof.
  intros H. destruct i as [x|x|x|x|x|x|x|x|x]; cbn [clear_closed_at] in H.
  - destruct H as (kw & fl & k & g & img & al & -> & Hkw & _). kw_head.
  - destruct H as (kw & k & g & name & rest & -> & Hkw & _). kw_head.
  - destruct H as (kw & j & g1 & n & k & c & g2 & v & lb & -> & Hkw & _). kw_head.
  - destruct H as (kw & g & cmd & a & -> & Hkw & _). kw_head.
  - destruct H as (kw & g & cmd & a & -> & Hkw & _). kw_head.
  - destruct H as (kw & g & cmd & a & -> & Hkw & _). kw_head.
  - destruct H as (kw & fl & paths & -> & Hkw & _). kw_head.
  - destruct H as (kw & j & g1 & n & k & g2 & v & e & -> & Hkw & _). kw_head.
  - contradiction.
Qed.

Lemma open_head_letter p w i s : clear_open_at unq p w i ->
  match w ++ s with x :: _ => is_alpha x = true | [] => False end.
Proof.
  intros H. destruct i as [x|x|x|x|x|x|x|x|x]; cbn [clear_open_at] in H; try contradiction.
  - destruct H as (kw & pairs & b & -> & Hkw & _). kw_head.
  - destruct H as (kw & g & cmd & a & -> & Hkw & _). kw_head.
  - destruct H as (kw & g & cmd & a & -> & Hkw & _). kw_head.
  - destruct H as (kw & g & cmd & a & -> & Hkw & _). kw_head.
  - destruct H as [H|H]; [destruct H as (kw & pairs & b & -> & Hkw & _)|
      destruct H as (kw & j & g1 & n & k & g2 & v & e & -> & Hkw & _)]; kw_head.
  - destruct H as (name & args & -> & [Hne Hl] & _). destruct Hl as [|x0 name Hx Hl]; [congruence|]. exact Hx.
Qed.

Lemma letter_head_blank (t : bytes) : match t with x :: _ => is_alpha x = true | [] => False end ->
  match t with x :: _ => is_blank x = false | [] => True end.
Proof. destruct t; [auto|apply letter_not_blank]. Qed.

Lemma meta_step_fwd p w l s : clear_line_at unq p w l -> at_line_end s -> valid_utf8 (w ++ s) = true -> pos p (w ++ s) ->
  exists f, run ctx0 (Call R_meta_step) p (w ++ s) = Done (p + length w) s f /\ adds f l.
Proof.
  intros H Hs Hv Hp.
  assert (Hend : run ctx0 (Rep ws) (p + length w) s = Done (p + length w) s []).
  { rewrite <- (app_nil_l s). rewrite blanks_fwd; [cbn [length app]; f_equal; lia|constructor|apply line_end_not_blank; exact Hs]. }
  rewrite run_call. change (snd (grammar R_meta_step)) with
    (Seq (Rep ws) (Seq (Opt (Alt (Call R_step) comment)) (Rep ws))).
  change (fst (grammar R_meta_step)) with Silent. cbn [rule_inner rule_outer rule_tokens].
  destruct H as [p b Hb|p b t Hb Ht|p b w b2 i Hb Hi Hb2|p b w i Hb Hi]; rewrite <- ?app_assoc in *;
    rewrite run_seq by reflexivity; (rewrite valid_blanks in Hv by exact Hb).
  - rewrite blanks_fwd; [|exact Hb|apply line_end_not_blank; exact Hs].
    rewrite run_seq by reflexivity. rewrite run_opt by reflexivity. rewrite run_alt by reflexivity.
    rewrite step_fails; [|apply line_end_no_letter; exact Hs|exact Hv].
    rewrite no_letter_comment_fails by assumption. rewrite Hend. exists []. split; [reflexivity|].
    apply adds_nil. reflexivity.
  - rewrite blanks_fwd; [|exact Hb|destruct Ht as (u & -> & _); reflexivity].
    rewrite run_seq by reflexivity. rewrite run_opt by reflexivity. rewrite run_alt by reflexivity.
    rewrite step_fails; [|apply comment_no_letter; exact Ht|exact Hv].
    rewrite comment_fwd by assumption. rewrite app_length, Nat.add_assoc in Hend. rewrite Hend.
    eexists. split; [rewrite app_length, Nat.add_assoc; reflexivity|]. cbn [app]. rewrite app_nil_r. apply adds_comment.
  - assert (Hp1 : pos (p + length b) (w ++ b2 ++ s)) by (apply pos_app; exact Hp).
    rewrite blanks_fwd; [|exact Hb|apply letter_head_blank, (closed_head_letter _ _ _ _ Hi)].
    rewrite run_seq by reflexivity. rewrite run_opt by reflexivity. rewrite run_alt by reflexivity.
    destruct (closed_step_fwd _ _ _ (b2 ++ s) Hi) as (t & Hrun & Hg); [exists b2, s; auto|exact Hv|exact Hp1|].
    rewrite Hrun. rewrite blanks_fwd; [|exact Hb2|apply line_end_not_blank; exact Hs].
    eexists. split; [rewrite !app_length, !Nat.add_assoc; reflexivity|]. cbn [app]. apply adds_gives. exact Hg.
  - assert (Hp1 : pos (p + length b) (w ++ s)) by (apply pos_app; exact Hp).
    rewrite blanks_fwd; [|exact Hb|apply letter_head_blank, (open_head_letter _ _ _ _ Hi)].
    rewrite run_seq by reflexivity. rewrite run_opt by reflexivity. rewrite run_alt by reflexivity.
    destruct (open_step_fwd _ _ _ s Hi Hs Hv Hp1) as (t & Hrun & Hg).
    rewrite Hrun. rewrite app_length, Nat.add_assoc in Hend. rewrite Hend.
    eexists. split; [rewrite app_length, Nat.add_assoc; reflexivity|]. cbn [app]. apply adds_gives. exact Hg.
Qed.

(** ** Documents *)

Lemma document_after_lf p w l : clear_document_at unq p (LF :: w) l -> clear_document_at unq (p + 1) w l.
Proof.
  assert (K : forall p w l, clear_line_at unq p w l -> match w with x :: _ => is_newline_byte x = false | [] => True end).
  { intros p0 w0 l0 H. destruct H as [p0 b Hb|p0 b t Hb Ht|p0 b w0 b2 i Hb Hi Hb2|p0 b w0 i Hb Hi];
      (destruct Hb as [|x b Hx Hb]; [|cbn [app]; clear - Hx; unfold is_blank in Hx; apply orb_true_iff in Hx;
        rewrite !N.eqb_eq in Hx; destruct Hx; subst; reflexivity]); cbn [app].
    - exact I.
    - destruct Ht as (u & -> & _). reflexivity.
    - pose proof (closed_head_letter _ _ _ b2 Hi) as K. destruct (w0 ++ b2) as [|x t]; [exact I|].
      apply alpha_solid in K. apply K.
    - pose proof (open_head_letter _ _ _ [] Hi) as K. rewrite app_nil_r in K. destruct w0 as [|x t]; [exact I|].
      apply alpha_solid in K. apply K. }
  intros H. remember (LF :: w) as u eqn:E. destruct H as [p u l H|p u n u2 l l2 H Hn H2].
  - apply K in H. subst u. discriminate.
  - pose proof (K _ _ _ H) as Hh. destruct u as [|x u].
    + assert (l = []). { inversion H as [p0 b Hb E1 E2 E3|p0 b t Hb (u & Et & _) E1 E2 E3|p0 b w0 b2 i Hb Hi Hb2 E1 E2 E3|p0 b w0 i Hb Hi E1 E2 E3].
        - reflexivity.
        - reflexivity.
        - exfalso. apply app_eq_nil in E2. destruct E2 as [_ E2]. pose proof (closed_head_letter _ _ _ b2 Hi) as K1.
          rewrite E2 in K1. contradiction.
        - exfalso. apply app_eq_nil in E2. destruct E2 as [_ E2]. pose proof (open_head_letter _ _ _ [] Hi) as K1.
          rewrite E2 in K1. contradiction. }
      subst l. cbn [app length] in *. rewrite Nat.add_0_r in H2.
      destruct Hn; cbn [app length] in *; injection E as E; [subst; exact H2|discriminate|discriminate].
    + cbn [app] in E. injection E as -> _. discriminate.
Qed.

Definition more_lines : expr := Rep (Seq NEWLINE (Call R_meta_step)).

Lemma newline_line_end n s : newline n -> at_line_end (n ++ s).
Proof. intros Hn. right. apply newline_head. exact Hn. Qed.

Lemma document_fwd k : forall p w l, length w <= k -> clear_document_at unq p w l -> valid_utf8 w = true -> pos p w ->
  exists q s f1 f2, run ctx0 (Call R_meta_step) p w = Done q s f1 /\
    run ctx0 more_lines q s = Done (p + length w) [] f2 /\ adds (f1 ++ f2) l.
Proof.
  induction k as [k IH] using lt_wf_ind. intros p w l Hk H Hv Hp. destruct H as [p w l H|p w n w2 l l2 H Hn H2].
  - destruct (meta_step_fwd p w l [] H (or_introl eq_refl)) as (f & Hrun & Ha); [rewrite app_nil_r; exact Hv|rewrite app_nil_r; exact Hp|].
    rewrite app_nil_r in Hrun. do 4 eexists. split; [exact Hrun|]. split.
    + unfold more_lines. rewrite run_rep by reflexivity. rewrite run_seq by reflexivity. rewrite run_newline.
      cbn [strip_newline]. reflexivity.
    + rewrite app_nil_r. exact Ha.
  - destruct (meta_step_fwd p w l (n ++ w2) H (newline_line_end n w2 Hn) Hv Hp) as (f & Hrun & Ha).
    pose proof (newline_len n Hn) as Hlen.
    assert (Hv2 : valid_utf8 (n ++ w2) = true).
    { pose proof (run_valid _ _ _ _ _ _ _ Hrun Hv eq_refl) as K. exact K. }
    assert (Hp2 : pos (p + length w) (n ++ w2)) by (apply pos_app; exact Hp).
    rewrite !app_length in Hk.
    assert (L : exists f2, run ctx0 more_lines (p + length w) (n ++ w2) = Done (p + length (w ++ n ++ w2)) [] f2 /\ adds f2 l2).
    { destruct (begins_lf_dec n w2 Hn) as [[-> [w3 ->]]|Hnl].
      - apply document_after_lf in H2. cbn [length] in *.
        assert (Hp3 : pos (p + length w + 1 + 1) w3).
        { apply (pos_app src (p + length w + 1) [LF] w3), (pos_app src (p + length w) [CR] (LF :: w3)). exact Hp2. }
        assert (Hv3 : valid_utf8 w3 = true).
        { cbn [app] in Hv2. rewrite !valid_utf8_cons_ascii in Hv2 by reflexivity. exact Hv2. }
        destruct (IH (length w3)) with (p := p + length w + 1 + 1) (w := w3) (l := l2) as (q & s & f1 & f2 & R1 & R2 & Ha2);
          [lia|lia|exact H2|exact Hv3|exact Hp3|].
        exists (f1 ++ f2). split; [|exact Ha2]. unfold more_lines in *. rewrite run_rep by reflexivity.
        rewrite run_seq by reflexivity. rewrite newline_crlf.
        replace (p + length w + 2) with (p + length w + 1 + 1) by lia. rewrite R1, R2. cbn [app].
        f_equal. rewrite !app_length. cbn [length]. lia.
      - assert (Hp3 : pos (p + length w + length n) w2) by (apply pos_app; exact Hp2).
        rewrite valid_newline in Hv2 by exact Hn.
        destruct (IH (length w2)) with (p := p + length w + length n) (w := w2) (l := l2) as (q & s & f1 & f2 & R1 & R2 & Ha2);
          [lia|lia|exact H2|exact Hv2|exact Hp3|].
        exists (f1 ++ f2). split; [|exact Ha2]. unfold more_lines in *. rewrite run_rep by reflexivity.
        rewrite run_seq by reflexivity. rewrite newline_fwd by assumption. rewrite R1, R2. cbn [app].
        f_equal. rewrite !app_length. lia. }
    destruct L as (f2 & R2 & Ha2). do 4 eexists. split; [exact Hrun|]. split; [exact R2|]. apply adds_app; assumption.
Qed.

End Doc.

(** ** The theorem *)

Theorem parse_complete unq input l : valid_utf8 input = true -> clear_document unq input l ->
  exists d, parse unq input = Ok d /\ d_content d = input /\ d_instructions d = numbered 0 l.
Proof.
  intros Hv H.
  destruct (document_fwd unq input (length input) 0 input l (le_n _) H Hv) as (q & s & f1 & f2 & R1 & R2 & Ha); [reflexivity|].
  destruct (Ha (DocState [] [] false 0)) as (st & E & I & _).
  exists (Dockerfile input (ds_global_args st) (ds_instructions st)).
  split; [|split; [reflexivity|cbn [d_instructions]; rewrite I; reflexivity]].
  assert (R : run ctx0 (Call R_dockerfile) 0 input =
    Done (length input) [] [Node R_dockerfile 0 (length input) (f1 ++ f2 ++ [Node R_EOI (length input) (length input) []])]).
  { rewrite run_call. change (snd (grammar R_dockerfile)) with
      (Seq Soi (Seq (Call R_meta_step) (Seq more_lines (Call R_EOI)))).
    change (fst (grammar R_dockerfile)) with Normal. cbn [rule_inner rule_outer].
    rewrite run_seq by reflexivity. rewrite run_soi. cbn [Nat.eqb]. rewrite run_seq by reflexivity. rewrite R1.
    rewrite run_seq by reflexivity. rewrite R2. rewrite run_call. change (snd (grammar R_EOI)) with EndOfInput.
    rewrite run_eoi. cbn [app Nat.add]. reflexivity. }
  unfold parse. rewrite pest_parse_run, R. cbn [t_children].
  rewrite app_assoc, for_each_app, E. cbn. reflexivity.
Qed.
