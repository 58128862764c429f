(** Replacing aliases, and renaming a stage, through the splicer (C78).  The notions
    used are those of SpecMove.v, SpecAlias.v and SpecRename.v. *)

From Coq Require Import String Permutation.
From Verif Require Import Bytes BytesFacts Grammar Peg Result Ast Splicer Image Convert Dockerfile Enquote Stage SpecStage StageFacts PropsStage
  SpecImage SpecSplice SplicerFacts SpecSyntax SpecMove SpecParts SpecDoc PartsFacts DocFacts ParseFacts SelectFacts PropsParse PropsDoc PropsEdit
  PropsRewrite SpecRename PropsRename RewordFacts SpecAlias AliasDoc NamesFacts ArgumentDoc.
Local Open Scope nat_scope.

Lemma alias_valid t : alias_text t -> valid_utf8 t = true.
Proof. intros H. apply image_text_valid, alias_image. exact H. Qed.

(** ** One alias *)

Theorem C78_alias unq input d l1 f l2 al new : valid_utf8 input = true -> parse unq input = Ok d -> d_instructions d = l1 ++ IFrom f :: l2 ->
  from_alias f = Some al -> alias_text new -> fits input [(ss_span al, new)] ->
  exists st, splice (splicer_from d) (ss_span al) new = Ok st /\
    sp_content st = firstn (s_start (ss_span al)) input ++ new ++ skipn (s_end (ss_span al)) input /\
    forall g, g = replacement (s_start (ss_span al)) (s_end (ss_span al)) (length new) ->
      parse unq (sp_content st) = Ok (Dockerfile (sp_content st) (map (move_arg g) (d_global_args d))
        (map (move_instruction g) l1 ++ IFrom (with_alias (move_from g f) new) :: map (move_instruction g) l2)).
Proof.
  intros V E El Hal Hn Hf. destruct (parse_alias_moved unq input d l1 f l2 al V E El Hal) as (pre & post & Ei & Ht & Es & Hb & K).
  pose proof (length_pos _ (proj1 Ht)) as LX.
  assert (L1 : firstn (s_start (ss_span al)) input = pre).
  { rewrite Es, Ei. cbn [s_start]. rewrite firstn_app, Nat.sub_diag, firstn_O, app_nil_r. apply firstn_all. }
  assert (L2 : skipn (s_end (ss_span al)) input = post).
  { rewrite Es, Ei. cbn [s_end]. rewrite app_assoc, <- app_length, skipn_app, Nat.sub_diag, skipn_all. reflexivity. }
  destruct (splice_alone unq input d (ss_span al) new V E) as (st & Es1 & Et); [| |apply alias_valid; exact Hn|exact Hf|].
  { split; [rewrite Es; cbn [s_start s_end]; lia|]. split; [|exact Hb]. rewrite Es, Ei, !app_length. cbn [s_end]. lia. }
  { rewrite Es. cbn [s_start s_end]. lia. }
  exists st. split; [exact Es1|]. split; [exact Et|]. intros g Eg. rewrite Et, L1, L2. apply (K new Hn g). rewrite Eg, Es. reflexivity.
Qed.

(** ** Any number of images and aliases, in any order *)

Theorem C78_names unq input d choose call ops : valid_utf8 input = true -> parse unq input = Ok d ->
  (forall f t r, In (IFrom f) (d_instructions d) -> choose f = Some (t, r) -> image_accepted t r) ->
  (forall f t, In (IFrom f) (d_instructions d) -> call f = Some t -> alias_text t) ->
  fits input (name_edits choose call (d_instructions d)) -> Permutation (name_edits choose call (d_instructions d)) ops ->
  exists st, splice_all (splicer_from d) ops = Ok st /\ valid_utf8 (sp_content st) = true /\
    forall g, g = after_edits (name_edits choose call (d_instructions d)) ->
      parse unq (sp_content st) = Ok (Dockerfile (sp_content st) (map (move_arg g) (d_global_args d))
        (map (with_new_names choose call g) (d_instructions d))).
Proof.
  intros Hv E Hok Hal Hfit Hp. pose proof (names_in_order unq choose call input d Hv E) as Ho.
  destruct (selection_spans unq input d _ Hv E (names_selected choose call (d_instructions d))) as [_ Hb]. rewrite (parse_content _ _ _ E) in Hb.
  destruct (splice_disjoint input (name_edits choose call (d_instructions d)) ops Hv Ho) as (st & Es & Et & Eu); [|exact Hfit|exact Hp|].
  { intros e He. pose proof (in_order_bounds _ _ _ _ Ho (in_map fst _ _ He)) as (_ & B1 & B2).
    split; [apply Hb; apply in_map; exact He|].
    unfold name_edits in He. apply in_flat_map in He. destruct He as (i & Hi & He).
    destruct i as [f| | | | | | | |]; try contradiction. cbn [name_edit] in He. apply in_app_or in He. destruct He as [He|He].
    - cbn [image_edit] in He. destruct (choose f) as [[t r]|] eqn:Ef; [|contradiction]. destruct He as [<-|[]].
      destruct (Hok f t r Hi Ef) as [Ht _]. apply image_text_valid. exact Ht.
    - unfold alias_edit in He. destruct (from_alias f) as [a|]; [|contradiction]. destruct (call f) as [t|] eqn:Ef; [|contradiction].
      destruct He as [<-|[]]. apply alias_valid. apply (Hal f t Hi Ef). }
  exists st. split; [unfold splicer_from; rewrite (parse_content _ _ _ E); exact Es|]. split; [exact Eu|]. intros g Eg.
  rewrite Et. apply (rename_any unq choose call input d Hv E (d_instructions d) [] eq_refl Hok Hal g Eg).
Qed.

(** ** Renaming a stage *)

Lemma parent_spec_fun ss i f p p' : parent_spec ss i f p -> parent_spec ss i f p' -> p = p'.
Proof.
  intros P P'. inversion P as [S E|j t S Hj Ht Ha Hb E|S Ha E]; inversion P' as [S' E'|j' t' S' Hj' Ht' Ha' Hb' E'|S' Ha' E']; try tauto.
  - f_equal. destruct (Nat.lt_trichotomy j j') as [K|[K|K]]; [exfalso; apply (Hb' j t K Ht Ha)|exact K|exfalso; apply (Hb j' t' K Ht' Ha')].
  - exfalso. apply (Ha' j t Hj Ht Ha).
  - exfalso. apply (Ha j' t' Hj' Ht' Ha').
Qed.

Lemma alias_no_digest n r : alias_text n -> image_ref_of n r -> image_accepted n r.
Proof.
  intros Hn Hr. split; [apply alias_image; exact Hn|]. split; [exact Hr|]. intros h Hh. exfalso.
  assert (NA : forall m u v, n = u ++ m ++ v -> ~ In AT m).
  { intros m u v -> K. destruct Hn as [_ Hn]. rewrite Forall_forall in Hn. specialize (Hn AT).
    assert (X : alias_char AT = true) by (apply Hn; apply in_or_app; right; apply in_or_app; left; exact K). discriminate. }
  assert (SI : forall s a b, splits_into s a b (Some h) -> In AT s).
  { intros s a b H. inversion H. apply in_or_app. right. left. reflexivity. }
  destruct Hr as [(rest & (x & (E & _) & _) & K)|(_ & _ & K)]; rewrite Hh in K; apply SI in K.
  - apply (NA rest (x ++ [SLASH]) []); [rewrite app_nil_r, <- app_assoc; exact E|exact K].
  - apply (NA n [] []); [rewrite app_nil_r; reflexivity|exact K].
Qed.

Lemma froms_renewed choose call g l : froms (map (with_new_names choose call g) l) = map (from_with_names choose call g) (froms l).
Proof. induction l as [|i l IH]; [reflexivity|]. destruct i as [f| | | | | | | |]; cbn [map with_new_names move_instruction froms]; rewrite IH; reflexivity. Qed.

Lemma in_froms l f : In f (froms l) <-> In (IFrom f) l.
Proof.
  induction l as [|i l IH]; [reflexivity|]. destruct i; cbn [froms In]; rewrite IH; split; intros [H|H] || intros H; try discriminate; auto;
    try (destruct H as [H|H]; [discriminate|exact H]).
  - left. congruence.
  - left. congruence.
Qed.

Section Renamed.
Variables (d d' : dockerfile) (ss : list stage) (k : nat) (n : bytes).
Hypothesis S : stages_new d = Ok ss.
Hypothesis Hnew : new_name (d_instructions d) n.
(** The FROMs correspond. *)
Hypothesis Len : length (froms (d_instructions d')) = length (froms (d_instructions d)).
Hypothesis Alias : forall i f f', nth_error (froms (d_instructions d)) i = Some f -> nth_error (froms (d_instructions d')) i = Some f' ->
  option_map ss_content (from_alias f') = if i =? k then option_map (fun _ => n) (from_alias f) else option_map ss_content (from_alias f).
Hypothesis Image : forall i f f' s, nth_error (froms (d_instructions d)) i = Some f -> nth_error (froms (d_instructions d')) i = Some f' ->
  nth_error ss i = Some s ->
  (st_parent s = PStage k -> ss_content (from_image f') = n) /\
  (st_parent s <> PStage k -> ss_content (from_image f') = ss_content (from_image f) /\ from_image_parsed f' = from_image_parsed f).

Lemma alias_other i f f' m : nth_error (froms (d_instructions d)) i = Some f -> nth_error (froms (d_instructions d')) i = Some f' -> i <> k ->
  alias_is f' m <-> alias_is f m.
Proof.
  intros Ef Ef' Hi. pose proof (Alias i f f' Ef Ef') as A. destruct (Nat.eqb_spec i k); [contradiction|]. unfold alias_is.
  destruct (from_alias f) as [a|], (from_alias f') as [a'|]; cbn [option_map] in A; try discriminate.
  - injection A as A. split; intros (x & Ex & K); injection Ex as <-; eexists; (split; [reflexivity|]); congruence.
  - split; intros (x & Ex & _); discriminate.
Qed.

Lemma alias_this f f' m : nth_error (froms (d_instructions d)) k = Some f -> nth_error (froms (d_instructions d')) k = Some f' ->
  alias_is f' m <-> from_alias f <> None /\ same_nocase n m.
Proof.
  intros Ef Ef'. pose proof (Alias k f f' Ef Ef') as A. rewrite Nat.eqb_refl in A. unfold alias_is.
  destruct (from_alias f) as [a|], (from_alias f') as [a'|]; cbn [option_map] in A; try discriminate.
  - injection A as A. split; [intros (x & Ex & K); injection Ex as <-; split; [discriminate|congruence]|].
    intros [_ K]. exists a'. split; [reflexivity|congruence].
  - split; [intros (x & Ex & _); discriminate|intros [K _]; congruence].
Qed.

Lemma fresh i f : nth_error (froms (d_instructions d)) i = Some f -> ~ image_is f n /\ ~ alias_is f n.
Proof. intros Ef. apply (proj2 Hnew). apply in_froms. eapply nth_error_In. exact Ef. Qed.

Variable ss' : list stage.
Hypothesis S' : stages_new d' = Ok ss'.

Lemma renamed_length : length ss' = length ss.
Proof. rewrite <- (proj1 (stage_of d' ss' S')), <- (proj1 (stage_of d ss S)). exact Len. Qed.

Lemma pair_stage i s' : nth_error ss' i = Some s' -> exists s f f', nth_error ss i = Some s /\ stage_from s f /\ stage_from s' f' /\
  nth_error (froms (d_instructions d)) i = Some f /\ nth_error (froms (d_instructions d')) i = Some f'.
Proof.
  intros Es'. destruct (from_of i s' S' Es') as (f' & Hf' & Ef'). destruct (nth_error ss i) as [s|] eqn:Es.
  - destruct (from_of i s S Es) as (f & Hf & Ef). exists s, f, f'. auto.
  - exfalso. apply nth_error_None in Es. rewrite <- renamed_length in Es. apply nth_error_None in Es. congruence.
Qed.

Lemma pair_of i s : nth_error ss i = Some s -> exists s' f f', nth_error ss' i = Some s' /\ stage_from s f /\ stage_from s' f' /\
  nth_error (froms (d_instructions d)) i = Some f /\ nth_error (froms (d_instructions d')) i = Some f'.
Proof.
  intros Es. destruct (nth_error ss' i) as [s'|] eqn:Es'.
  - destruct (pair_stage i s' Es') as (t & f & f' & E & K). rewrite Es in E. injection E as <-. exists s', f, f'. split; [reflexivity|exact K].
  - exfalso. apply nth_error_None in Es'. rewrite renamed_length in Es'. apply nth_error_None in Es'. congruence.
Qed.

Lemma same_parent i s s' : nth_error ss i = Some s -> nth_error ss' i = Some s' -> st_parent s' = st_parent s.
Proof.
  intros Es Es'. destruct (pair_of i s Es) as (t' & f & f' & E & Hf & Hf' & Ef & Ef'). rewrite Es' in E. injection E as <-.
  pose proof (C27_parents d ss i s f S Es Hf) as P. destruct (Image i f f' s Ef Ef' Es) as [I1 I2].
  apply (parent_spec_fun ss' i f'); [apply (C27_parents d' ss' i s' f' S' Es' Hf')|].
  destruct (fresh i f Ef) as [Nf _]. unfold image_is in Nf.
  inversion P as [Sc Ep|j t Sc Hj Ht Ha Hb Ep|Sc Ha Ep].
  - apply parent_scratch. rewrite (proj1 (I2 ltac:(congruence))). exact Sc.
  - destruct (pair_of j t Ht) as (t' & g & g' & Et' & Hg & Hg' & Eg & Eg').
    destruct (Nat.eq_dec j k) as [->|Hne].
    + pose proof (I1 (eq_sym Ep)) as Ei. rewrite (alias_iff t g _ Hg) in Ha. apply (parent_stage ss' i f' k t'); [|exact Hj|exact Et'| |].
      * rewrite Ei. exact (proj1 Hnew).
      * rewrite (alias_iff t' g' _ Hg'), Ei. apply (alias_this g g' n Eg Eg'). split; [|reflexivity].
        destruct Ha as (x & Ex & _). congruence.
      * intros m u Hm Hu. destruct (pair_stage m u Hu) as (v & h & h' & Ev & Hh & Hh' & Eh & Eh').
        rewrite (alias_iff u h' _ Hh'), Ei, (alias_other m h h' n Eh Eh') by lia. apply (fresh m h Eh).
    + destruct (I2 ltac:(congruence)) as [Ei _]. apply (parent_stage ss' i f' j t'); [rewrite Ei; exact Sc|exact Hj|exact Et'| |].
      * rewrite (alias_iff t' g' _ Hg'), Ei, (alias_other j g g' _ Eg Eg' Hne), <- (alias_iff t g _ Hg). exact Ha.
      * intros m u Hm Hu. destruct (pair_stage m u Hu) as (v & h & h' & Ev & Hh & Hh' & Eh & Eh'). rewrite (alias_iff u h' _ Hh'), Ei.
        destruct (Nat.eq_dec m k) as [->|Hmk].
        -- rewrite (alias_this h h' _ Eh Eh'). intros [_ K]. apply Nf. symmetry. exact K.
        -- rewrite (alias_other m h h' _ Eh Eh' Hmk), <- (alias_iff v h _ Hh). apply (Hb m v Hm Ev).
  - destruct (I2 ltac:(congruence)) as [Ei Er]. rewrite <- Er. apply parent_image; [rewrite Ei; exact Sc|].
    intros m u Hm Hu. destruct (pair_stage m u Hu) as (v & h & h' & Ev & Hh & Hh' & Eh & Eh'). rewrite (alias_iff u h' _ Hh'), Ei.
    destruct (Nat.eq_dec m k) as [->|Hmk].
    + rewrite (alias_this h h' _ Eh Eh'). intros [_ K]. apply Nf. symmetry. exact K.
    + rewrite (alias_other m h h' _ Eh Eh' Hmk), <- (alias_iff v h _ Hh). apply (Ha m v Hm Ev).
Qed.

Lemma same_chain i r : chain_ends ss i r -> chain_ends ss' i r.
Proof.
  induction 1 as [i s E Hn|i s j r E Ep C IH].
  - destruct (pair_of i s E) as (s' & _ & _ & Es' & _). rewrite <- (same_parent i s s' E Es') in *. apply chain_stop; assumption.
  - destruct (pair_of i s E) as (s' & _ & _ & Es' & _). apply (chain_up ss' i s' j r); [exact Es'|rewrite (same_parent i s s' E Es'); exact Ep|exact IH].
Qed.

Lemma same_root i s s' : nth_error ss i = Some s -> nth_error ss' i = Some s' -> st_root s' = st_root s.
Proof.
  intros Es Es'. destruct (C28_roots d) as (st & E1 & K1). rewrite S in E1. injection E1 as <-. destruct (K1 i s Es) as [C _].
  destruct (C28_roots d') as (st' & E2 & K2). rewrite S' in E2. injection E2 as <-. destruct (K2 i s' Es') as [C' _].
  apply (C28_root_unique ss' i); [exact C'|apply same_chain; exact C].
Qed.

Lemma new_stage_name i s s' : nth_error ss i = Some s -> nth_error ss' i = Some s' ->
  st_name s' = if i =? k then option_map (fun _ => to_lower n) (st_name s) else st_name s.
Proof.
  intros Es Es'. destruct (C26_stage_index_name d ss i s S Es) as (_ & f & Hf & En & _).
  destruct (C26_stage_index_name d' ss' i s' S' Es') as (_ & f' & Hf' & En' & _).
  assert (Ef : nth_error (froms (d_instructions d)) i = Some f) by (apply (stage_of d ss S); exists s; split; assumption).
  assert (Ef' : nth_error (froms (d_instructions d')) i = Some f') by (apply (stage_of d' ss' S'); exists s'; split; assumption).
  pose proof (Alias i f f' Ef Ef') as A. rewrite En', En.
  destruct (i =? k), (from_alias f) as [a|], (from_alias f') as [a'|]; cbn [option_map] in *; try discriminate; congruence.
Qed.

(** Which stages a name finds *)
Lemma found_first e st m j s : stages_new e = Ok st -> nth_error st j = Some s -> alias_matches s m ->
  (forall i t, i < j -> nth_error st i = Some t -> ~ alias_matches t m) -> get_by_name st m = Some s.
Proof.
  intros E Es Ha Hb. pose proof (C29_get_by_name e st m E) as F. destruct (get_by_name st m) as [t|]; cbn [first_such] in F.
  - destruct F as (l1 & l2 & -> & At & N1). destruct (Nat.lt_trichotomy (length l1) j) as [K|[K|K]].
    + exfalso. apply (Hb (length l1) t K); [|exact At]. rewrite nth_error_app2, Nat.sub_diag by lia. reflexivity.
    + subst j. rewrite nth_error_app2, Nat.sub_diag in Es by lia. exact Es.
    + exfalso. rewrite nth_error_app1 in Es by exact K. rewrite Forall_forall in N1. apply (N1 s); [eapply nth_error_In; exact Es|exact Ha].
  - exfalso. rewrite Forall_forall in F. apply (F s); [eapply nth_error_In; exact Es|exact Ha].
Qed.

Lemma found_none e st m : stages_new e = Ok st -> (forall i t, nth_error st i = Some t -> ~ alias_matches t m) -> get_by_name st m = None.
Proof.
  intros E Hn. pose proof (C29_get_by_name e st m E) as F. destruct (get_by_name st m) as [t|]; [|reflexivity]. cbn [first_such] in F.
  destruct F as (l1 & l2 & -> & At & N1). exfalso. apply (Hn (length l1) t); [|exact At]. rewrite nth_error_app2, Nat.sub_diag by lia. reflexivity.
Qed.

Lemma new_found s : nth_error ss k = Some s -> st_name s <> None -> option_map st_index (get_by_name ss' n) = Some k.
Proof.
  intros Es Hn. destruct (pair_of k s Es) as (s' & f & f' & Es' & Hf & Hf' & Ef & Ef').
  rewrite (found_first d' ss' n k s' S' Es').
  - cbn [option_map]. f_equal. apply (C26_stage_index_name d' ss' k s' S' Es').
  - rewrite (alias_iff s' f' _ Hf'). apply (alias_this f f' n Ef Ef'). split; [|reflexivity].
    destruct (C26_stage_index_name d ss k s S Es) as (_ & f2 & Hf2 & En & _). rewrite (stage_from_fun _ _ _ Hf Hf2).
    destruct (from_alias f2); [discriminate|]. cbn [option_map] in En. congruence.
  - intros i t Hi Ht. destruct (pair_stage i t Ht) as (v & h & h' & Ev & Hh & Hh' & Eh & Eh').
    rewrite (alias_iff t h' _ Hh'), (alias_other i h h' n Eh Eh') by lia. apply (fresh i h Eh).
Qed.

Lemma others_found m : ~ same_nocase n m -> (forall s, nth_error ss k = Some s -> st_name s <> Some (to_lower m)) ->
  option_map st_index (get_by_name ss' m) = option_map st_index (get_by_name ss m).
Proof.
  intros Hm Hk.
  assert (M : forall i t t', nth_error ss i = Some t -> nth_error ss' i = Some t' -> alias_matches t' m <-> alias_matches t m).
  { intros i t t' Et Et'. destruct (pair_of i t Et) as (u & f & f' & E & Hf & Hf' & Ef & Ef'). rewrite Et' in E. injection E as <-.
    rewrite (alias_iff t' f' _ Hf'), (alias_iff t f _ Hf). destruct (Nat.eq_dec i k) as [->|Hne]; [|apply (alias_other i f f' m Ef Ef' Hne)].
    split.
    - intros K. apply (alias_this f f' m Ef Ef') in K. tauto.
    - intros (a & Ea & K). exfalso. apply (Hk t Et). destruct (C26_stage_index_name d ss k t S Et) as (_ & f2 & Hf2 & En & _).
      rewrite En, <- (stage_from_fun _ _ _ Hf Hf2), Ea. cbn [option_map]. f_equal. exact K. }
  pose proof (C29_get_by_name d ss m S) as F. destruct (get_by_name ss m) as [s|]; cbn [first_such] in F.
  - destruct F as (l1 & l2 & El & As & N1). assert (Es : nth_error ss (length l1) = Some s) by (rewrite El, nth_error_app2, Nat.sub_diag by lia; reflexivity).
    destruct (pair_of _ s Es) as (s' & _ & _ & Es' & _). rewrite (found_first d' ss' m (length l1) s' S' Es').
    + cbn [option_map]. f_equal. rewrite (proj1 (C26_stage_index_name d' ss' _ s' S' Es')), (proj1 (C26_stage_index_name d ss _ s S Es)). reflexivity.
    + apply (M _ s s' Es Es'). exact As.
    + intros i t' Hi Ht'. destruct (pair_stage i t' Ht') as (t & _ & _ & Et & _). rewrite (M i t t' Et Ht').
      rewrite Forall_forall in N1. apply N1. rewrite El, nth_error_app1 in Et by exact Hi. eapply nth_error_In. exact Et.
  - rewrite (found_none d' ss' m S'); [reflexivity|]. intros i t' Ht'. destruct (pair_stage i t' Ht') as (t & _ & _ & Et & _). rewrite (M i t t' Et Ht').
    rewrite Forall_forall in F. apply F. eapply nth_error_In. exact Et.
Qed.

End Renamed.

(** A stage gets a new name: its alias and the images of the stages whose parent it is
    are spliced, in any order.  The result parses; there are the same stages, with the
    same parents and roots (also the same images); only this stage has another name,
    and is found under it; every other name finds what it did. *)
Theorem C78_stage unq input d ss k n r ops : valid_utf8 input = true -> parse unq input = Ok d -> stages_new d = Ok ss ->
  alias_text n -> image_ref_of n r -> new_name (d_instructions d) n ->
  fits input (stage_edits ss k n r (d_instructions d)) -> Permutation (stage_edits ss k n r (d_instructions d)) ops ->
  exists st d' ss', splice_all (splicer_from d) ops = Ok st /\ parse unq (sp_content st) = Ok d' /\ stages_new d' = Ok ss' /\
    length ss' = length ss /\
    (forall i s s', nth_error ss i = Some s -> nth_error ss' i = Some s' ->
      st_index s' = i /\ st_parent s' = st_parent s /\ st_root s' = st_root s /\
      st_name s' = if i =? k then option_map (fun _ => to_lower n) (st_name s) else st_name s) /\
    (forall s, nth_error ss k = Some s -> st_name s <> None -> option_map st_index (get_by_name ss' n) = Some k) /\
    (forall m, ~ same_nocase n m -> (forall s, nth_error ss k = Some s -> st_name s <> Some (to_lower m)) ->
      option_map st_index (get_by_name ss' m) = option_map st_index (get_by_name ss m)).
Proof.
  intros Hv E S Hn Hr Hnew Hfit Hp.
  destruct (C78_names unq input d (stage_image ss k n r) (stage_alias k n) ops Hv E) as (st & Es & _ & K); [| |exact Hfit|exact Hp|].
  { intros f t r0 _ Hc. unfold stage_image in Hc. destruct (option_map st_parent _) as [[|j|]|]; try discriminate.
    destruct (j =? k); [|discriminate]. injection Hc as <- <-. apply alias_no_digest; assumption. }
  { intros f t _ Hc. unfold stage_alias in Hc. destruct (_ =? _); [|discriminate]. injection Hc as <-. exact Hn. }
  specialize (K _ eq_refl). match type of K with context [after_edits ?x] => set (g := after_edits x) in K end.
  match type of K with _ = Ok ?x => set (d' := x) in K end.
  destruct (stages_new_spec d') as (ss' & S' & _). exists st, d', ss'.
  assert (Ef : froms (d_instructions d') = map (from_with_names (stage_image ss k n r) (stage_alias k n) g) (froms (d_instructions d)))
    by apply froms_renewed.
  assert (Fi : forall i f, nth_error (froms (d_instructions d)) i = Some f -> from_index f = i).
  { intros i f Hf. destruct (proj1 (proj2 (stage_of d ss S) i f) Hf) as (s & Hs & Hsf).
    destruct (C26_stage_index_name d ss i s S Hs) as (_ & f2 & Hf2 & _ & Hx). rewrite (stage_from_fun _ _ _ Hsf Hf2). apply Hx.
    intros a b c Eab. apply (C08_from_index unq input d a b c E Eab). }
  assert (Len : length (froms (d_instructions d')) = length (froms (d_instructions d))) by (rewrite Ef; apply map_length).
  assert (Alias : forall i f f', nth_error (froms (d_instructions d)) i = Some f -> nth_error (froms (d_instructions d')) i = Some f' ->
    option_map ss_content (from_alias f') = if i =? k then option_map (fun _ => n) (from_alias f) else option_map ss_content (from_alias f)).
  { intros i f f' Hf Hf'. rewrite Ef, nth_error_map, Hf in Hf'. cbn [option_map] in Hf'. injection Hf' as <-.
    unfold from_with_names, stage_alias. rewrite (Fi i f Hf).
    destruct (stage_image ss k n r f) as [[t r0]|]; destruct (i =? k); cbn [with_image with_alias move_from from_alias]; destruct (from_alias f); reflexivity. }
  assert (Image : forall i f f' s, nth_error (froms (d_instructions d)) i = Some f -> nth_error (froms (d_instructions d')) i = Some f' ->
    nth_error ss i = Some s ->
    (st_parent s = PStage k -> ss_content (from_image f') = n) /\
    (st_parent s <> PStage k -> ss_content (from_image f') = ss_content (from_image f) /\ from_image_parsed f' = from_image_parsed f)).
  { intros i f f' s Hf Hf' Hs. rewrite Ef, nth_error_map, Hf in Hf'. cbn [option_map] in Hf'. injection Hf' as <-.
    unfold from_with_names, stage_image. rewrite (Fi i f Hf), Hs. cbn [option_map]. split.
    - intros ->. rewrite Nat.eqb_refl. reflexivity.
    - intros Hne. assert (X : match st_parent s with PStage j => if j =? k then Some (n, r) else None | _ => None end = None).
      { destruct (st_parent s) as [|j|]; try reflexivity. destruct (Nat.eqb_spec j k) as [->|]; [congruence|reflexivity]. }
      rewrite X. destruct (stage_alias k n f); split; reflexivity. }
  split; [exact Es|]. split; [exact K|]. split; [exact S'|].
  split; [apply (renamed_length d d' ss S Len ss' S')|]. split; [|split].
  - intros i s s' Hs Hs'. split; [apply (C26_stage_index_name d' ss' i s' S' Hs')|].
    split; [eapply (same_parent d d' ss k n); eassumption|]. split; [eapply (same_root d d' ss k n); eassumption|].
    eapply (new_stage_name d d' ss k n); eassumption.
  - intros s Hs Hsn. eapply (new_found d d' ss k n); eassumption.
  - intros m Hm Hk. eapply (others_found d d' ss k n); eassumption.
Qed.

(** ** Cases *)

Definition rename_text : bytes :=
  bs "FROM build" ++ [LF] ++ bs "FROM golang:1 AS Build" ++ [LF] ++ bs "RUN make" ++ [LF] ++
  bs "FROM --platform=a build AS test" ++ [LF] ++ bs "FROM BUILD" ++ [LF] ++ bs "FROM test".
Definition rename_doc : dockerfile := rd rename_text.
Definition rename_stages : list stage := match stages_new rename_doc with Ok ss => ss | _ => [] end.
Definition rename_result : bytes :=
  bs "FROM build" ++ [LF] ++ bs "FROM golang:1 AS compile" ++ [LF] ++ bs "RUN make" ++ [LF] ++
  bs "FROM --platform=a compile AS test" ++ [LF] ++ bs "FROM compile" ++ [LF] ++ bs "FROM test".

(** The second of five stages is renamed; the first FROM has an image of the old name,
    which is not the stage and stays; two FROMs refer to it, one of them in capitals. *)
Example C78_stage_case : exists st d' ss' a b,
  valid_utf8 rename_text = true /\ parse enquote_unquote rename_text = Ok rename_doc /\ stages_new rename_doc = Ok rename_stages /\
  alias_text (bs "compile") /\ image_ref_of (bs "compile") (image_parse (bs "compile")) /\ new_name (d_instructions rename_doc) (bs "compile") /\
  stage_edits rename_stages 1 (bs "compile") (image_parse (bs "compile")) (d_instructions rename_doc) =
    [(Span 28 33, bs "compile"); (Span 61 66, bs "compile"); (Span 80 85, bs "compile")] /\
  splice_all (splicer_from rename_doc) [(Span 61 66, bs "compile"); (Span 80 85, bs "compile"); (Span 28 33, bs "compile")] = Ok st /\
  sp_content st = rename_result /\ parse enquote_unquote rename_result = Ok d' /\ stages_new d' = Ok ss' /\
  map st_parent rename_stages = [PImage a; PImage b; PStage 1; PStage 1; PStage 2] /\
  map st_parent ss' = [PImage a; PImage b; PStage 1; PStage 1; PStage 2] /\
  map st_root ss' = [PImage a; PImage b; PImage b; PImage b; PImage b] /\
  map st_name rename_stages = [None; Some (bs "build"); Some (bs "test"); None; None] /\
  map st_name ss' = [None; Some (bs "compile"); Some (bs "test"); None; None] /\
  option_map st_index (get_by_name rename_stages (bs "build")) = Some 1 /\ option_map st_index (get_by_name ss' (bs "build")) = None.
Proof.
  do 5 eexists. split; [vm_compute; reflexivity|]. split; [vm_compute; reflexivity|]. split; [vm_compute; reflexivity|].
  split; [split; [discriminate|vm_compute; repeat constructor]|]. split; [apply ImageFacts.image_parse_spec; reflexivity|].
  split.
  { split; [vm_compute; discriminate|]. intros f Hf. apply in_froms in Hf.
    assert (W : forallb (fun f => negb (beqb (to_lower (ss_content (from_image f))) (bs "compile")) &&
      match from_alias f with Some a => negb (beqb (to_lower (ss_content a)) (bs "compile")) | None => true end) (froms (d_instructions rename_doc)) = true)
      by (vm_compute; reflexivity).
    rewrite forallb_forall in W. specialize (W f Hf). apply andb_prop in W. destruct W as [W1 W2]. split.
    - intros K. unfold image_is, same_nocase in K. rewrite K in W1. vm_compute in W1. discriminate.
    - intros (a & Ea & K). rewrite Ea in W2. unfold same_nocase in K. rewrite K in W2. vm_compute in W2. discriminate. }
  split; [vm_compute; reflexivity|]. split; [vm_compute; reflexivity|]. split; [vm_compute; reflexivity|]. split; [vm_compute; reflexivity|].
  split; [vm_compute; reflexivity|]. repeat (split; [vm_compute; reflexivity|]). vm_compute. reflexivity.
Qed.

(** A name that is not new: the stage is renamed to the alias of an earlier one, and
    the FROM that referred to it now has the other stage as parent. *)
Example C78_taken : exists d ss st d' ss' a b,
  parse enquote_unquote (bs "FROM a AS b" ++ [LF] ++ bs "FROM c AS d" ++ [LF] ++ bs "FROM d") = Ok d /\ stages_new d = Ok ss /\
  ~ new_name (d_instructions d) (bs "b") /\
  stage_edits ss 1 (bs "b") (image_parse (bs "b")) (d_instructions d) = [(Span 22 23, bs "b"); (Span 29 30, bs "b")] /\
  splice_all (splicer_from d) [(Span 22 23, bs "b"); (Span 29 30, bs "b")] = Ok st /\ parse enquote_unquote (sp_content st) = Ok d' /\
  stages_new d' = Ok ss' /\ map st_parent ss = [PImage a; PImage b; PStage 1] /\ map st_parent ss' = [PImage a; PImage b; PStage 0].
Proof.
  do 7 eexists. split; [vm_compute; reflexivity|]. split; [vm_compute; reflexivity|]. split.
  { intros [_ K]. destruct (K (FromInstruction (Span 0 11) [] (SpannedString (Span 5 6) (bs "a")) (image_parse (bs "a")) 0
      (Some (SpannedString (Span 10 11) (bs "b"))))) as [_ K2]; [left; reflexivity|]. apply K2. eexists. split; reflexivity. }
  split; [vm_compute; reflexivity|]. split; [vm_compute; reflexivity|]. split; [vm_compute; reflexivity|].
  split; [vm_compute; reflexivity|]. split; vm_compute; reflexivity.
Qed.

(** One alias, after a comment between the words and before trailing blanks *)
Definition alias_text_case : bytes := bs "FROM --f=v a \" ++ [LF] ++ bs "# c" ++ [LF] ++ bs " as X-y  " ++ [LF] ++ bs "RUN x".
Example C78_alias_case : exists d st d' f al,
  parse enquote_unquote alias_text_case = Ok d /\ In (IFrom f) (d_instructions d) /\ from_alias f = Some al /\
  ss_span al = Span 23 26 /\ splice (splicer_from d) (ss_span al) (bs "new_name") = Ok st /\ parse enquote_unquote (sp_content st) = Ok d' /\
  map (fun f => option_map ss_content (from_alias f)) (froms (d_instructions d')) = [Some (bs "new_name")] /\
  map (fun i => instruction_span i) (d_instructions d) = [Span 0 26; Span 29 34] /\
  map (fun i => instruction_span i) (d_instructions d') = [Span 0 31; Span 34 39].
Proof.
  do 5 eexists. split; [vm_compute; reflexivity|]. split; [left; reflexivity|]. split; [reflexivity|].
  split; [reflexivity|]. split; [vm_compute; reflexivity|]. split; [vm_compute; reflexivity|]. split; [reflexivity|]. split; reflexivity.
Qed.

(** A text that is no alias: after a space another word follows, and nothing is parsed. *)
Example C78_not_alias : exists d st, parse enquote_unquote (bs "FROM a AS b") = Ok d /\ ~ alias_text (bs "c d") /\
  splice (splicer_from d) (Span 10 11) (bs "c d") = Ok st /\ parse enquote_unquote (sp_content st) = Err EParse.
Proof.
  do 2 eexists. split; [vm_compute; reflexivity|]. split; [intros [_ K]; rewrite Forall_forall in K; specialize (K 32%N (or_intror (or_introl eq_refl))); discriminate|].
  split; [vm_compute; reflexivity|]. vm_compute. reflexivity.
Qed.

Print Assumptions C78_alias.
Print Assumptions C78_names.
Print Assumptions C78_stage.
