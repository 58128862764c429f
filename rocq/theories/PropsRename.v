(** Only which names are equal matters for the stages (C75). *)

From Coq Require Import String Permutation.
From Verif Require Import Bytes BytesFacts Result Ast Image Dockerfile Enquote Splicer Stage SpecStage StageFacts PropsStage
  SpecImage SpecSplice SpecDoc SpecMove SpecParts PropsDoc PropsParse PropsRewrite SpecRename.
Local Open Scope nat_scope.

Lemma froms_app a b : froms (a ++ b) = froms a ++ froms b.
Proof. induction a as [|[] a IH]; cbn [froms app]; rewrite ?IH; reflexivity. Qed.

Lemma froms_none l : Forall (fun i => ~ is_from i) l -> froms l = [].
Proof.
  intros H. induction H as [|i l Hi H IH]; [reflexivity|]. destruct i; cbn [froms]; try exact IH.
  exfalso. apply Hi. eexists. reflexivity.
Qed.

Lemma froms_stages ss : (forall s, In s ss -> exists f, stage_from s f) ->
  length (froms (concat (map st_instructions ss))) = length ss /\
  forall i s f, nth_error ss i = Some s -> stage_from s f -> nth_error (froms (concat (map st_instructions ss))) i = Some f.
Proof.
  induction ss as [|s ss IH]; intros H.
  { split; [reflexivity|]. intros [|i] s f K; discriminate. }
  cbn [map concat length]. rewrite froms_app.
  destruct (H s (or_introl eq_refl)) as (f & rest & E & Hr). rewrite E. cbn [froms]. rewrite (froms_none rest Hr). cbn [app length].
  destruct IH as [IH1 IH2]; [intros t Ht; apply H; right; exact Ht|]. split; [rewrite IH1; reflexivity|].
  intros [|i] s0 f0; cbn [nth_error].
  - intros K (r0 & E0 & _). injection K as <-. rewrite E in E0. injection E0 as -> _. reflexivity.
  - apply IH2.
Qed.

(** The stages are numbered as the FROM instructions. *)
Lemma stage_of d ss : stages_new d = Ok ss ->
  length (froms (d_instructions d)) = length ss /\
  forall i f, nth_error (froms (d_instructions d)) i = Some f <-> exists s, nth_error ss i = Some s /\ stage_from s f.
Proof.
  intros H. destruct (C25_stages_partition d ss H) as (pre & E & Hp & Hs). rewrite E, froms_app, (froms_none pre Hp). cbn [app].
  destruct (froms_stages ss Hs) as [K1 K2]. split; [exact K1|]. intros i f. split.
  - intros Ef. destruct (nth_error ss i) as [s|] eqn:Es.
    + exists s. split; [reflexivity|]. destruct (Hs s (nth_error_In _ _ Es)) as [f0 Hf0].
      pose proof (K2 i s f0 Es Hf0) as K. rewrite Ef in K. injection K as ->. exact Hf0.
    + apply nth_error_None in Es. rewrite <- K1 in Es. apply nth_error_None in Es. congruence.
  - intros (s & Es & Hf). apply (K2 i s f Es Hf).
Qed.

Section Two.
Variables (d d' : dockerfile) (ss ss' : list stage).
Hypothesis H : stages_new d = Ok ss.
Hypothesis H' : stages_new d' = Ok ss'.
Let fs := froms (d_instructions d).
Let fs' := froms (d_instructions d').
Hypothesis R : same_references fs fs'.

Lemma two_length : length ss = length ss'.
Proof.
  destruct R as [E _]. unfold fs, fs' in E. rewrite (proj1 (stage_of d ss H)), (proj1 (stage_of d' ss' H')) in E. exact E.
Qed.

Lemma alias_iff s f n : stage_from s f -> alias_matches s n <-> alias_is f n.
Proof.
  intros Hf. split.
  - intros (g & a & Hg & K). rewrite (stage_from_fun _ _ _ Hf Hg). exists a. exact K.
  - intros (a & K). exists f, a. split; [exact Hf|exact K].
Qed.

Lemma from_of {e st} i s : stages_new e = Ok st -> nth_error st i = Some s ->
  exists f, stage_from s f /\ nth_error (froms (d_instructions e)) i = Some f.
Proof.
  intros E K. destruct (C26_stage_index_name e st i s E K) as (_ & f & Hf & _). exists f. split; [exact Hf|].
  apply (proj2 (stage_of e st E)). exists s. split; [exact K|exact Hf].
Qed.

(** The earlier stage with the alias, in both *)
Lemma match_iff i f f' k t t' : k < i -> nth_error fs i = Some f -> nth_error fs' i = Some f' ->
  nth_error ss k = Some t -> nth_error ss' k = Some t' ->
  alias_matches t (ss_content (from_image f)) <-> alias_matches t' (ss_content (from_image f')).
Proof.
  intros Hk Ef Ef' Et Et'. destruct (from_of k t H Et) as (g & Hg & Eg). destruct (from_of k t' H' Et') as (g' & Hg' & Eg').
  rewrite (alias_iff t g _ Hg), (alias_iff t' g' _ Hg'). apply (proj2 (proj2 R i f f' Ef Ef') k g g' Hk Eg Eg').
Qed.

Lemma other_stage k t : nth_error ss k = Some t -> exists t', nth_error ss' k = Some t'.
Proof.
  intros E. destruct (nth_error ss' k) as [t'|] eqn:E'; [exists t'; reflexivity|]. apply nth_error_None in E'.
  assert (K : nth_error ss k <> None) by congruence. apply nth_error_Some in K. pose proof two_length. lia.
Qed.
Lemma this_stage k t' : nth_error ss' k = Some t' -> exists t, nth_error ss k = Some t.
Proof.
  intros E'. destruct (nth_error ss k) as [t|] eqn:E; [exists t; reflexivity|]. apply nth_error_None in E.
  assert (K : nth_error ss' k <> None) by congruence. apply nth_error_Some in K. pose proof two_length. lia.
Qed.

Lemma parents_alike i s s' : nth_error ss i = Some s -> nth_error ss' i = Some s' ->
  alike fs fs' i (st_parent s) (st_parent s').
Proof.
  intros Es Es'. destruct (from_of i s H Es) as (f & Hf & Ef). destruct (from_of i s' H' Es') as (f' & Hf' & Ef').
  pose proof (C27_parents d ss i s f H Es Hf) as P. pose proof (C27_parents d' ss' i s' f' H' Es' Hf') as P'.
  destruct (proj2 R i f f' Ef Ef') as [Sc _]. unfold image_is in Sc.
  inversion P as [S E|j t S Hj Ht Ha Hb E|S Ha E]; inversion P' as [S' E'|j' t' S' Hj' Ht' Ha' Hb' E'|S' Ha' E']; try tauto.
  - apply alike_scratch.
  - assert (j = j') as ->; [|apply alike_stage; exact Hj'].
    destruct (Nat.lt_trichotomy j j') as [K|[K|K]]; [exfalso|exact K|exfalso].
    + destruct (other_stage j t Ht) as [u Hu]. apply (Hb' j u K Hu). apply (match_iff i f f' j t u Hj Ef Ef' Ht Hu). exact Ha.
    + destruct (this_stage j' t' Ht') as [u Hu]. apply (Hb j' u K Hu). apply (match_iff i f f' j' u t' Hj' Ef Ef' Hu Ht'). exact Ha'.
  - exfalso. destruct (other_stage j t Ht) as [u Hu]. apply (Ha' j u Hj Hu). apply (match_iff i f f' j t u Hj Ef Ef' Ht Hu). exact Ha.
  - exfalso. destruct (this_stage j' t' Ht') as [u Hu]. apply (Ha j' u Hj' Hu). apply (match_iff i f f' j' u t' Hj' Ef Ef' Hu Ht'). exact Ha'.
  - apply (alike_image fs fs' i i f f'); [lia|exact Ef|exact Ef'].
Qed.

Lemma chains_alike i r : chain_ends ss i r -> forall r', chain_ends ss' i r' -> alike fs fs' i r r' /\ forall j, r <> PStage j.
Proof.
  intros C. induction C as [i s E Hn|i s j r E Ep C IH]; intros r' C'.
  - inversion C' as [i' s' E' Hn'|i' s' j r2 E' Ep' C2]; subst.
    + split; [apply (parents_alike i s s' E E')|exact Hn].
    + exfalso. pose proof (parents_alike i s s' E E') as K. rewrite Ep' in K. inversion K as [k Hk E1 E2| |]. apply (Hn j). congruence.
  - inversion C' as [i' s' E' Hn'|i' s' j' r2 E' Ep' C2]; subst.
    + exfalso. pose proof (parents_alike i s s' E E') as K. rewrite Ep in K. inversion K as [k Hk E1 E2| |]. apply (Hn' j). congruence.
    + pose proof (parents_alike i s s' E E') as K. rewrite Ep, Ep' in K. inversion K as [k Hk E1 E2| |]. subst j'.
      destruct (IH r' C2) as [A N']. split; [|exact N'].
      inversion A as [k' Hk'|E3|k' f f' Hk' E3 E4]; subst.
      * exfalso. apply (N' k'). reflexivity.
      * apply alike_scratch.
      * apply (alike_image fs fs' i k' f f'); [lia|exact E3|exact E4].
Qed.

Theorem two_stages i s s' : nth_error ss i = Some s -> nth_error ss' i = Some s' ->
  st_index s = i /\ st_index s' = i /\ alike fs fs' i (st_parent s) (st_parent s') /\ alike fs fs' i (st_root s) (st_root s').
Proof.
  intros Es Es'. split; [apply (C26_stage_index_name d ss i s H Es)|]. split; [apply (C26_stage_index_name d' ss' i s' H' Es')|].
  split; [apply (parents_alike i s s' Es Es')|].
  destruct (C28_roots d) as (st & E1 & K1). rewrite H in E1. injection E1 as <-. destruct (K1 i s Es) as [C _].
  destruct (C28_roots d') as (st' & E2 & K2). rewrite H' in E2. injection E2 as <-. destruct (K2 i s' Es') as [C' _].
  apply (chains_alike i (st_root s) C (st_root s') C').
Qed.

(** Looking up a name *)
Lemma two_lookup n n' : (forall i f f', nth_error fs i = Some f -> nth_error fs' i = Some f' -> alias_is f n <-> alias_is f' n') ->
  option_map st_index (get_by_name ss n) = option_map st_index (get_by_name ss' n').
Proof.
  intros Hn.
  assert (M : forall k t t', nth_error ss k = Some t -> nth_error ss' k = Some t' -> alias_matches t n <-> alias_matches t' n').
  { intros k t t' Et Et'. destruct (from_of k t H Et) as (g & Hg & Eg). destruct (from_of k t' H' Et') as (g' & Hg' & Eg').
    rewrite (alias_iff t g _ Hg), (alias_iff t' g' _ Hg'). apply (Hn k g g' Eg Eg'). }
  pose proof (C29_get_by_name d ss n H) as F. pose proof (C29_get_by_name d' ss' n' H') as F'.
  assert (W : forall st t, first_such (fun s => alias_matches s t) st (get_by_name st t) ->
    match get_by_name st t with
    | Some s => exists k, nth_error st k = Some s /\ alias_matches s t /\ forall j u, j < k -> nth_error st j = Some u -> ~ alias_matches u t
    | None => forall j u, nth_error st j = Some u -> ~ alias_matches u t
    end).
  { intros st t G. destruct (get_by_name st t) as [s|]; cbn [first_such] in G.
    - destruct G as (l1 & l2 & E & A & Fa). exists (length l1). split; [rewrite E, nth_error_app2, Nat.sub_diag by lia; reflexivity|].
      split; [exact A|]. intros j u Hj Eu. rewrite E, nth_error_app1 in Eu by exact Hj. rewrite Forall_forall in Fa.
      apply Fa. eapply nth_error_In. exact Eu.
    - intros j u Eu. rewrite Forall_forall in G. apply G. eapply nth_error_In. exact Eu. }
  apply W in F. apply W in F'. clear W.
  destruct (get_by_name ss n) as [s|], (get_by_name ss' n') as [s'|]; cbn [option_map].
  - destruct F as (k & Ek & A & B). destruct F' as (k' & Ek' & A' & B').
    assert (k = k') as <-.
    { destruct (Nat.lt_trichotomy k k') as [K|[K|K]]; [exfalso|exact K|exfalso].
      + destruct (other_stage k s Ek) as [u Hu]. apply (B' k u K Hu). apply (M k s u Ek Hu). exact A.
      + destruct (this_stage k' s' Ek') as [u Hu]. apply (B k' u K Hu). apply (M k' u s' Hu Ek'). exact A'. }
    rewrite (proj1 (C26_stage_index_name d ss k s H Ek)), (proj1 (C26_stage_index_name d' ss' k s' H' Ek')). reflexivity.
  - exfalso. destruct F as (k & Ek & A & B). destruct (other_stage k s Ek) as [u Hu]. apply (F' k u Hu). apply (M k s u Ek Hu). exact A.
  - exfalso. destruct F' as (k & Ek & A & B). destruct (this_stage k s' Ek) as [u Hu]. apply (F k u Hu). apply (M k u s' Hu Ek). exact A.
  - reflexivity.
Qed.
End Two.

(** ** C75 *)

(** Two documents in which the same images refer to the same aliases (and to scratch)
    have the same stages: as many, with the same indices; parents and roots are the same
    stage, scratch in both, or the image of the same FROM. *)
Theorem C75_same_references d d' : same_references (froms (d_instructions d)) (froms (d_instructions d')) ->
  exists ss ss', stages_new d = Ok ss /\ stages_new d' = Ok ss' /\ length ss = length ss' /\
    length ss = length (froms (d_instructions d)) /\
    forall i s s', nth_error ss i = Some s -> nth_error ss' i = Some s' ->
      st_index s = i /\ st_index s' = i /\
      alike (froms (d_instructions d)) (froms (d_instructions d')) i (st_parent s) (st_parent s') /\
      alike (froms (d_instructions d)) (froms (d_instructions d')) i (st_root s) (st_root s').
Proof.
  intros R. destruct (stages_new_spec d) as (ss & E & _). destruct (stages_new_spec d') as (ss' & E' & _).
  exists ss, ss'. split; [exact E|]. split; [exact E'|]. split; [apply (two_length d d' ss ss' E E' R)|].
  split; [symmetry; apply (stage_of d ss E)|]. apply (two_stages d d' ss ss' E E' R).
Qed.

Lemma renamed_references r fs fs' : Forall2 (renamed r) fs fs' -> keeps_apart r fs -> same_references fs fs'.
Proof.
  intros F [Sc Inj].
  assert (N : forall i f f', nth_error fs i = Some f -> nth_error fs' i = Some f' -> renamed r f f').
  { clear Inj. induction F as [|x y l l' Hx F IH]; intros [|i] f f' Ef Ef'; try discriminate; cbn [nth_error] in *.
    - injection Ef as <-. injection Ef' as <-. exact Hx.
    - apply (IH i f f' Ef Ef'). }
  split; [clear - F; induction F as [|x y l l' _ F IH]; [reflexivity|]; cbn [length]; rewrite IH; reflexivity|]. intros i f f' Ef Ef'. destruct (N i f f' Ef Ef') as [Ei _].
  assert (Uf : used_names fs (to_lower (ss_content (from_image f)))).
  { right. exists f. split; [eapply nth_error_In; exact Ef|left; reflexivity]. }
  split.
  - unfold image_is, same_nocase. rewrite Ei. change (to_lower (bs "scratch")) with (bs "scratch"). split; intros K.
    + rewrite K. exact Sc.
    + apply Inj; [exact Uf|left; reflexivity|congruence].
  - intros j g g' _ Eg Eg'. destruct (N j g g' Eg Eg') as [_ Ea]. unfold alias_is, same_nocase. rewrite Ei.
    destruct (from_alias g) as [a|] eqn:A, (from_alias g') as [a'|] eqn:A'; cbn [option_map] in Ea; try discriminate.
    + injection Ea as Ea. split; intros (x & Ex & K); injection Ex as <-.
      * exists a'. split; [reflexivity|]. rewrite Ea, K. reflexivity.
      * exists a. split; [reflexivity|]. apply Inj; [|exact Uf|congruence].
        right. exists g. split; [eapply nth_error_In; exact Eg|]. right. exists a. split; [exact A|reflexivity].
    + split; intros (x & Ex & _); discriminate.
Qed.

(** So a renaming that confuses no two of the names used (and scratch) keeps everything;
    the stages have the new names, and are found under them. *)
Theorem C75_renamed r d d' : Forall2 (renamed r) (froms (d_instructions d)) (froms (d_instructions d')) ->
  keeps_apart r (froms (d_instructions d)) ->
  exists ss ss', stages_new d = Ok ss /\ stages_new d' = Ok ss' /\ length ss = length ss' /\
    (forall i s s', nth_error ss i = Some s -> nth_error ss' i = Some s' ->
      st_index s = i /\ st_index s' = i /\ st_name s' = option_map r (st_name s) /\
      alike (froms (d_instructions d)) (froms (d_instructions d')) i (st_parent s) (st_parent s') /\
      alike (froms (d_instructions d)) (froms (d_instructions d')) i (st_root s) (st_root s')) /\
    (forall n, used_names (froms (d_instructions d)) (to_lower n) -> forall n', to_lower n' = r (to_lower n) ->
      option_map st_index (get_by_name ss' n') = option_map st_index (get_by_name ss n)).
Proof.
  intros F K. pose proof (renamed_references r _ _ F K) as R.
  destruct (C75_same_references d d' R) as (ss & ss' & E & E' & El & _ & A). exists ss, ss'. split; [exact E|]. split; [exact E'|]. split; [exact El|].
  assert (N : forall i f f', nth_error (froms (d_instructions d)) i = Some f -> nth_error (froms (d_instructions d')) i = Some f' -> renamed r f f').
  { clear - F. induction F as [|x y l l' Hx F IH]; intros [|i] f f' Ef Ef'; try discriminate; cbn [nth_error] in *.
    - injection Ef as <-. injection Ef' as <-. exact Hx.
    - apply (IH i f f' Ef Ef'). }
  split.
  - intros i s s' Es Es'. destruct (A i s s' Es Es') as (I & I' & P & Q). split; [exact I|]. split; [exact I'|]. split; [|split; [exact P|exact Q]].
    destruct (C26_stage_index_name d ss i s E Es) as (_ & f & Hf & En & _).
    destruct (C26_stage_index_name d' ss' i s' E' Es') as (_ & f' & Hf' & En' & _).
    assert (Ef : nth_error (froms (d_instructions d)) i = Some f) by (apply (stage_of d ss E); exists s; split; assumption).
    assert (Ef' : nth_error (froms (d_instructions d')) i = Some f') by (apply (stage_of d' ss' E'); exists s'; split; assumption).
    destruct (N i f f' Ef Ef') as [_ Ea]. rewrite En', En, Ea. destruct (from_alias f); reflexivity.
  - intros n Un n' En'. symmetry. apply (two_lookup d d' ss ss' E E' R).
    intros i f f' Ef Ef'. destruct (N i f f' Ef Ef') as [_ Ea]. unfold alias_is, same_nocase. rewrite En'. destruct K as [_ Inj].
    destruct (from_alias f) as [a|] eqn:Fa, (from_alias f') as [a'|] eqn:Fa'; cbn [option_map] in Ea; try discriminate.
    + injection Ea as Ea. split; intros (x & Ex & K); injection Ex as <-.
      * exists a'. split; [reflexivity|]. rewrite Ea, K. reflexivity.
      * exists a. split; [reflexivity|]. apply Inj; [|exact Un|congruence].
        right. exists f. split; [eapply nth_error_In; exact Ef|]. right. exists a. split; [exact Fa|reflexivity].
    + split; intros (x & Ex & _); discriminate.
Qed.

(** Renaming by letter case only *)
Theorem C75_letter_case d d' : Forall2 (fun f f' => image_is f' (ss_content (from_image f)) /\
    option_map (fun a => to_lower (ss_content a)) (from_alias f') = option_map (fun a => to_lower (ss_content a)) (from_alias f))
    (froms (d_instructions d)) (froms (d_instructions d')) ->
  exists ss ss', stages_new d = Ok ss /\ stages_new d' = Ok ss' /\ length ss = length ss' /\
    forall i s s', nth_error ss i = Some s -> nth_error ss' i = Some s' ->
      st_index s = i /\ st_index s' = i /\ st_name s' = st_name s /\
      alike (froms (d_instructions d)) (froms (d_instructions d')) i (st_parent s) (st_parent s') /\
      alike (froms (d_instructions d)) (froms (d_instructions d')) i (st_root s) (st_root s').
Proof.
  intros F. destruct (C75_renamed (fun n => n) d d') as (ss & ss' & E & E' & El & A & _).
  - induction F as [|x y l l' Hx F IH]; constructor; assumption.
  - split; [reflexivity|]. intros n m _ _ K. exact K.
  - exists ss, ss'. split; [exact E|]. split; [exact E'|]. split; [exact El|]. intros i s s' Es Es'.
    destruct (A i s s' Es Es') as (I & I' & N & P & Q). split; [exact I|]. split; [exact I'|].
    split; [rewrite N; destruct (st_name s); reflexivity|]. split; [exact P|exact Q].
Qed.

Lemma froms_rewritten choose g l : froms (map (with_new_image choose g) l) =
  map (fun f => match choose f with Some (t, r) => with_image (move_from g f) t r | None => move_from g f end) (froms l).
Proof.
  induction l as [|i l IH]; [reflexivity|]. destruct i as [f| | | | | | | |]; cbn [map with_new_image move_instruction froms]; try exact IH.
  destruct (choose f) as [[t r]|]; cbn [froms map]; rewrite IH; reflexivity.
Qed.

(** Images rewritten with the splicer, and the result parsed: if each new image refers
    to what the old one did (an earlier alias, scratch, or neither), the stages are the
    same, with the same names; an image as parent or root is that of the same FROM. *)
Theorem C75_images_rewritten unq input d choose ops : valid_utf8 input = true -> parse unq input = Ok d ->
  (forall f t r, In (IFrom f) (d_instructions d) -> choose f = Some (t, r) -> image_accepted t r) ->
  (forall i f t r, nth_error (froms (d_instructions d)) i = Some f -> choose f = Some (t, r) ->
    (image_is f (bs "scratch") <-> same_nocase t (bs "scratch")) /\
    forall j g, j < i -> nth_error (froms (d_instructions d)) j = Some g ->
      (alias_is g (ss_content (from_image f)) <-> alias_is g t)) ->
  fits input (image_edits choose (d_instructions d)) -> Permutation (image_edits choose (d_instructions d)) ops ->
  exists st d' ss ss', splice_all (splicer_from d) ops = Ok st /\ parse unq (sp_content st) = Ok d' /\
    stages_new d = Ok ss /\ stages_new d' = Ok ss' /\ length ss = length ss' /\
    forall i s s', nth_error ss i = Some s -> nth_error ss' i = Some s' ->
      st_index s = i /\ st_index s' = i /\ st_name s' = st_name s /\
      alike (froms (d_instructions d)) (froms (d_instructions d')) i (st_parent s) (st_parent s') /\
      alike (froms (d_instructions d)) (froms (d_instructions d')) i (st_root s) (st_root s').
Proof.
  intros Hv E Hok Href Hfit Hp. destruct (C39_any_images unq input d choose ops Hv E Hok Hfit Hp) as (st & Es & _ & K).
  specialize (K _ eq_refl). set (g := after_edits (image_edits choose (d_instructions d))) in K.
  match type of K with _ = Ok ?x => set (d' := x) in K end.
  assert (Ef : froms (d_instructions d') =
    map (fun f => match choose f with Some (t, r) => with_image (move_from g f) t r | None => move_from g f end) (froms (d_instructions d)))
    by apply froms_rewritten.
  assert (Al : forall f n, alias_is (match choose f with Some (t, r) => with_image (move_from g f) t r | None => move_from g f end) n <-> alias_is f n).
  { intros f n. unfold alias_is.
    replace (from_alias (match choose f with Some (t, r) => with_image (move_from g f) t r | None => move_from g f end))
      with (option_map (move_string g) (from_alias f)) by (destruct (choose f) as [[t r]|]; reflexivity).
    destruct (from_alias f) as [a|]; cbn [option_map]; split; intros (x & Ex & C); try discriminate; injection Ex as <-.
    - exists a. split; [reflexivity|exact C].
    - eexists. split; [reflexivity|exact C]. }
  assert (R : same_references (froms (d_instructions d)) (froms (d_instructions d'))).
  { rewrite Ef. split; [symmetry; apply map_length|]. intros i f f' Hi Hi'. rewrite nth_error_map, Hi in Hi'. cbn [option_map] in Hi'.
    injection Hi' as <-. destruct (choose f) as [[t r]|] eqn:C.
    - destruct (Href i f t r Hi C) as [S1 S2]. split; [exact S1|]. intros j x x' Hj Hx Hx'. rewrite nth_error_map, Hx in Hx'. cbn [option_map] in Hx'.
      injection Hx' as <-. rewrite Al. apply (S2 j x Hj Hx).
    - split; [reflexivity|]. intros j x x' Hj Hx Hx'. rewrite nth_error_map, Hx in Hx'. cbn [option_map] in Hx'.
      injection Hx' as <-. rewrite Al. reflexivity. }
  destruct (C75_same_references d d' R) as (ss & ss' & S & S' & El & _ & A).
  exists st, d', ss, ss'. split; [exact Es|]. split; [exact K|]. split; [exact S|]. split; [exact S'|]. split; [exact El|].
  intros i s s' Hs Hs'. destruct (A i s s' Hs Hs') as (I & I' & P & Q). split; [exact I|]. split; [exact I'|]. split; [|split; [exact P|exact Q]].
  destruct (C26_stage_index_name d ss i s S Hs) as (_ & f & Hf & En & _).
  destruct (C26_stage_index_name d' ss' i s' S' Hs') as (_ & f' & Hf' & En' & _).
  assert (F : nth_error (froms (d_instructions d)) i = Some f) by (apply (stage_of d ss S); exists s; split; assumption).
  assert (F' : nth_error (froms (d_instructions d')) i = Some f') by (apply (stage_of d' ss' S'); exists s'; split; assumption).
  rewrite Ef, nth_error_map, F in F'. cbn [option_map] in F'. injection F' as <-. rewrite En', En.
  destruct (choose f) as [[t r]|]; cbn [with_image move_from from_alias]; destruct (from_alias f); reflexivity.
Qed.

Definition rd (t : bytes) : dockerfile := match parse enquote_unquote t with Ok d => d | _ => Dockerfile [] [] [] end.

(** The references are what matters: one renamed alias, and a parent is another. *)
Example C75_alias_alone : exists d d' ss ss' s s',
  stages_new d = Ok ss /\ stages_new d' = Ok ss' /\ nth_error ss 1 = Some s /\ nth_error ss' 1 = Some s' /\
  Forall2 (fun f f' => from_image f' = from_image f /\ (from_alias f = None <-> from_alias f' = None))
    (froms (d_instructions d)) (froms (d_instructions d')) /\
  st_parent s = PStage 0 /\ exists i, st_parent s' = PImage i.
Proof.
  exists (rd (bs "FROM a AS b" ++ [LF] ++ bs "FROM b")), (rd (bs "FROM a AS c" ++ [LF] ++ bs "FROM b")).
  do 4 eexists. split; [vm_compute; reflexivity|]. split; [vm_compute; reflexivity|]. split; [reflexivity|]. split; [reflexivity|].
  split; [|split; [reflexivity|eexists; reflexivity]]. vm_compute. repeat constructor; try discriminate.
Qed.

Definition before_renaming : bytes :=
  bs "FROM golang:1 AS Build" ++ [LF] ++ bs "RUN make" ++ [LF] ++ bs "FROM scratch" ++ [LF] ++ bs "FROM build AS test" ++ [LF] ++ bs "FROM TEST".
Definition after_renaming : bytes :=
  bs "FROM rust:2 AS compile" ++ [LF] ++ bs "FROM Scratch" ++ [LF] ++ bs "FROM Compile AS Build" ++ [LF] ++ bs "ENV a=b" ++ [LF] ++ bs "FROM build".
Definition renaming (n : bytes) : bytes :=
  if beqb n (bs "golang:1") then bs "rust:2" else if beqb n (bs "build") then bs "compile" else if beqb n (bs "test") then bs "build" else n.

(** Four stages, two references, one of them through another; a name that gets the old
    name of another *)
Example C75_case : Forall2 (renamed renaming) (froms (d_instructions (rd before_renaming))) (froms (d_instructions (rd after_renaming))) /\
  keeps_apart renaming (froms (d_instructions (rd before_renaming))) /\
  exists ss ss' r r', stages_new (rd before_renaming) = Ok ss /\ stages_new (rd after_renaming) = Ok ss' /\
    map st_parent ss = [PImage r; PScratch; PStage 0; PStage 2] /\ map st_parent ss' = [PImage r'; PScratch; PStage 0; PStage 2] /\
    map st_root ss = [PImage r; PScratch; PImage r; PImage r] /\ map st_root ss' = [PImage r'; PScratch; PImage r'; PImage r'] /\
    map st_name ss' = [Some (bs "compile"); None; Some (bs "build"); None] /\
    option_map st_index (get_by_name ss (bs "build")) = Some 0 /\ option_map st_index (get_by_name ss' (bs "build")) = Some 2.
Proof.
  split; [vm_compute; repeat constructor|]. split.
  - split; [reflexivity|].
    assert (U : forall n, used_names (froms (d_instructions (rd before_renaming))) n ->
      In n [bs "scratch"; bs "golang:1"; bs "build"; bs "test"]).
    { intros n [->|(f & Hf & Hn)]; [left; reflexivity|].
      assert (W : Forall (fun f => In (to_lower (ss_content (from_image f))) [bs "scratch"; bs "golang:1"; bs "build"; bs "test"] /\
        forall a, from_alias f = Some a -> In (to_lower (ss_content a)) [bs "scratch"; bs "golang:1"; bs "build"; bs "test"])
        (froms (d_instructions (rd before_renaming)))).
      { apply Forall_forall. intros g Hg.
        assert (G : forallb (fun f => existsb (beqb (to_lower (ss_content (from_image f)))) [bs "scratch"; bs "golang:1"; bs "build"; bs "test"] &&
          match from_alias f with Some a => existsb (beqb (to_lower (ss_content a))) [bs "scratch"; bs "golang:1"; bs "build"; bs "test"] | None => true end)
          (froms (d_instructions (rd before_renaming))) = true) by (vm_compute; reflexivity).
        rewrite forallb_forall in G. specialize (G g Hg). apply andb_prop in G. destruct G as [G1 G2].
        assert (X : forall n l, existsb (beqb n) l = true -> In n l).
        { intros x l K. apply existsb_exists in K. destruct K as (y & Hy & Ey). apply beqb_eq in Ey. subst y. exact Hy. }
        split; [apply X; exact G1|]. intros a Ea. rewrite Ea in G2. apply X. exact G2. }
      rewrite Forall_forall in W. destruct (W f Hf) as [W1 W2]. destruct Hn as [->|(a & Ea & ->)]; [exact W1|exact (W2 a Ea)]. }
    intros n m Hn Hm. apply U in Hn. apply U in Hm. cbn [In] in Hn, Hm.
    destruct Hn as [<-|[<-|[<-|[<-|[]]]]], Hm as [<-|[<-|[<-|[<-|[]]]]]; vm_compute; congruence.
  - do 4 eexists. split; [vm_compute; reflexivity|]. split; [vm_compute; reflexivity|]. repeat (split; [reflexivity|]). reflexivity.
Qed.

(** The first image rewritten; the second FROM still has the first stage as parent. *)
Example C75_rewritten_case : exists d st d' ss ss' r r',
  parse enquote_unquote (bs "FROM a AS b" ++ [LF] ++ bs "FROM b") = Ok d /\
  splice (splicer_from d) (Span 5 6) (bs "reg.io/a:2") = Ok st /\ parse enquote_unquote (sp_content st) = Ok d' /\
  image_accepted (bs "reg.io/a:2") (image_parse (bs "reg.io/a:2")) /\
  stages_new d = Ok ss /\ stages_new d' = Ok ss' /\ r <> r' /\
  map st_parent ss = [PImage r; PStage 0] /\ map st_parent ss' = [PImage r'; PStage 0] /\
  map st_root ss = [PImage r; PImage r] /\ map st_root ss' = [PImage r'; PImage r'].
Proof.
  do 7 eexists. split; [vm_compute; reflexivity|]. split; [vm_compute; reflexivity|]. split; [vm_compute; reflexivity|].
  split; [split; [split; [discriminate|vm_compute; repeat constructor]|split; [apply ImageFacts.image_parse_spec; reflexivity|vm_compute; discriminate]]|].
  split; [vm_compute; reflexivity|]. split; [vm_compute; reflexivity|]. split; [|repeat split]. discriminate.
Qed.

Print Assumptions C75_same_references.
Print Assumptions C75_renamed.
Print Assumptions C75_letter_case.
Print Assumptions C75_images_rewritten.
