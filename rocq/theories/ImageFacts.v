(** Image references: proofs. *)

From Coq Require Import String.
From Verif Require Import Bytes BytesFacts Grammar Result Ast Splicer Image SpecImage.
Local Open Scope nat_scope.

Lemma split_once_some c s a b : split_once c s = Some (a, b) -> s = a ++ c :: b /\ ~ In c a.
Proof.
  revert a b; induction s as [|x s IH]; intros a b H; cbn [split_once] in H; [discriminate|].
  destruct (x =? c)%N eqn:E.
  - injection H as <- <-. bool_hyps. subst x. split; [reflexivity|intros []].
  - destruct (split_once c s) as [[a' b']|] eqn:E'; [|discriminate].
    injection H as <- <-. destruct (IH a' b' eq_refl) as [-> Hn]. split; [reflexivity|].
    bool_hyps. intros [H|H]; [congruence|contradiction].
Qed.

Lemma split_once_none c s : split_once c s = None <-> ~ In c s.
Proof.
  induction s as [|x s IH]; cbn [split_once]; [split; [intros _ []|reflexivity]|].
  destruct (x =? c)%N eqn:E; bool_hyps.
  - split; [discriminate|]. intros H. exfalso. apply H. left. assumption.
  - destruct (split_once c s) as [[a' b']|] eqn:E'.
    + split; [discriminate|]. intros H. exfalso.
      assert (In c s). { apply split_once_some in E'. destruct E' as [-> _]. apply in_elt. }
      apply H. right. assumption.
    + split; [|reflexivity]. intros _. apply proj1 in IH. specialize (IH eq_refl).
      intros [H|H]; [congruence|contradiction].
Qed.

Lemma split_once_app c a b : ~ In c a -> split_once c (a ++ c :: b) = Some (a, b).
Proof.
  induction a as [|x a IH]; intros H; cbn [app split_once].
  - rewrite N.eqb_refl. reflexivity.
  - destruct (x =? c)%N eqn:E; bool_hyps; [exfalso; apply H; left; assumption|].
    rewrite IH; [reflexivity|]. intros Hi. apply H. right. assumption.
Qed.

Lemma contains_spec c s : contains c s = true <-> In c s.
Proof.
  unfold contains. rewrite existsb_exists. split.
  - intros (x & Hx & E). apply N.eqb_eq in E. subst. assumption.
  - intros H. exists c. rewrite N.eqb_refl. auto.
Qed.

Lemma is_registry_spec r : is_registry r = true <-> registry_host r.
Proof.
  unfold is_registry, registry_host. rewrite !orb_true_iff, !contains_spec, beqb_eq. tauto.
Qed.

Lemma parse_image_full_registry r s : i_registry (parse_image_full r s) = r.
Proof.
  unfold parse_image_full. destruct (split_once AT s) as [[? ?]|]; [reflexivity|].
  destruct (split_once COLON s) as [[? ?]|]; reflexivity.
Qed.

Lemma display_parse_full r s :
  image_display (parse_image_full r s) = (match r with Some x => x ++ [SLASH] | None => [] end) ++ s.
Proof.
  unfold parse_image_full, image_display.
  destruct (split_once AT s) as [[a b]|] eqn:E; cbn [i_registry i_image i_tag i_hash].
  - apply split_once_some in E. destruct E as [-> _]. reflexivity.
  - destruct (split_once COLON s) as [[a b]|] eqn:E'; cbn [i_registry i_image i_tag i_hash].
    + apply split_once_some in E'. destruct E' as [-> _]. reflexivity.
    + rewrite app_nil_r. reflexivity.
Qed.

Lemma display_parse s : image_display (image_parse s) = s.
Proof.
  unfold image_parse. destruct (split_once SLASH s) as [[a b]|] eqn:E.
  - destruct (is_registry a); rewrite display_parse_full; [|reflexivity].
    apply split_once_some in E. destruct E as [-> _]. rewrite <- app_assoc. reflexivity.
  - apply display_parse_full.
Qed.

Lemma app_split_unique (c : N) a1 b1 a2 b2 :
  ~ In c a1 -> ~ In c a2 -> a1 ++ c :: b1 = a2 ++ c :: b2 -> a1 = a2 /\ b1 = b2.
Proof.
  intros H1 H2 E.
  pose proof (split_once_app c a1 b1 H1) as E1. rewrite E, (split_once_app c a2 b2 H2) in E1.
  injection E1 as -> ->. split; reflexivity.
Qed.

Lemma splits_into_iff rest image tag hash r :
  splits_into rest image tag hash <-> parse_image_full r rest = ImageRef r image tag hash.
Proof.
  unfold parse_image_full. split.
  - intros H. destruct H as [image hash Ha | image tag Ha Hc | image Ha Hc].
    + rewrite split_once_app by assumption. reflexivity.
    + rewrite (proj2 (split_once_none AT _) Ha). rewrite split_once_app by assumption. reflexivity.
    + rewrite (proj2 (split_once_none AT _) Ha), (proj2 (split_once_none COLON _) Hc). reflexivity.
  - destruct (split_once AT rest) as [[a b]|] eqn:E.
    + apply split_once_some in E. destruct E as [-> Ha]. intros H. injection H as <- <- <-.
      constructor. assumption.
    + apply split_once_none in E.
      destruct (split_once COLON rest) as [[a b]|] eqn:E'.
      * apply split_once_some in E'. destruct E' as [-> Hc]. intros H. injection H as <- <- <-.
        constructor; assumption.
      * apply split_once_none in E'. intros H. injection H as <- <- <-. constructor; assumption.
Qed.

Lemma image_ref_eta i : i = ImageRef (i_registry i) (i_image i) (i_tag i) (i_hash i).
Proof. destruct i; reflexivity. Qed.

Lemma image_parse_spec s i : image_parse s = i <-> image_ref_of s i.
Proof.
  unfold image_parse, image_ref_of. split.
  - intros <-. destruct (split_once SLASH s) as [[a b]|] eqn:E.
    + apply split_once_some in E. destruct E as [-> Ha].
      destruct (is_registry a) eqn:R.
      * left. exists b. split.
        -- exists a. split; [|apply parse_image_full_registry].
           split; [reflexivity|]. split; [assumption|]. apply is_registry_spec. exact R.
        -- apply (splits_into_iff _ _ _ _ (Some a)).
           rewrite (image_ref_eta (parse_image_full (Some a) b)) at 1.
           rewrite parse_image_full_registry. reflexivity.
      * right. split; [|split].
        -- intros r rest (E & Hr & Hh). apply app_split_unique in E; [|assumption|assumption].
           destruct E as [-> _]. apply is_registry_spec in Hh. congruence.
        -- apply parse_image_full_registry.
        -- apply (splits_into_iff _ _ _ _ None).
           rewrite (image_ref_eta (parse_image_full None _)) at 1.
           rewrite parse_image_full_registry. reflexivity.
    + apply split_once_none in E. right. split; [|split].
      * intros r rest (-> & Hr & Hh). apply E. apply in_elt.
      * apply parse_image_full_registry.
      * apply (splits_into_iff _ _ _ _ None).
        rewrite (image_ref_eta (parse_image_full None _)) at 1.
        rewrite parse_image_full_registry. reflexivity.
  - intros [(rest & (r & (-> & Hr & Hh) & Er) & Hs) | (Hn & Er & Hs)].
    + rewrite split_once_app by assumption.
      rewrite (proj2 (is_registry_spec r) Hh).
      apply (splits_into_iff _ _ _ _ (Some r)) in Hs. rewrite Hs, <- Er. symmetry. apply image_ref_eta.
    + assert (parse_image_full None s = i) as Hp.
      { apply (splits_into_iff _ _ _ _ None) in Hs. rewrite Hs, <- Er. symmetry. apply image_ref_eta. }
      destruct (split_once SLASH s) as [[a b]|] eqn:E; [|exact Hp].
      apply split_once_some in E. destruct E as [-> Ha].
      destruct (is_registry a) eqn:R; [|exact Hp].
      exfalso. apply (Hn a b). split; [reflexivity|]. split; [assumption|]. apply is_registry_spec. exact R.
Qed.

Lemma splits_into_exclusive rest image tag hash :
  splits_into rest image tag hash -> tag = None \/ hash = None.
Proof. intros H. destruct H; auto. Qed.

Lemma image_parse_exclusive s : i_tag (image_parse s) = None \/ i_hash (image_parse s) = None.
Proof.
  destruct (proj1 (image_parse_spec s _) eq_refl) as [(rest & _ & H)|(_ & _ & H)];
    apply splits_into_exclusive in H; exact H.
Qed.

(** Which references survive printing and parsing: exactly those that some text
    parses to. *)
Lemma parse_display_iff i :
  image_parse (image_display i) = i <-> exists s, image_parse s = i.
Proof.
  split; [eauto|]. intros (s & <-). rewrite display_parse. reflexivity.
Qed.

(** The same, in terms of the fields. *)
Lemma parse_display_fields i :
  image_parse (image_display i) = i <->
  (i_tag i = None \/ i_hash i = None) /\
  ~ In AT (i_image i) /\
  (match i_tag i with Some t => ~ In AT t | None => True end) /\
  (i_hash i = None -> ~ In COLON (i_image i)) /\
  (match i_registry i with
   | Some r => ~ In SLASH r /\ registry_host r
   | None => forall r rest, ~ has_registry (image_display i) r rest
   end).
Proof.
  split.
  - intros E. apply image_parse_spec in E.
    assert (K : forall x, splits_into x (i_image i) (i_tag i) (i_hash i) ->
      (i_tag i = None \/ i_hash i = None) /\
      ~ In AT (i_image i) /\ (match i_tag i with Some t => ~ In AT t | None => True end) /\
      (i_hash i = None -> ~ In COLON (i_image i))).
    { intros x H. inversion H as [im ha Ha E1 E2 E3 E4 | im ta Ha Hc E1 E2 E3 E4 | im Ha Hc E1 E2 E3 E4].
      - split; [auto|]. split; [assumption|]. split; [exact I|]. discriminate.
      - split; [auto|]. rewrite in_app_iff in Ha. split; [tauto|]. split.
        + intros Hi. apply Ha. right. right. exact Hi.
        + intros _. assumption.
      - split; [auto|]. split; [assumption|]. split; [exact I|]. intros _. assumption. }
    destruct E as [(rest & (r & (_ & Hr & Hh) & Er) & Hs) | (Hn & Er & Hs)].
    + destruct (K _ Hs) as (K1 & K2 & K3 & K4). rewrite Er. tauto.
    + destruct (K _ Hs) as (K1 & K2 & K3 & K4). rewrite Er. tauto.
  - intros (K1 & K2 & K3 & K4 & K5). apply image_parse_spec. unfold image_ref_of.
    destruct i as [reg image tag hash]. cbn [i_registry i_image i_tag i_hash] in *.
    assert (S : splits_into (image ++ match tag, hash with
                             | Some t, _ => COLON :: t
                             | None, Some h => AT :: h
                             | None, None => [] end) image tag hash).
    { destruct tag as [t|].
      - destruct K1 as [K1|K1]; [discriminate|]. subst hash. constructor; [|auto].
        rewrite in_app_iff. intros [H|[H|H]]; [auto|discriminate|auto].
      - destruct hash as [h|]; [constructor; assumption|].
        rewrite app_nil_r. constructor; auto. }
    destruct reg as [r|].
    + left. eexists. split; [|exact S]. exists r. split; [|reflexivity].
      destruct K5 as [K5 K6]. split; [|split; assumption].
      unfold image_display. cbn [i_registry i_image i_tag i_hash]. rewrite <- app_assoc. reflexivity.
    + right. split; [exact K5|]. split; [reflexivity|].
      unfold image_display. cbn [i_registry i_image i_tag i_hash app]. exact S.
Qed.
