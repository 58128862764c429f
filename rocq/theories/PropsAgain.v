(** What is left to resolve after resolving (C76). *)

From Coq Require Import String ZArith Relation_Operators.
From Verif Require Import Bytes BytesFacts Result Ast Image Splicer Dockerfile Enquote SpecImage ImageFacts SubstFacts SpecDoc DocFacts
  PropsImage PropsDoc PropsParse PropsResolve.
Local Open Scope nat_scope.

(** A dollar sign with which no reference begins *)
Definition stray_dollar (s : bytes) : Prop :=
  exists a b, s = a ++ DOLLAR :: b /\ forall w rest, ~ begins_with_ref (DOLLAR :: b) w rest.

Lemma word_no_dollar w : all_word w -> ~ In DOLLAR w.
Proof. intros H K. unfold all_word in H. rewrite Forall_forall in H. specialize (H _ K). discriminate. Qed.

Lemma past_word u a b rest : ~ In DOLLAR u -> u ++ rest = a ++ DOLLAR :: b -> exists a', rest = a' ++ DOLLAR :: b.
Proof.
  revert a. induction u as [|c u IH]; intros a H E; [exists a; exact E|]. destruct a as [|c' a]; cbn [app] in E; injection E as E1 E2.
  - exfalso. apply H. left. exact E1.
  - apply (IH a); [|exact E2]. intros K. apply H. right. exact K.
Qed.

Lemma stray_read s l : reads_as s l -> (stray_dollar s <-> In (Lit DOLLAR) l).
Proof.
  intros R. induction R as [|s w rest l B R IH|c s l Hn R IH].
  - split; [intros (a & b & E & _); destruct a; discriminate|intros []].
  - assert (K : stray_dollar s <-> stray_dollar rest).
    { split.
      - intros (a & b & E & N).
        assert (X : exists a', rest = a' ++ DOLLAR :: b).
        { destruct a as [|c a]; cbn [app] in E; [exfalso; subst s; exact (N w rest B)|].
          destruct B as [w rest Hw Ha _|w rest Hw Ha]; injection E as _ E.
          - apply (past_word w a b rest); [apply word_no_dollar; exact Ha|exact E].
          - apply (past_word (LBRACE :: w ++ [RBRACE]) a b rest); [|rewrite <- E; cbn [app]; rewrite <- app_assoc; reflexivity].
            intros [K|K]; [discriminate|]. apply in_app_or in K. destruct K as [K|[K|[]]]; [exact (word_no_dollar w Ha K)|discriminate]. }
        destruct X as [a' ->]. exists a', b. split; [reflexivity|exact N].
      - intros (a & b & -> & N). destruct (begins_suffix _ _ _ B) as (pre & -> & _). exists (pre ++ a), b.
        split; [rewrite <- app_assoc; reflexivity|exact N]. }
    rewrite K, IH. cbn [In]. split; [intros H; right; exact H|intros [H|H]; [discriminate|exact H]].
  - cbn [In]. split.
    + intros (a & b & E & N). destruct a as [|c' a]; cbn [app] in E; injection E as -> ->; [left; reflexivity|].
      right. apply IH. exists a, b. split; [reflexivity|exact N].
    + intros [E|H]; [injection E as ->; exists [], s; split; [reflexivity|exact Hn]|].
      apply IH in H. destruct H as (a & b & -> & N). exists (c :: a), b. split; [reflexivity|exact N].
Qed.

(** ** C76 *)

(** The dollar signs of a result: it has one exactly if the text, or the value of a
    variable that is reached, has a stray one. *)
Theorem C76_dollars vs d s out : expands vs d s out ->
  (In DOLLAR out <-> stray_dollar s \/ exists w v, reaches vs s w /\ vs w = Some v /\ stray_dollar v).
Proof.
  revert s out. induction d as [|d IHd]; intros s out H; inversion H as [d0 s0 l out0 R G]; subst.
  - rewrite (stray_read s l R). assert (K : In DOLLAR out <-> In (Lit DOLLAR) l).
    { clear H R. remember 0 as z eqn:Ez. induction G as [d|d c l out G IH|d w v o l out Ew X G IH]; [split; intros []| |discriminate].
      cbn [In]. rewrite (IH Ez). split; (intros [E|E]; [left|right; exact E]); [subst; reflexivity|injection E as ->; reflexivity]. }
    rewrite K. split; [left; assumption|]. intros [A|(w & v & Hw & _)]; [exact A|]. exfalso.
    apply reaches_step in Hw.
    destruct Hw as (x & M & _). apply (expands_not_stuck vs 0 s out H). apply (stuck_depth vs s x M).
  - rewrite (stray_read s l R).
    assert (K : In DOLLAR out <-> In (Lit DOLLAR) l \/ exists w v, In (Ref w) l /\ vs w = Some v /\
      (stray_dollar v \/ exists w' v', reaches vs v w' /\ vs w' = Some v' /\ stray_dollar v')).
    { clear H R. remember (S d) as z eqn:Ez. induction G as [d'|d' c l out G IH|d' w v o l out Ew X G IH].
      - split; [intros []|intros [[]|(w & v & [] & _)]].
      - cbn [In]. rewrite (IH Ez). split.
        + intros [E|[E|(w & v & Hw & Hv)]]; [left; left; subst; reflexivity|left; right; exact E|right; exists w, v; split; [right; exact Hw|exact Hv]].
        + intros [[E|E]|(w & v & [Hw|Hw] & Hv)]; [left; injection E as ->; reflexivity|right; left; exact E|discriminate|].
          right. right. exists w, v. split; [exact Hw|exact Hv].
      - injection Ez as ->. rewrite in_app_iff, (IH eq_refl), (IHd v o X). cbn [In]. split.
        + intros [E|[E|(w' & v' & Hw & Hv)]].
          * right. exists w, v. split; [left; reflexivity|]. split; [exact Ew|exact E].
          * left. right. exact E.
          * right. exists w', v'. split; [right; exact Hw|exact Hv].
        + intros [[E|E]|(w' & v' & [Hw|Hw] & Ev & Hv)]; [discriminate|right; left; exact E| |].
          * injection Hw as <-. left. rewrite Ew in Ev. injection Ev as <-. exact Hv.
          * right. right. exists w', v'. split; [exact Hw|]. split; [exact Ev|exact Hv]. }
    rewrite K. split; (intros [A|A]; [left; exact A|right]).
    + destruct A as (w & v & Hw & Ev & [Hv|(w' & v' & Hr & Ev' & Hv)]).
      * exists w, v. split; [|split; [exact Ev|exact Hv]]. apply reaches_step. exists w. split; [apply (mentions_iff s l w R); exact Hw|left; reflexivity].
      * exists w', v'. split; [|split; [exact Ev'|exact Hv]]. apply reaches_step. exists w.
        split; [apply (mentions_iff s l w R); exact Hw|]. right. exists v. split; [exact Ev|exact Hr].
    + destruct A as (w & v & Hw & Ev & Hv). apply reaches_step in Hw. destruct Hw as (a & Ha & [->|(v' & Ev' & Hw)]).
      * exists a, v. split; [apply (mentions_iff s l a R); exact Ha|]. split; [exact Ev|left; exact Hv].
      * exists a, v'. split; [apply (mentions_iff s l a R); exact Ha|]. split; [exact Ev'|]. right. exists w, v.
        split; [exact Hw|]. split; [exact Ev|exact Hv].
Qed.

Lemma no_dollar_no_mention s w : ~ In DOLLAR s -> ~ mentions s w.
Proof.
  intros H (l & R & K). induction R as [|s w' rest l B R IH|c s l Hn R IH]; [destruct K| |].
  - apply H. destruct B; left; reflexivity.
  - destruct K as [K|K]; [discriminate|]. apply IH; [|exact K]. intros X. apply H. right. exact X.
Qed.

(** A text without stray dollar signs, with values that have none: the result has no
    dollar sign at all, and any further substitution leaves it as it is and uses nothing. *)
Theorem C76_substituted_again s vs used d out used' : rust_string s -> rust_vars vs ->
  substitute s vs used d = Ok (Some out, used') ->
  ~ stray_dollar s -> (forall w v, reaches vs s w -> vs w = Some v -> ~ stray_dollar v) ->
  ~ In DOLLAR out /\ forall vs2 used2 d2, substitute out vs2 used2 d2 = Ok (Some out, used2).
Proof.
  intros Hs Hv E Ns Nv. pose proof (C15_substitute_result s vs used d out used' Hs Hv E) as X.
  assert (Nd : ~ In DOLLAR out).
  { intros K. apply (C76_dollars vs d s out X) in K. destruct K as [K|(w & v & Hw & Ev & K)]; [exact (Ns K)|exact (Nv w v Hw Ev K)]. }
  split; [exact Nd|]. intros vs2 used2 d2. apply (C18_depth_monotone out vs2 used2 0 d2); [lia|].
  apply C18_depth_zero. split; [intros w; apply no_dollar_no_mention; exact Nd|]. split; reflexivity.
Qed.

(** More generally a result is left alone by every further substitution exactly if it
    has no reference. *)
Theorem C76_left_alone out : (forall vs used d, substitute out vs used d = Ok (Some out, used)) <-> forall w, ~ mentions out w.
Proof.
  split.
  - intros H. apply (C18_depth_zero out (fun _ => None) [] out []). apply H.
  - intros H vs used d. apply (C18_depth_monotone out vs used 0 d); [lia|]. apply C18_depth_zero. split; [exact H|]. split; reflexivity.
Qed.

(** The image of a FROM: what it is resolved to is resolved to itself, in any document. *)
Theorem C76_resolved_again unq input d f vs r used : rust_string input -> (forall w v, rust_string w -> unq w = Some v -> rust_string v) ->
  parse unq input = Ok d -> In (IFrom f) (d_instructions d) -> values_of (d_global_args d) vs ->
  resolve_vars_with_context (from_image_parsed f) d = Ok (Some (r, used)) ->
  ~ stray_dollar (ss_content (from_image f)) ->
  (forall w v, reaches vs (ss_content (from_image f)) w -> vs w = Some v -> ~ stray_dollar v) ->
  ~ In DOLLAR (image_display r) /\
  forall d2, resolve_vars_with_context r d2 = Ok (Some (r, [])) /\ resolve_vars r d2 = Ok (Some r).
Proof.
  intros Hi Hu E Hf Hvs Er Ns Nv. destruct (image_texts unq input d f (proj1 Hi) E Hf) as [Et _].
  pose proof (values_of_eq _ _ Hvs) as Ev.
  pose proof (parsed_arg_strings unq input d Hi Hu E) as Ha.
  pose proof (image_rust unq input d f Hi E Hf) as Hs. rewrite Et in Hs.
  unfold resolve_vars_with_context in Er. rewrite Et in Er.
  destruct (substitute (ss_content (from_image f)) (arg_vars (d_global_args d)) [] 16) as [[[out|] u]|e| |] eqn:Es;
    cbn [bind] in Er; try discriminate.
  injection Er as <- <-.
  destruct (C76_substituted_again _ _ _ _ _ _ Hs (arg_strings_vars _ Ha) Es Ns) as [Nd Ag].
  - intros w v Hw Hv. apply (Nv w v); [apply (reaches_ext _ vs _ _ (fun x => eq_sym (Ev x)) Hw)|rewrite Ev; exact Hv].
  - rewrite C13_display_parse. split; [exact Nd|]. intros d2.
    assert (X : resolve_vars_with_context (image_parse out) d2 = Ok (Some (image_parse out, []))).
    { unfold resolve_vars_with_context. rewrite C13_display_parse, Ag. reflexivity. }
    split; [exact X|]. unfold resolve_vars. rewrite X. reflexivity.
Qed.

(** Without that condition it need not be: a stray dollar sign before a reference makes
    a new reference with the value, and the result of [resolve_vars] is no image yet.
    Resolved once more it is another image, or none. *)
Definition strayed (x : string) : bytes := lines ["ARG a=b"; x; "FROM $$a"]%string.
Theorem C76_again_refuted : exists input d f r, rust_string input /\ parse enquote_unquote input = Ok d /\ In (IFrom f) (d_instructions d) /\
  resolve_vars (from_image_parsed f) d = Ok (Some r) /\ mentions (image_display r) (bs "b") /\
  resolve_vars r d = Ok None.
Proof.
  exists (strayed "ARG c"). do 3 eexists. split; [split; vm_compute; reflexivity|]. split; [vm_compute; reflexivity|].
  split; [right; right; left; reflexivity|]. split; [vm_compute; reflexivity|]. split; [|vm_compute; reflexivity].
  exists [Ref (bs "b")]. split; [|left; reflexivity]. apply (reads_ref _ (bs "b") []); [|constructor].
  apply (ref_plain (bs "b") []); [discriminate|repeat constructor|exact I].
Qed.
Theorem C76_another_refuted : exists input d f r r2, rust_string input /\ parse enquote_unquote input = Ok d /\ In (IFrom f) (d_instructions d) /\
  resolve_vars (from_image_parsed f) d = Ok (Some r) /\ resolve_vars r d = Ok (Some r2) /\ r2 <> r.
Proof.
  exists (strayed "ARG b=c"). do 4 eexists. split; [split; vm_compute; reflexivity|]. split; [vm_compute; reflexivity|].
  split; [right; right; left; reflexivity|]. split; [vm_compute; reflexivity|]. split; [vm_compute; reflexivity|discriminate].
Qed.

(** The first image of [varied] (PropsResolve.v) meets the conditions: [a:${tag}], with
    the value [1.$minor] of [tag] and [2] of [minor]. *)
Lemma no_stray s l : reads_as s l -> ~ In (Lit DOLLAR) l -> ~ stray_dollar s.
Proof. intros R H K. apply H. apply (stray_read s l R). exact K. Qed.
Example C76_case : ~ stray_dollar (bs "a:${tag}") /\ ~ stray_dollar (bs "1.$minor") /\ ~ stray_dollar (bs "2") /\
  stray_dollar (bs "$$a") /\ stray_dollar (bs "${a") /\
  exists out, substitute (bs "a:${tag}") example_vars [] 16 = Ok (Some out, [bs "minor"; bs "tag"]) /\ out = bs "a:1.2".
Proof.
  split; [|split; [|split; [|split; [|split]]]].
  - eapply no_stray.
    + apply reads_lit; [intros w rest B; inversion B|]. apply reads_lit; [intros w rest B; inversion B|].
      apply (reads_ref _ (bs "tag") []); [|constructor]. apply (ref_brace (bs "tag") []); [discriminate|repeat constructor].
    + cbn [In]. intros [K|[K|[K|[]]]]; discriminate.
  - eapply no_stray.
    + apply reads_lit; [intros w rest B; inversion B|]. apply reads_lit; [intros w rest B; inversion B|].
      apply (reads_ref _ (bs "minor") []); [|constructor]. apply (ref_plain (bs "minor") []); [discriminate|repeat constructor|exact I].
    + cbn [In]. intros [K|[K|[K|[]]]]; discriminate.
  - intros (a & b & E & _). destruct a as [|? [|? a]]; discriminate.
  - exists [], (bs "$a"). split; [reflexivity|]. intros w rest B. inversion B as [w0 r0 Hw Ha _ E E1|]. subst w0.
    destruct w as [|c w]; [exact (Hw eq_refl)|]. apply (f_equal (hd 0%N)) in E; vm_compute in E. subst c. inversion Ha; subst. discriminate.
  - exists [], (bs "{a"). split; [reflexivity|]. intros w rest B. inversion B as [w0 r0 Hw Ha _ E E1|w0 r0 Hw Ha E E1]; subst w0.
    + destruct w as [|c w]; [exact (Hw eq_refl)|]. apply (f_equal (hd 0%N)) in E; vm_compute in E. subst c. inversion Ha; subst. discriminate.
    + destruct w as [|c [|c' w]]; [exact (Hw eq_refl)| |]; discriminate.
  - eexists. split; vm_compute; reflexivity.
Qed.

Print Assumptions C76_dollars.
Print Assumptions C76_substituted_again.
Print Assumptions C76_left_alone.
Print Assumptions C76_resolved_again.
Print Assumptions C76_again_refuted.
Print Assumptions C76_another_refuted.
