(** Build stages (C25 - C30, C44, C54).  The notions used are those of SpecStage.v.  The
    theorems hold for every list of instructions, not only for parsed ones. *)

From Coq Require Import String.
From Verif Require Import Bytes BytesFacts Result Ast Image Stage SpecImage ImageFacts SpecStage StageFacts SpecDoc.
Local Open Scope nat_scope.

Lemma stages_ok d ss : stages_new d = Ok ss -> stages_inv (d_instructions d) ss (length ss).
Proof.
  intros H. destruct (stages_new_spec d) as (ss' & E & I). rewrite H in E. injection E as <-. exact I.
Qed.

(** ** C25 *)
Theorem C25_stages_partition d ss : stages_new d = Ok ss ->
  exists pre, d_instructions d = pre ++ concat (map st_instructions ss) /\
    Forall (fun i => ~ is_from i) pre /\
    (forall s, In s ss -> exists f, stage_from s f).
Proof.
  intros H. pose proof (stages_ok d ss H) as I. destruct (si_all _ _ _ I) as (pre & E & Hp).
  exists pre. split; [exact E|]. split; [exact Hp|]. intros s Hs. apply In_nth_error in Hs. destruct Hs as [k Hk].
  destruct (si_stage _ _ _ I k s Hk) as (_ & (f & K & _) & _). exists f. exact K.
Qed.

(** ** C26 *)
(** If the FROMs are numbered as the parser numbers them (C08), the index of a
    stage is that of its FROM. *)
Definition from_numbered (l : list instruction) : Prop :=
  forall l1 f l2, l = l1 ++ IFrom f :: l2 -> from_index f = count_from l1.

Lemma count_from_app a b : count_from (a ++ b) = count_from a + count_from b.
Proof. unfold count_from. rewrite filter_app, app_length. reflexivity. Qed.

Lemma count_from_none l : Forall (fun i => ~ is_from i) l -> count_from l = 0.
Proof.
  intros H. induction H as [|i l Hi H IH]; [reflexivity|]. unfold count_from in *. cbn [filter].
  destruct i; try exact IH. exfalso. apply Hi. eexists. reflexivity.
Qed.

Lemma count_from_stages ss : (forall s, In s ss -> exists f, stage_from s f) ->
  count_from (concat (map st_instructions ss)) = length ss.
Proof.
  induction ss as [|s ss IH]; intros H; [reflexivity|]. cbn [map concat length]. rewrite count_from_app, IH.
  - destruct (H s (or_introl eq_refl)) as (f & rest & E & Hr). rewrite E.
    change (IFrom f :: rest) with ([IFrom f] ++ rest). rewrite count_from_app, (count_from_none rest Hr). reflexivity.
  - intros t Ht. apply H. right. exact Ht.
Qed.

Theorem C26_stage_index_name d ss i s : stages_new d = Ok ss -> nth_error ss i = Some s ->
  st_index s = i /\
  exists f, stage_from s f /\
    st_name s = option_map (fun a => to_lower (ss_content a)) (from_alias f) /\
    (from_numbered (d_instructions d) -> from_index f = i).
Proof.
  intros H Hi. pose proof (stages_ok d ss H) as I.
  destruct (si_stage _ _ _ I i s Hi) as (E & (f & K1 & _ & K2) & _).
  split; [exact E|]. exists f. split; [exact K1|]. split; [exact K2|]. intros Hn.
  destruct (C25_stages_partition d ss H) as (pre & Ed & Hp & Hs).
  apply nth_error_split in Hi. destruct Hi as (l1 & l2 & -> & Hl).
  destruct K1 as (rest & Er & Hr).
  rewrite map_app, concat_app in Ed. cbn [map concat] in Ed. rewrite Er, app_assoc in Ed. cbn [app] in Ed.
  rewrite (Hn _ _ _ Ed), count_from_app, (count_from_none pre Hp), count_from_stages; [exact Hl|].
  intros t Ht. apply Hs. apply in_or_app. left. exact Ht.
Qed.

(** ** C27 *)
Theorem C27_parents d ss i s f : stages_new d = Ok ss -> nth_error ss i = Some s -> stage_from s f ->
  parent_spec ss i f (st_parent s).
Proof.
  intros H Hi Hf. destruct (si_stage _ _ _ (stages_ok d ss H) i s Hi) as (_ & (f' & K1 & K2 & _) & _).
  rewrite (stage_from_fun _ _ _ Hf K1). exact K2.
Qed.

Theorem C27_parent_earlier d ss i s j : stages_new d = Ok ss -> nth_error ss i = Some s ->
  st_parent s = PStage j -> j < i /\ exists t, nth_error ss j = Some t.
Proof.
  intros H Hi Hp. destruct (si_stage _ _ _ (stages_ok d ss H) i s Hi) as (_ & (f & _ & K & _) & _).
  rewrite Hp in K. inversion K as [|j' t _ Hj Ht _ _|]; subst. split; [exact Hj|]. exists t. exact Ht.
Qed.

(** ** C28 *)
Theorem C28_roots d : exists ss, stages_new d = Ok ss /\
  forall i s, nth_error ss i = Some s ->
    chain_ends ss i (st_root s) /\ (forall j, st_root s <> PStage j).
Proof.
  destruct (stages_new_spec d) as (ss & E & I). exists ss. split; [exact E|].
  intros i s Hi. destruct (si_stage _ _ _ I i s Hi) as (_ & _ & K1 & K2). split; assumption.
Qed.

Theorem C28_root_unique ss i r r' : chain_ends ss i r -> chain_ends ss i r' -> r = r'.
Proof. intros H H'. exact (chain_ends_fun ss i r H r' H'). Qed.

(** ** C29 *)
Theorem C29_get_by_name d ss name : stages_new d = Ok ss ->
  first_such (fun s => alias_matches s name) ss (get_by_name ss name).
Proof. intros H. apply (get_by_name_spec _ _ _ name (stages_ok d ss H)). Qed.

Theorem C29_get_number ss s n : usize_text s n -> stages_get ss s = nth_error ss (N.to_nat n).
Proof. exact (stages_get_number ss s n). Qed.

Theorem C29_get_name ss s : (forall n, ~ usize_text s n) -> stages_get ss s = get_by_name ss s.
Proof. exact (stages_get_name ss s). Qed.

(** Indexing: the stage with that index, and a panic if there is none. *)
Theorem C29_index d ss k : stages_new d = Ok ss ->
  (k < length ss -> exists s, stages_index ss k = Ok s /\ In s ss /\ st_index s = k) /\
  (length ss <= k -> stages_index ss k = Panic).
Proof.
  intros H. unfold stages_index. split; intros Hk.
  - destruct (nth_error ss k) as [s|] eqn:E; [|apply nth_error_None in E; lia].
    exists s. split; [reflexivity|]. split; [eapply nth_error_In; exact E|]. apply (C26_stage_index_name d ss k s H E).
  - rewrite (proj2 (nth_error_None ss k)) by exact Hk. reflexivity.
Qed.

(** ** C54 *)
(** The displayed parent: a decimal number without leading zeros that leads to the
    parent stage (a [Vec] has fewer than 2^64 elements); "scratch"; or the text of the
    image in the FROM, if that was parsed from the text as the parser does it. *)
Theorem C54_display_parent d ss i s : stages_new d = Ok ss -> (N.of_nat (length ss) < 2 ^ 64)%N ->
  nth_error ss i = Some s ->
  match st_parent s with
  | PStage j => stages_get ss (display_parent (st_parent s)) = nth_error ss j /\ nth_error ss j <> None /\
      decimal (display_parent (st_parent s)) (N.of_nat j) /\
      (forall t, display_parent (st_parent s) = 48%N :: t -> t = [])
  | PScratch => display_parent (st_parent s) = bs "scratch"
  | PImage r => exists f, stage_from s f /\
      (from_image_parsed f = image_parse (ss_content (from_image f)) ->
       display_parent (st_parent s) = ss_content (from_image f))
  end.
Proof.
  intros H Hl Hi. destruct (st_parent s) as [r|j|] eqn:Ep; cbn [display_parent]; [| |reflexivity].
  { destruct (C26_stage_index_name d ss i s H Hi) as (_ & f & Hf & _). exists f. split; [exact Hf|]. intros E.
    pose proof (C27_parents d ss i s f H Hi Hf) as K. rewrite Ep in K. inversion K; subst. rewrite E. apply display_parse. }
  destruct (display_usize_spec (N.of_nat j)) as [D Z].
  destruct (C27_parent_earlier d ss i s j H Hi Ep) as (Hj & t & Ht).
  assert (Hji : j < length ss) by (apply nth_error_Some; congruence).
  split; [|split; [congruence|split; assumption]].
  rewrite <- (Nat2N.id j) at 2. apply C29_get_number. split; [left; exact D|].
  change 18446744073709551616%N with (2 ^ 64)%N. lia.
Qed.

(** The displayed parent says which of the three it is, unless an image is called
    like a number or "scratch"; two stages have the same number only if they are the
    same. *)
Theorem C54_display_number j k : display_parent (PStage j) = display_parent (PStage k) -> j = k.
Proof.
  cbn [display_parent]. intros E. apply Nat2N.inj.
  destruct (display_usize_spec (N.of_nat j)) as [Dj _]. destruct (display_usize_spec (N.of_nat k)) as [Dk _].
  rewrite E in Dj. apply parse_digits_spec in Dj. apply parse_digits_spec in Dk. destruct Dj as [_ Dj]. destruct Dk as [_ Dk].
  congruence.
Qed.

(** ** C30 *)
Theorem C30_arg_index s name :
  match arg_index s name with
  | Some k => (exists ins, nth_error (st_instructions s) k = Some ins /\ arg_named name ins) /\
      forall j ins, j < k -> nth_error (st_instructions s) j = Some ins -> ~ arg_named name ins
  | None => forall j ins, nth_error (st_instructions s) j = Some ins -> ~ arg_named name ins
  end.
Proof.
  unfold arg_index. pose proof (find_arg_spec (st_instructions s) name 0) as H.
  destruct (find_arg (st_instructions s) 0 name) as [k|]; [|exact H].
  rewrite Nat.sub_0_r in H. apply H.
Qed.

(** ** C44 *)
Theorem C44_increasing d ss i j s t : stages_new d = Ok ss ->
  nth_error ss i = Some s -> nth_error ss j = Some t ->
  stage_cmp s t = Nat.compare i j /\ stage_partial_cmp s t = Some (Nat.compare i j) /\
  (stage_eq s t = true <-> s = t) /\ (s = t <-> i = j).
Proof.
  intros H Hi Hj. pose proof (stages_ok d ss H) as I.
  destruct (si_stage _ _ _ I i s Hi) as (Ei & _). destruct (si_stage _ _ _ I j t Hj) as (Ej & _).
  unfold stage_partial_cmp, stage_cmp, stage_eq. rewrite Ei, Ej. split; [reflexivity|]. split; [reflexivity|].
  assert (K : s = t <-> i = j).
  { split; [intros ->; congruence|]. intros ->. congruence. }
  split; [|exact K]. rewrite K. apply Nat.eqb_eq.
Qed.

Theorem C44_order_laws a b c :
  (stage_cmp a b = Eq <-> stage_eq a b = true) /\
  stage_cmp b a = CompOpp (stage_cmp a b) /\
  (stage_cmp a b = Lt -> stage_cmp b c = Lt -> stage_cmp a c = Lt) /\
  stage_eq a a = true /\ (stage_eq a b = stage_eq b a) /\
  (stage_eq a b = true -> stage_eq b c = true -> stage_eq a c = true).
Proof.
  unfold stage_cmp, stage_eq. split; [|split; [|split; [|split; [|split]]]].
  - rewrite Nat.compare_eq_iff, Nat.eqb_eq. reflexivity.
  - apply Nat.compare_antisym.
  - rewrite !Nat.compare_lt_iff. lia.
  - apply Nat.eqb_refl.
  - apply Nat.eqb_sym.
  - rewrite !Nat.eqb_eq. congruence.
Qed.

(** A case: three stages, one built on another, one argument before the first. *)
Definition ex_str (s : string) : spanned_string := SpannedString (Span 0 0) (bs s).
Definition ex_from (n : nat) (image : string) (alias : option string) : instruction :=
  IFrom (FromInstruction (Span 0 0) [] (ex_str image) (image_parse (bs image)) n (option_map ex_str alias)).
Definition ex_arg (n : string) : instruction := IArg (ArgInstruction (Span 0 0) (ex_str n) None).
Definition ex_doc : dockerfile := Dockerfile [] []
  [ex_arg "v"; ex_from 0 "alpine:1" (Some "Build"%string); ex_arg "x"; ex_from 1 "BUILD" None; ex_from 2 "Scratch" None].
Example C25_case : exists ss, stages_new ex_doc = Ok ss /\
  map st_parent ss = [PImage (image_parse (bs "alpine:1")); PStage 0; PScratch] /\
  map st_root ss = [PImage (image_parse (bs "alpine:1")); PImage (image_parse (bs "alpine:1")); PScratch] /\
  map st_name ss = [Some (bs "build"); None; None] /\
  option_map st_index (stages_get ss (bs "bUILD")) = Some 0 /\
  option_map st_index (stages_get ss (bs "+01")) = Some 1 /\
  option_map (fun s => arg_index s (bs "x")) (nth_error ss 0) = Some (Some 1).
Proof. eexists. split; [vm_compute; reflexivity|]. vm_compute. repeat split. Qed.
Example C54_case : exists ss, stages_new ex_doc = Ok ss /\
  map (fun s => display_parent (st_parent s)) ss = [bs "alpine:1"; bs "0"; bs "scratch"] /\
  display_parent (PStage 1042) = bs "1042" /\
  stages_index ss 3 = Panic /\ exists s, stages_index ss 1 = Ok s /\ st_index s = 1.
Proof. eexists. split; [vm_compute; reflexivity|]. split; [reflexivity|]. split; [vm_compute; reflexivity|]. split; [reflexivity|]. eexists. split; reflexivity. Qed.
Example C26_case : from_numbered (d_instructions ex_doc).
Proof.
  intros l1 f l2 E. cbn in E.
  destruct l1 as [|a [|b [|c [|d [|e [|g l1]]]]]]; cbn in E; try discriminate; injection E as E; subst; try reflexivity.
Qed.

Print Assumptions C25_stages_partition.
Print Assumptions C26_stage_index_name.
Print Assumptions C27_parents.
Print Assumptions C27_parent_earlier.
Print Assumptions C28_roots.
Print Assumptions C28_root_unique.
Print Assumptions C29_get_by_name.
Print Assumptions C29_get_number.
Print Assumptions C29_get_name.
Print Assumptions C29_index.
Print Assumptions C54_display_parent.
Print Assumptions C54_display_number.
Print Assumptions C30_arg_index.
Print Assumptions C44_increasing.
Print Assumptions C44_order_laws.
