(** Build stages: proofs. *)

From Coq Require Import String.
From Verif Require Import Bytes BytesFacts Result Ast Splicer SplicerFacts Image Stage SpecStage.
Local Open Scope nat_scope.

Lemma to_lower_idem s : to_lower (to_lower s) = to_lower s.
Proof.
  unfold to_lower. rewrite map_map. apply map_ext. intros c. unfold lower_byte.
  destruct (is_upper c) eqn:E; [|rewrite E; reflexivity].
  unfold is_upper in *. bool_hyps. rewrite in_range_false; [reflexivity|lia].
Qed.

Lemma beqb_lower_spec a b : beqb (to_lower a) (to_lower b) = true <-> same_nocase a b.
Proof. apply beqb_eq. Qed.

Lemma stage_from_fun s f g : stage_from s f -> stage_from s g -> f = g.
Proof. intros (r1 & E1 & _) (r2 & E2 & _). rewrite E1 in E2. injection E2 as -> _. reflexivity. Qed.

Lemma nth_error_snoc {A} (l : list A) x i : nth_error (l ++ [x]) i =
  if i <? length l then nth_error l i else if i =? length l then Some x else None.
Proof.
  destruct (Nat.ltb_spec i (length l)).
  - apply nth_error_app1. assumption.
  - rewrite nth_error_app2 by assumption. destruct (Nat.eqb_spec i (length l)) as [->|].
    + rewrite Nat.sub_diag. reflexivity.
    + destruct (i - length l) as [|k] eqn:E; [lia|]. cbn. destruct k; reflexivity.
Qed.

(** Two stage lists that agree on everything but the instructions after FROM. *)
Definition same_head (a b : stage) : Prop :=
  st_index a = st_index b /\ st_name a = st_name b /\ st_parent a = st_parent b /\ st_root a = st_root b /\
  forall f, stage_from a f <-> stage_from b f.

(** [b] extends [a] *)
Definition extends (a b : list stage) : Prop :=
  forall i s, nth_error a i = Some s -> exists s', nth_error b i = Some s' /\ same_head s s'.

Lemma same_head_alias a b n : same_head a b -> alias_matches a n <-> alias_matches b n.
Proof.
  intros (_ & _ & _ & _ & H). split; intros (f & x & K & K'); exists f, x; split; try (apply H; exact K); exact K'.
Qed.

Lemma extends_parent a b i f p : extends a b -> i <= length a -> parent_spec a i f p -> parent_spec b i f p.
Proof.
  intros H Hi K.
  assert (Hd : forall k t, k < i -> nth_error b k = Some t -> exists t', nth_error a k = Some t' /\ same_head t' t).
  { intros k t Hk Et. destruct (nth_error a k) as [t'|] eqn:E.
    - destruct (H k t' E) as (t'' & E' & Hh). rewrite Et in E'. injection E' as ->. exists t'. auto.
    - apply nth_error_None in E. lia. }
  destruct K as [K|j s Kn Kj Ks Ka Kf|Kn Kf].
  - constructor. exact K.
  - destruct (H j s Ks) as (s' & Es' & Hh).
    apply (parent_stage b i f j s'); try assumption.
    + apply (same_head_alias _ _ _ Hh). exact Ka.
    + intros k t Hk Et Hm. destruct (Hd k t ltac:(lia) Et) as (t' & Et' & Hh').
      apply (Kf k t' Hk Et'). apply (same_head_alias _ _ _ Hh'). exact Hm.
  - apply parent_image; [exact Kn|]. intros k t Hk Et Hm.
    destruct (Hd k t Hk Et) as (t' & Et' & Hh'). apply (Kf k t' Hk Et'). apply (same_head_alias _ _ _ Hh'). exact Hm.
Qed.

Lemma extends_chain a b i r : extends a b -> chain_ends a i r -> chain_ends b i r.
Proof.
  intros H K. induction K as [i s E Hn|i s j r E Ep K IH].
  - destruct (H i s E) as (s' & E' & (_ & _ & Hp & _)). rewrite Hp. apply chain_stop; [exact E'|].
    intros j. rewrite <- Hp. apply Hn.
  - destruct (H i s E) as (s' & E' & (_ & _ & Hp & _)). apply (chain_up b i s' j r E'); [congruence|exact IH].
Qed.

Record stages_inv (l : list instruction) (ss : list stage) (next : nat) : Prop := {
  si_next : next = length ss;
  si_stage : forall i s, nth_error ss i = Some s ->
    st_index s = i /\
    (exists f, stage_from s f /\ parent_spec ss i f (st_parent s) /\
       st_name s = option_map (fun a => to_lower (ss_content a)) (from_alias f)) /\
    chain_ends ss i (st_root s) /\ (forall j, st_root s <> PStage j);
  si_all : exists pre, l = pre ++ concat (map st_instructions ss) /\ Forall (fun i => ~ is_from i) pre
}.

Lemma name_is_spec s f n : stage_from s f ->
  st_name s = option_map (fun a => to_lower (ss_content a)) (from_alias f) ->
  (name_is n s = true <-> alias_matches s n).
Proof.
  intros Hf En. unfold name_is. rewrite En. destruct (from_alias f) as [a|] eqn:Ea; cbn [option_map].
  - rewrite beqb_lower_spec. split.
    + intros H. exists f, a. auto.
    + intros (f' & a' & Hf' & Ea' & H). rewrite (stage_from_fun _ _ _ Hf' Hf), Ea in Ea'. injection Ea' as ->. exact H.
  - split; [discriminate|]. intros (f' & a' & Hf' & Ea' & H). rewrite (stage_from_fun _ _ _ Hf' Hf), Ea in Ea'. discriminate.
Qed.

Lemma find_first {A} (P : A -> bool) l :
  match find P l with
  | Some x => exists l1 l2, l = l1 ++ x :: l2 /\ P x = true /\ Forall (fun y => P y = false) l1
  | None => Forall (fun y => P y = false) l
  end.
Proof.
  induction l as [|x l IH]; cbn [find]; [constructor|].
  destruct (P x) eqn:E.
  - exists [], l. auto.
  - destruct (find P l) as [y|].
    + destruct IH as (l1 & l2 & -> & Hy & Hl). exists (x :: l1), l2. split; [reflexivity|]. split; [exact Hy|]. constructor; assumption.
    + constructor; assumption.
Qed.

Lemma push_last_snoc ss s i : push_last (ss ++ [s]) i =
  ss ++ [Stage (st_index s) (st_name s) (st_instructions s ++ [i]) (st_parent s) (st_root s)].
Proof.
  induction ss as [|x ss IH]; [reflexivity|]. cbn [app push_last].
  destruct (ss ++ [s]) as [|y ys] eqn:E; [destruct ss; discriminate|]. rewrite <- IH. reflexivity.
Qed.

Lemma stages_step_inv l ss next ins : stages_inv l ss next ->
  exists ss' next', stages_step (ss, next) ins = Ok (ss', next') /\ stages_inv (l ++ [ins]) ss' next'.
Proof.
  intros I. pose proof (si_next _ _ _ I) as Hn.
  assert (Hother : (forall f, ins <> IFrom f) ->
    stages_inv (l ++ [ins]) (match ss with [] => ss | _ => push_last ss ins end) next).
  { intros Hnf.
    assert (Hnf' : ~ is_from ins) by (intros (f & K); apply (Hnf f K)).
    destruct (si_all _ _ _ I) as (pre & El & Hpre).
    destruct ss as [|s0 ss0].
    - cbn [map concat] in El. rewrite app_nil_r in El. subst l. split.
      + exact Hn.
      + intros i s E. destruct i; discriminate.
      + exists (pre ++ [ins]). split; [cbn [map concat]; rewrite app_nil_r; reflexivity|].
        apply Forall_app. split; [exact Hpre|]. constructor; [exact Hnf'|constructor].
    - destruct (@exists_last _ (s0 :: ss0)) as (ss1 & s & E); [discriminate|]. rewrite E in *. clear s0 ss0 E.
      rewrite push_last_snoc.
      set (s' := Stage (st_index s) (st_name s) (st_instructions s ++ [ins]) (st_parent s) (st_root s)).
      assert (Hh : same_head s s').
      { unfold same_head, s'. cbn [st_index st_name st_parent st_root]. repeat split.
        - intros (rest & E & Hr). exists (rest ++ [ins]). cbn [st_instructions]. rewrite E. split; [reflexivity|].
          apply Forall_app. split; [exact Hr|constructor; [exact Hnf'|constructor]].
        - intros (rest & E & Hr). cbn [st_instructions] in E.
          destruct (st_instructions s) as [|i0 r0] eqn:Es.
          + cbn [app] in E. injection E as E _. exfalso. apply (Hnf f E).
          + cbn [app] in E. injection E as -> <-. exists r0. rewrite Es. split; [reflexivity|]. apply Forall_app in Hr. apply Hr. }
      assert (Hex : extends (ss1 ++ [s]) (ss1 ++ [s'])).
      { intros i x Ex. rewrite nth_error_snoc in *. destruct (i <? length ss1).
        - exists x. split; [exact Ex|]. unfold same_head. repeat split; auto.
        - destruct (i =? length ss1); [|discriminate]. injection Ex as <-. exists s'. auto. }
      assert (Hlen : length (ss1 ++ [s']) = length (ss1 ++ [s])) by (rewrite !app_length; reflexivity).
      split.
      + rewrite Hlen. exact Hn.
      + intros i x Ex.
        assert (Hx : exists x0, nth_error (ss1 ++ [s]) i = Some x0 /\ same_head x0 x).
        { rewrite nth_error_snoc in *. destruct (i <? length ss1).
          - exists x. split; [exact Ex|]. unfold same_head. repeat split; auto.
          - destruct (i =? length ss1); [|discriminate]. injection Ex as <-. exists s. auto. }
        destruct Hx as (x0 & Ex0 & (H1 & H2 & H3 & H4 & H5)).
        destruct (si_stage _ _ _ I i x0 Ex0) as (K1 & (f & K2 & K3 & K4) & K5 & K6).
        split; [congruence|]. split; [|split].
        * exists f. split; [apply H5; exact K2|]. split; [|congruence]. rewrite <- H3.
          apply (extends_parent _ _ _ _ _ Hex); [|exact K3]. apply Nat.lt_le_incl. apply nth_error_Some. congruence.
        * rewrite <- H4. apply (extends_chain _ _ _ _ Hex). exact K5.
        * intros j. rewrite <- H4. apply K6.
      + exists pre. split; [|exact Hpre]. rewrite El, !map_app, !concat_app. cbn [map concat st_instructions s'].
        rewrite !app_nil_r, <- !app_assoc. reflexivity. }
  destruct ins as [f|a|a|a|a|a|a|a|a];
    try (eexists; eexists; split; [reflexivity|]; apply Hother; intros g K; discriminate).
  (* FROM *)
  clear Hother. cbn [stages_step].
  set (nm := ss_content (from_image f)).
  set (parent := if beqb (to_lower nm) (bs "scratch") then PScratch
      else match get_by_name ss (to_lower nm) with Some s => PStage (st_index s) | None => PImage (from_image_parsed f) end).
  assert (Hscr : beqb (to_lower nm) (bs "scratch") = true <-> same_nocase nm (bs "scratch")).
  { unfold same_nocase. change (to_lower (bs "scratch")) with (bs "scratch"). apply beqb_eq. }
  assert (Hname : forall k t, nth_error ss k = Some t -> name_is (to_lower nm) t = true <-> alias_matches t nm).
  { intros k t Et. destruct (si_stage _ _ _ I k t Et) as (_ & (g & K2 & _ & K4) & _).
    rewrite (name_is_spec t g (to_lower nm) K2 K4). unfold alias_matches, same_nocase. rewrite to_lower_idem. tauto. }
  assert (Hpar : parent_spec ss (length ss) f parent /\
     ((exists j s, parent = PStage j /\ nth_error ss j = Some s) \/ (forall j, parent <> PStage j))).
  { unfold parent. destruct (beqb (to_lower nm) (bs "scratch")) eqn:Es.
    - split; [constructor; apply Hscr; reflexivity|]. right. discriminate.
    - assert (Hns : ~ same_nocase nm (bs "scratch")) by (rewrite <- Hscr; congruence).
      unfold get_by_name. pose proof (find_first (name_is (to_lower nm)) ss) as Hff.
      destruct (find (name_is (to_lower nm)) ss) as [s|].
      + destruct Hff as (l1 & l2 & E & Hs & Hl).
        assert (En : nth_error ss (length l1) = Some s).
        { rewrite E, nth_error_app2, Nat.sub_diag by lia. reflexivity. }
        destruct (si_stage _ _ _ I _ _ En) as (Ei & _). rewrite Ei. split.
        * apply (parent_stage ss (length ss) f (length l1) s); try assumption.
          -- rewrite E, app_length. cbn [length]. lia.
          -- apply (Hname _ _ En). exact Hs.
          -- intros k t Hk Et Hm. apply (Hname _ _ Et) in Hm.
             rewrite E, nth_error_app1 in Et by exact Hk. apply nth_error_In in Et.
             rewrite Forall_forall in Hl. rewrite (Hl _ Et) in Hm. discriminate.
        * left. exists (length l1), s. auto.
      + split; [|right; discriminate]. apply parent_image; [exact Hns|].
        intros k t Hk Et Hm. apply (Hname _ _ Et) in Hm. apply nth_error_In in Et.
        rewrite Forall_forall in Hff. rewrite (Hff _ Et) in Hm. discriminate. }
  destruct Hpar as [Hps Hpj].
  assert (Hroot : exists root, (match parent with
            | PStage k => match nth_error ss k with Some s => Ok (st_root s) | None => Panic end
            | p => Ok p end) = Ok root /\ (forall j, root <> PStage j) /\
            ((exists j, parent = PStage j /\ chain_ends ss j root) \/ (root = parent /\ forall j, parent <> PStage j))).
  { destruct Hpj as [(j & s & Ep & Es)|Hnp].
    - rewrite Ep, Es. exists (st_root s). split; [reflexivity|].
      destruct (si_stage _ _ _ I _ _ Es) as (_ & _ & K1 & K2). split; [exact K2|]. left. exists j. auto.
    - exists parent. split; [destruct parent; [reflexivity|exfalso; apply (Hnp index); reflexivity|reflexivity]|]. split; [exact Hnp|right; auto]. }
  destruct Hroot as (root & Er & Hrn & Hrc). rewrite Er. cbn [bind].
  eexists. eexists. split; [reflexivity|].
  set (s := Stage next (option_map (fun a : spanned_string => to_lower (ss_content a)) (from_alias f)) [IFrom f] parent root).
  assert (Hex : extends ss (ss ++ [s])).
  { intros i x Ex. exists x. split; [rewrite nth_error_app1; [exact Ex|apply nth_error_Some; congruence]|].
    unfold same_head. repeat split; auto. }
  split.
  - rewrite app_length. cbn [length]. lia.
  - intros i x Ex. rewrite nth_error_snoc in Ex. destruct (Nat.ltb_spec i (length ss)) as [Hi|Hi].
    + destruct (si_stage _ _ _ I i x Ex) as (K1 & (g & K2 & K3 & K4) & K5 & K6).
      split; [exact K1|]. split; [|split; [apply (extends_chain _ _ _ _ Hex); exact K5|exact K6]].
      exists g. split; [exact K2|]. split; [|exact K4]. apply (extends_parent _ _ _ _ _ Hex); [lia|exact K3].
    + destruct (Nat.eqb_spec i (length ss)) as [->|]; [|discriminate]. injection Ex as <-.
      cbn [st_index st_name st_parent st_root s]. split; [exact Hn|]. split; [|split; [|exact Hrn]].
      * exists f. split; [exists []; split; [reflexivity|constructor]|]. split; [|reflexivity].
        apply (extends_parent _ _ _ _ _ Hex); [lia|exact Hps].
      * assert (Es : nth_error (ss ++ [s]) (length ss) = Some s) by (rewrite nth_error_app2, Nat.sub_diag by lia; reflexivity).
        destruct Hrc as [(j & Ep & Hc)|(-> & Hnp)].
        -- apply (chain_up _ _ s j); [exact Es|exact Ep|]. apply (extends_chain _ _ _ _ Hex). exact Hc.
        -- apply (chain_stop _ _ s Es). exact Hnp.
  - destruct (si_all _ _ _ I) as (pre & -> & Hpre). exists pre. split; [|exact Hpre].
    rewrite map_app, concat_app. cbn [map concat st_instructions s]. rewrite app_nil_r, <- app_assoc. reflexivity.
Qed.

Lemma stages_loop_inv l2 : forall l1 ss next, stages_inv l1 ss next ->
  exists ss' next', for_each stages_step l2 (ss, next) = Ok (ss', next') /\ stages_inv (l1 ++ l2) ss' next'.
Proof.
  induction l2 as [|x l2 IH]; intros l1 ss next I.
  - exists ss, next. rewrite app_nil_r. split; [reflexivity|exact I].
  - cbn [for_each]. destruct (stages_step_inv l1 ss next x I) as (ss1 & n1 & E & I1). rewrite E. cbn [bind].
    destruct (IH _ _ _ I1) as (ss2 & n2 & E2 & I2). exists ss2, n2. split; [exact E2|].
    rewrite <- app_assoc in I2. exact I2.
Qed.

Lemma stages_new_spec d : exists ss, stages_new d = Ok ss /\ stages_inv (d_instructions d) ss (length ss).
Proof.
  destruct (stages_loop_inv (d_instructions d) [] [] 0) as (ss & next & E & I).
  - split; [reflexivity| |exists []; split; [reflexivity|constructor]]. intros i s K. destruct i; discriminate.
  - exists ss. unfold stages_new. rewrite E. cbn [bind fst]. split; [reflexivity|].
    cbn [app] in I. rewrite <- (si_next _ _ _ I). exact I.
Qed.

Lemma chain_ends_fun ss i r : chain_ends ss i r -> forall r', chain_ends ss i r' -> r = r'.
Proof.
  intros H. induction H as [i s E Hn|i s j r E Ep H IH]; intros r' H'.
  - inversion H' as [i' s' E' Hn'|i' s' j r2 E' Ep' H2]; subst; rewrite E in E'; injection E' as <-; [reflexivity|].
    exfalso. apply (Hn j Ep').
  - inversion H' as [i' s' E' Hn'|i' s' j' r2 E' Ep' H2]; subst; rewrite E in E'; injection E' as <-.
    + exfalso. apply (Hn' j Ep).
    + rewrite Ep in Ep'. injection Ep' as <-. apply IH. exact H2.
Qed.

(** ** Lookup *)

Lemma digit_value_range c : is_digit c = true -> (48 <= c <= 57)%N.
Proof. apply in_range_spec. Qed.

Lemma parse_digits_app s c acc : parse_digits (s ++ [c]) acc =
  match parse_digits s acc with
  | Some n => if is_digit c then Some (n * 10 + (c - 48))%N else None
  | None => None
  end.
Proof.
  revert acc; induction s as [|x s IH]; intros acc; cbn [app parse_digits].
  - destruct (is_digit c); reflexivity.
  - destruct (is_digit x); [apply IH|reflexivity].
Qed.

Lemma parse_digits_spec s n : (s <> [] /\ parse_digits s 0 = Some n) <-> decimal s n.
Proof.
  split.
  - revert n; induction s as [|c s IH] using rev_ind; intros n [Hne H]; [contradiction|].
    rewrite parse_digits_app in H.
    destruct s as [|x s].
    + cbn [parse_digits] in H. destruct (is_digit c) eqn:Ec; [|discriminate]. injection H as <-. cbn [app].
      replace (0 * 10 + (c - 48))%N with (c - 48)%N by lia. constructor. exact Ec.
    + destruct (parse_digits (x :: s) 0) as [m|] eqn:Em; [|discriminate].
      destruct (is_digit c) eqn:Ec; [|discriminate]. injection H as <-.
      replace (m * 10 + (c - 48))%N with (10 * m + (c - 48))%N by lia. constructor; [|exact Ec].
      apply IH. split; [discriminate|reflexivity].
  - intros H. induction H as [c Hc|s n c H [Hne IH] Hc].
    + split; [discriminate|]. cbn [parse_digits]. rewrite Hc. reflexivity.
    + split; [destruct s; discriminate|]. rewrite parse_digits_app, IH, Hc. f_equal. lia.
Qed.

Lemma decimal_head s n : decimal s n -> match s with c :: _ => is_digit c = true | [] => False end.
Proof.
  intros H. induction H as [c Hc|s n c H IH Hc]; [exact Hc|]. destruct s; [destruct IH|exact IH].
Qed.

Lemma parse_usize_spec s n : parse_usize s = Some n <-> usize_text s n.
Proof.
  unfold parse_usize, usize_text.
  set (digits := match s with c :: t => if (c =? PLUS)%N then t else s | [] => [] end).
  assert (Hd : (decimal s n \/ exists t, s = PLUS :: t /\ decimal t n) <-> decimal digits n).
  { unfold digits. destruct s as [|c t].
    - split; [intros [H|(t & E & _)]; [exact H|discriminate]|auto].
    - destruct (c =? PLUS)%N eqn:Ec; bool_hyps.
      + subst c. split.
        * intros [H|(t' & E & H)]; [apply decimal_head in H; discriminate|]. injection E as <-. exact H.
        * intros H. right. exists t. auto.
      + split; [intros [H|(t' & E & H)]; [exact H|congruence]|auto]. }
  rewrite Hd, <- parse_digits_spec.
  destruct digits as [|c t] eqn:Ed.
  - split; [discriminate|]. intros [[H _] _]. contradiction.
  - destruct (parse_digits (c :: t) 0) as [m|] eqn:Em.
    + destruct (m <? 18446744073709551616)%N eqn:El; bool_hyps.
      * split; [intros H; injection H as <-; split; [split; [discriminate|reflexivity]|exact El]|].
        intros [[_ H] _]. exact H.
      * split; [discriminate|]. intros [[_ H] K]. injection H as <-. lia.
    + split; [discriminate|]. intros [[_ H] _]. discriminate.
Qed.

Lemma get_by_name_spec l ss next name : stages_inv l ss next ->
  first_such (fun s => alias_matches s name) ss (get_by_name ss name).
Proof.
  intros I. unfold get_by_name.
  assert (Hn : forall s, In s ss -> name_is name s = true <-> alias_matches s name).
  { intros s Hs. apply In_nth_error in Hs. destruct Hs as [k Hk].
    destruct (si_stage _ _ _ I k s Hk) as (_ & (f & K1 & _ & K2) & _). apply (name_is_spec s f); assumption. }
  pose proof (find_first (name_is name) ss) as H. unfold first_such.
  destruct (find (name_is name) ss) as [s|].
  - destruct H as (l1 & l2 & E & Hs & Hl). exists l1, l2. split; [exact E|]. split.
    + apply Hn; [rewrite E; apply in_elt|exact Hs].
    + rewrite Forall_forall in *. intros t Ht Hm.
      assert (Hi : In t ss) by (rewrite E; apply in_or_app; left; exact Ht).
      apply (Hn t Hi) in Hm. rewrite (Hl t Ht) in Hm. discriminate.
  - rewrite Forall_forall in *. intros t Ht Hm. apply (Hn t Ht) in Hm. rewrite (H t Ht) in Hm. discriminate.
Qed.

Lemma stages_get_number ss s n : usize_text s n -> stages_get ss s = nth_error ss (N.to_nat n).
Proof.
  intros H. unfold stages_get. rewrite (proj2 (parse_usize_spec s n) H).
  destruct (n <? N.of_nat (length ss))%N eqn:E; bool_hyps; [reflexivity|].
  symmetry. apply nth_error_None. lia.
Qed.

Lemma stages_get_name ss s : (forall n, ~ usize_text s n) -> stages_get ss s = get_by_name ss s.
Proof.
  intros H. unfold stages_get. destruct (parse_usize s) as [n|] eqn:E; [|reflexivity].
  exfalso. apply (H n). apply parse_usize_spec. exact E.
Qed.

(** ** arg_index *)

Definition arg_named (name : bytes) (i : instruction) : Prop :=
  exists a, i = IArg a /\ ss_content (arg_name a) = name.

Lemma find_arg_spec l name : forall i,
  match find_arg l i name with
  | Some k => i <= k /\ (exists ins, nth_error l (k - i) = Some ins /\ arg_named name ins) /\
      forall j ins, j < k - i -> nth_error l j = Some ins -> ~ arg_named name ins
  | None => forall j ins, nth_error l j = Some ins -> ~ arg_named name ins
  end.
Proof.
  induction l as [|x l IH]; intros i; cbn [find_arg].
  - intros j ins E. destruct j; discriminate.
  - assert (Hskip : ~ arg_named name x ->
      match find_arg l (S i) name with
      | Some k => i <= k /\ (exists ins, nth_error (x :: l) (k - i) = Some ins /\ arg_named name ins) /\
          forall j ins, j < k - i -> nth_error (x :: l) j = Some ins -> ~ arg_named name ins
      | None => forall j ins, nth_error (x :: l) j = Some ins -> ~ arg_named name ins
      end).
    { intros Hx. specialize (IH (S i)). destruct (find_arg l (S i) name) as [k|].
      - destruct IH as (H1 & (ins & H2 & H3) & H4). split; [lia|]. split.
        + exists ins. replace (k - i) with (S (k - S i)) by lia. auto.
        + intros j ins' Hj E. destruct j as [|j]; cbn [nth_error] in E; [injection E as <-; exact Hx|].
          apply (H4 j); [lia|exact E].
      - intros j ins E. destruct j as [|j]; cbn [nth_error] in E; [injection E as <-; exact Hx|]. apply (IH j ins E). }
    destruct x as [f|a|a|a|a|a|a|a|a];
      try (apply Hskip; intros (b & E & _); discriminate).
    destruct (beqb (ss_content (arg_name a)) name) eqn:E.
    + apply beqb_eq in E. split; [lia|]. rewrite Nat.sub_diag. split.
      * exists (IArg a). split; [reflexivity|]. exists a. auto.
      * intros j ins Hj. lia.
    + apply beqb_neq in E. apply Hskip. intros (b & Eb & Hb). injection Eb as ->. contradiction.
Qed.

(** ** Displaying numbers *)

Lemma decimal_loop_spec fuel : forall n acc, (n < 2 ^ N.of_nat fuel)%N ->
  exists ds, decimal_loop (S fuel) n acc = ds ++ acc /\ decimal ds n /\ (forall t, ds = 48%N :: t -> t = []).
Proof.
  induction fuel as [|fuel IH]; intros n acc H.
  - cbn [decimal_loop]. cbn in H. assert (n = 0)%N by lia. subst n. exists [48%N]. split; [reflexivity|].
    split; [apply (decimal_one 48); reflexivity|]. intros t E. injection E as <-. reflexivity.
  - change (decimal_loop (S (S fuel)) n acc) with
      (if (n <? 10)%N then (48 + n mod 10)%N :: acc else decimal_loop (S fuel) (n / 10) ((48 + n mod 10)%N :: acc)).
    assert (Hm : (n mod 10 < 10)%N) by (apply N.mod_lt; discriminate).
    assert (Hd : is_digit (48 + n mod 10) = true).
    { unfold is_digit, in_range. apply andb_true_iff. revert Hm. clear. generalize (n mod 10)%N. intros m Hm. split; apply N.leb_le; lia. }
    destruct (n <? 10)%N eqn:E.
    + apply N.ltb_lt in E. exists [(48 + n mod 10)%N]. split; [reflexivity|].
      split; [|intros t Et; injection Et as _ <-; reflexivity].
      rewrite N.mod_small in * by exact E. replace n with (48 + n - 48)%N at 2 by lia. apply decimal_one. exact Hd.
    + apply N.ltb_ge in E.
      destruct (IH (n / 10)%N ((48 + n mod 10)%N :: acc)) as (ds & E1 & E2 & E3).
      { rewrite Nat2N.inj_succ, N.pow_succ_r' in H. apply N.div_lt_upper_bound; [discriminate|].
        generalize dependent (2 ^ N.of_nat fuel)%N. intros. lia. }
      exists (ds ++ [(48 + n mod 10)%N]). split; [|split].
      * rewrite <- app_assoc. exact E1.
      * replace n with (10 * (n / 10) + (48 + n mod 10 - 48))%N at 2.
        -- apply decimal_more; assumption.
        -- pose proof (N.div_mod n 10 ltac:(discriminate)) as K. revert K. clear.
           generalize (n / 10)%N (n mod 10)%N. intros. lia.
      * intros t Et. destruct ds as [|c ds]; [inversion E2 as [|s0 n0 c0 _ _ Es]; destruct s0; discriminate|].
        cbn [app] in Et. injection Et as -> <-. exfalso. assert (ds = []) by (apply E3; reflexivity). subst ds.
        assert (K : (n / 10 <> 0)%N).
        { intros K. apply N.div_small_iff in K; [lia|discriminate]. }
        inversion E2 as [c Hc Ec En|s0 n0 c0 D0 Hc Es En].
        -- apply K. symmetry. exact En.
        -- destruct s0 as [|x s0]; [inversion D0 as [|s1 n1 c1 _ _ Es1]; destruct s1; discriminate|].
           cbn [app] in Es. destruct s0; discriminate.
Qed.

Lemma display_usize_spec n : decimal (display_usize n) n /\ (forall t, display_usize n = 48%N :: t -> t = []).
Proof.
  unfold display_usize. destruct (decimal_loop_spec (N.size_nat n) n []) as (ds & E & D & Z).
  - pose proof (N.size_gt n) as K. replace (N.of_nat (N.size_nat n)) with (N.size n); [exact K|].
    clear K. destruct n as [|p]; [reflexivity|]. cbn [N.size N.size_nat].
    induction p as [p IH|p IH|]; cbn [Pos.size Pos.size_nat]; [| |reflexivity]; rewrite Nat2N.inj_succ, <- IH; reflexivity.
  - rewrite E, app_nil_r. auto.
Qed.
