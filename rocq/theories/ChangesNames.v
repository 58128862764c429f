(** The images and aliases of a document after changes of several kinds. *)

From Coq Require Import String Permutation.
From Verif Require Import Bytes BytesFacts Grammar Peg Result Ast Splicer Image Convert Dockerfile Stage
  SpecImage SpecSplice SplicerFacts SpecSyntax SpecMove SpecParts SpecDoc SpecReword SpecArgument SpecAlias SpecChanges
  PartsFacts DocFacts ParseFacts SelectFacts PropsParse PropsDoc PropsEdit RewordDoc RewordFacts ArgumentDoc AliasDoc NamesFacts PropsAlias ChangesFacts.
From Verif Require Swap SwapParse.
Local Open Scope nat_scope.

Section Names.
Variable unq : bytes -> option bytes.
Variables (W : bytes) (d : dockerfile).
Hypothesis V : valid_utf8 W = true.
Hypothesis E : parse unq W = Ok d.

(** A name of a FROM: its image or its alias *)
Definition name_place (f : from_instruction) (sp : span) : Prop :=
  sp = ss_span (from_image f) \/ exists al, from_alias f = Some al /\ sp = ss_span al.

Lemma name_text f sp : In (IFrom f) (d_instructions d) -> name_place f sp ->
  exists a z, firstn (s_start sp) W = a ++ [z] /\ Swap.is_break z = true /\ Forall (fun c => image_char c = true) (text_at W sp).
Proof.
  intros Hi Hp. destruct (parsed_instruction unq W d V E _ Hi) as (p & w & (pre & post & Ew & -> & _) & K). cbn [instruction_at] in K.
  destruct K as (kw & fl & k & g & img & al & -> & _ & _ & Hg & Hgn & Him & Ei & _ & _ & Ha & _).
  assert (Gap : forall k g, gap k g -> g <> [] -> exists u z, g = u ++ [z] /\ Swap.is_break z = true).
  { clear. intros k g Hg Hn. destruct (SwapParse.gap_ends _ _ Hg) as [->|(u & z & -> & Hz)]; [congruence|]. exists u, z. auto. }
  destruct Hp as [->|(x & Hx & ->)].
  - destruct (Gap _ _ Hg Hgn) as (u & z & -> & Hz). rewrite Ei. unfold at_. cbn [ss_span s_start].
    assert (E1 : W = (pre ++ kw ++ fl ++ u ++ [z]) ++ img ++ (al ++ post)) by (rewrite Ew, <- !app_assoc; reflexivity).
    destruct (around_text unq W d V E _ _ _ E1) as (F1 & _ & F3).
    replace (length pre + length kw + length fl + length (u ++ [z])) with (length (pre ++ kw ++ fl ++ u ++ [z])) by (rewrite !app_length; lia).
    exists (pre ++ kw ++ fl ++ u), z. rewrite F1, F3. split; [rewrite <- !app_assoc; reflexivity|]. split; [exact Hz|apply Him].
  - destruct Ha as [[_ Ha]|(j & g1 & as_ & k2 & g2 & a & -> & _ & _ & _ & Hg2 & Hn2 & Hat & Ha)]; [congruence|].
    rewrite Ha in Hx. injection Hx as <-. destruct (Gap _ _ Hg2 Hn2) as (u & z & -> & Hz). unfold at_. cbn [ss_span s_start].
    assert (E1 : W = (pre ++ kw ++ fl ++ g ++ img ++ g1 ++ as_ ++ u ++ [z]) ++ a ++ post) by (rewrite Ew, <- !app_assoc; reflexivity).
    destruct (around_text unq W d V E _ _ _ E1) as (F1 & _ & F3).
    replace (length pre + length kw + length fl + length g + length img + length g1 + length as_ + length (u ++ [z]))
      with (length (pre ++ kw ++ fl ++ g ++ img ++ g1 ++ as_ ++ u ++ [z])) by (rewrite !app_length; lia).
    exists (pre ++ kw ++ fl ++ g ++ img ++ g1 ++ as_ ++ u), z. rewrite F1, F3. split; [rewrite <- !app_assoc; reflexivity|]. split; [exact Hz|].
    apply (alias_image a Hat).
Qed.

Lemma before_nth n a z : n <= length W -> firstn n W = a ++ [z] -> 0 < n /\ nth_error W (n - 1) = Some z.
Proof.
  intros L H. assert (La : n = length a + 1).
  { apply (f_equal (@length N)) in H. rewrite firstn_length, app_length in H. cbn [length] in H. lia. }
  split; [lia|]. rewrite <- (firstn_skipn n W), H. replace (n - 1) with (length a) by lia. rewrite <- app_assoc, nth_error_app2 by lia.
  rewrite Nat.sub_diag. reflexivity.
Qed.

Lemma name_place_in f sp : name_place f sp -> In sp (quotable_places (IFrom f)).
Proof. intros [->|(al & Ha & ->)]; [apply image_place|apply alias_place; exact Ha]. Qed.

Lemma equals_apart f sp a lo hi : In (IFrom f) (d_instructions d) -> name_place f sp -> firstn lo W = a ++ [EQUALS] -> lo < hi -> hi <= length W ->
  around lo hi sp = false.
Proof.
  intros Hi Hp Ha L1 L2. destruct (around lo hi sp) eqn:R; [|reflexivity]. exfalso. unfold around in R. rewrite andb_true_iff, !Nat.leb_le in R.
  destruct (name_text f sp Hi Hp) as (b & z & Hb & Hz & Ht). destruct (place_bounded unq W d V E _ _ Hi (name_place_in f sp Hp)) as (L3 & L4 & _).
  destruct (before_nth lo _ _ ltac:(lia) Ha) as [P1 N1]. destruct (before_nth (s_start sp) _ _ ltac:(lia) Hb) as [P2 N2].
  destruct (Nat.eq_dec (s_start sp) lo) as [Q|Q].
  - rewrite Q, N1 in N2. injection N2 as <-. discriminate.
  - destruct (text_split W sp ltac:(lia) L4) as (Ei & La & Lt). rewrite Ei in N1. rewrite nth_error_app2 in N1 by lia.
    rewrite nth_error_app1 in N1 by lia. apply nth_error_In in N1. rewrite Forall_forall in Ht. specialize (Ht _ N1). discriminate.
Qed.

Lemma name_not_reworded f sp c : In (IFrom f) (d_instructions d) -> name_place f sp -> can_make d c -> is_name_change c = false ->
  around (s_start (change_span c)) (s_end (change_span c)) sp = false.
Proof.
  intros Hi Hp Hc Hk. pose proof (change_step unq W d V E c Hc) as ((L1 & L2 & _) & _).
  destruct c as [|?|y t|y t]; try discriminate; cbn [can_make change_span] in *; rewrite (content_W unq W d E) in *.
  - destruct Hc as (_ & _ & _ & (a & Ha) & _). apply (equals_apart f sp a _ _ Hi Hp Ha L1 L2).
  - destruct Hc as (_ & _ & _ & _ & i & Hj & Hl & L3 & L4 & _).
    assert (Or : ordered (instruction_part (IFrom f))).
    { intros z Hz. apply (C05_parts_in_order unq _ d _ z V E Hi Hz). }
    destruct (selection_in _ _ sp (places_selected [IFrom f])) as (j & z & Hj2 & Hz & Ez); [cbn [flat_map]; rewrite app_nil_r; apply name_place_in; exact Hp|].
    destruct Hj2 as [<-|[]]. pose proof (within_inside _ Or z Hz) as I1. rewrite <- Ez in I1. cbn [instruction_part part_span] in I1.
    destruct (in_order_disjoint _ _ _ _ _ (C06_instructions_in_order unq W d V E) (in_map instruction_span _ _ Hi) (in_map instruction_span _ _ Hj)) as [Es|D].
    + exfalso. pose proof (in_order_bounds _ _ _ _ (C06_instructions_in_order unq W d V E) (in_map instruction_span _ _ Hj)) as (_ & Ln & _).
      destruct (in_split _ _ Hj) as (l1 & l2 & El). pose proof (C06_instructions_in_order unq W d V E) as Oi. rewrite El in Hi, Oi.
      apply in_app_or in Hi. destruct Hi as [Hi|[Hi|Hi]]; [|subst i; destruct Hl|].
      * rewrite map_app in Oi. apply SplicerFacts.in_order_app in Oi. destruct Oi as [_ Oi].
        specialize (Oi _ (or_introl eq_refl) _ (in_map _ _ _ Hi)). rewrite Es in Oi. lia.
      * replace (l1 ++ i :: l2) with ((l1 ++ [i]) ++ l2) in Oi by (rewrite <- app_assoc; reflexivity).
        rewrite map_app in Oi. apply SplicerFacts.in_order_app in Oi. destruct Oi as [_ Oi].
        specialize (Oi _ (in_map _ _ _ Hi) (instruction_span i) ltac:(apply in_map, in_or_app; right; left; reflexivity)). rewrite Es in Oi. lia.
    + unfold around. destruct (Nat.leb_spec (s_start sp) (s_start y)); [|reflexivity]. destruct (Nat.leb_spec (s_end y) (s_end sp)); [|reflexivity].
      unfold disjoint, inside in *. lia.
Qed.

(** A name of one FROM is not also a name of another, nor its other name. *)
Lemma image_not_alias f f2 al : In (IFrom f) (d_instructions d) -> In (IFrom f2) (d_instructions d) -> from_alias f2 = Some al ->
  ss_span (from_image f) <> ss_span al.
Proof.
  intros Hi Hj Ha Es. destruct (in_split _ _ Hj) as (l1 & l2 & El). pose proof (place_alone unq W d V E _ _ _ _ El (alias_place f2 al Ha)) as N.
  rewrite El in Hi. apply in_app_or in Hi. destruct Hi as [Hi|[Hi|Hi]].
  - apply (N _ (or_introl Hi)). rewrite <- Es. apply image_place.
  - injection Hi as ->. destruct (selection_spans unq W d _ V E (places_selected (d_instructions d))) as [Ho _].
    rewrite El, flat_map_app in Ho. cbn [flat_map quotable_places] in Ho. rewrite Ha in Ho. cbn [option_places] in Ho. rewrite app_assoc in Ho.
    rewrite <- (app_assoc _ _ (flat_map quotable_places l2)), <- (app_assoc (flat_map flag_places _)), app_assoc in Ho. cbn [app] in Ho.
    pose proof (place_bounded unq W d V E _ _ Hj (image_place f)) as (L & _).
    match type of Ho with in_order _ _ (?x ++ ?y :: ?z :: ?r) => replace (x ++ y :: z :: r) with ((x ++ [y]) ++ z :: r) in Ho by (rewrite <- app_assoc; reflexivity) end.
    apply SplicerFacts.in_order_app in Ho. destruct Ho as [_ Ho]. specialize (Ho (ss_span al) (or_introl eq_refl) (ss_span (from_image f))
      ltac:(apply in_or_app; right; left; reflexivity)). rewrite <- Es in Ho. lia.
  - apply (N _ (or_intror Hi)). rewrite <- Es. apply image_place.
Qed.

Lemma same_place f f2 sp : In (IFrom f) (d_instructions d) -> In (IFrom f2) (d_instructions d) ->
  In sp (quotable_places (IFrom f)) -> In sp (quotable_places (IFrom f2)) -> f = f2.
Proof.
  intros Hi Hj H1 H2. destruct (in_split _ _ Hj) as (l1 & l2 & El). pose proof (place_alone unq W d V E _ _ _ _ El H2) as N.
  rewrite El in Hi. apply in_app_or in Hi. destruct Hi as [Hi|[Hi|Hi]].
  - exfalso. apply (N _ (or_introl Hi)). exact H1.
  - congruence.
  - exfalso. apply (N _ (or_intror Hi)). exact H1.
Qed.

End Names.

(** ** After all changes *)

Lemma after_low es b len : in_order b len (map fst es) -> forall x, (x <= b -> after_edits es x = x) /\ (b <= x -> b <= after_edits es x).
Proof.
  revert b. induction es as [|[sp t] es IH]; intros b H x; cbn [after_edits fold_right fst snd]; [auto|]. fold (after_edits es x).
  cbn [map in_order fst] in H. destruct H as (L1 & L2 & L3 & H). destruct (IH _ H x) as [A B].
  split; intros K.
  - rewrite A by lia. unfold replacement. destruct (Nat.leb_spec x (s_start sp)); lia.
  - unfold replacement. destruct (Nat.leb_spec (after_edits es x) (s_start sp)) as [Q|Q]; [|lia].
    destruct (Nat.le_gt_cases x (s_end sp)) as [P|P]; [rewrite (A P) in *; lia|specialize (B ltac:(lia)); lia].
Qed.

Lemma after_same es b len y sp : in_order b len (map fst es) -> s_start y < s_end y -> s_start sp < s_end sp -> s_end sp <= b ->
  y = sp \/ disjoint y sp -> move_span (after_edits es) y = sp <-> y = sp.
Proof.
  intros H Ly Ls Lb D. unfold move_span, disjoint in *. split.
  - intros K. destruct D as [D|D]; [exact D|]. exfalso. destruct sp as [p q]. cbn [s_start s_end] in *. injection K as K1 K2. destruct D as [D|D].
    + rewrite (proj1 (after_low _ _ _ H (s_end y))) in K2 by lia. lia.
    + destruct (Nat.le_gt_cases (s_start y) b) as [Q|Q].
      * rewrite (proj1 (after_low _ _ _ H (s_start y)) Q) in K1. lia.
      * pose proof (proj2 (after_low _ _ _ H (s_start y)) ltac:(lia)). lia.
  - intros ->. destruct sp as [p q]. cbn [s_start s_end] in *.
    rewrite (proj1 (after_low _ _ _ H p)), (proj1 (after_low _ _ _ H q)) by lia. reflexivity.
Qed.

Lemma not_later c cs b len : in_order b len (map change_span cs) -> s_start (change_span c) < b -> forall c', In c' cs -> change_span c' <> change_span c.
Proof. intros H L c' Hc K. destruct (in_order_bounds _ _ _ _ H (in_map change_span _ _ Hc)) as (Q & _). rewrite K in Q. lia. Qed.

Theorem names_after unq W d : valid_utf8 W = true -> parse unq W = Ok d -> forall cs b, in_order b (length W) (map change_span cs) -> b <= length W ->
  (forall c, In c cs -> can_make d c) -> forall m f, nth_error (d_instructions d) m = Some (IFrom f) ->
  exists f', nth_error (d_instructions (all_changed cs d)) m = Some (IFrom f') /\ named cs f f' /\
    ss_span (from_image f') = move_span (after_edits (map change_edit cs)) (ss_span (from_image f)) /\
    option_map ss_span (from_alias f') = option_map (fun al => move_span (after_edits (map change_edit cs)) (ss_span al)) (from_alias f).
Proof.
  intros V E cs. induction cs as [|c cs IH]; intros b Ho Hb Hc m f Hm; cbn [all_changed fold_right map].
  - exists f. split; [exact Hm|]. split; [|split].
    + split; [reflexivity|]. split; [intros t r []|]. split; [auto|]. destruct (from_alias f); [split; [intros t []|auto]|exact I].
    + destruct (ss_span (from_image f)); reflexivity.
    + destruct (from_alias f) as [[[? ?] ?]|]; reflexivity.
  - cbn [map in_order] in Ho. destruct Ho as (L1 & L2 & L3 & Ho). fold (all_changed cs d).
    assert (Hc' : forall c', In c' cs -> can_make d c') by (intros c' K; apply Hc; right; exact K).
    destruct (changes_made unq W d V E cs _ Ho L3 Hc') as (V' & E' & _ & K').
    destruct (IH _ Ho L3 Hc' m f Hm) as (f1 & H1 & (N0 & N1 & N2 & N3) & S1 & S2).
    pose proof (Hc c (or_introl eq_refl)) as Hc0. pose proof (K' c Hc0 (le_n _)) as HcD.
    pose proof (nth_error_In _ _ Hm) as Hi. pose proof (nth_error_In _ _ H1) as Hi1.
    assert (Em : map fst (map change_edit cs) = map change_span cs) by (rewrite map_map; reflexivity).
    assert (Later : forall c', In c' cs -> change_span c' <> change_span c) by (apply (not_later c cs _ _ Ho L2)).
    destruct (changed_from c f1) as (f' & Ef & T1 & T2). exists f'. cbn [changed d_instructions].
    split; [rewrite nth_error_map, H1; cbn [option_map]; rewrite Ef; reflexivity|].
    split.
    2: { split; [rewrite T1, S1; reflexivity|]. rewrite T2. destruct (from_alias f1) as [x|], (from_alias f) as [y|]; cbn in *; try discriminate; [|reflexivity].
         injection S2 as ->. reflexivity. }
    assert (Place : forall sp, In sp (quotable_places (IFrom f)) -> is_name_change c = true ->
      move_span (after_edits (map change_edit cs)) sp = change_span c <-> sp = change_span c).
    { intros sp Hsp Hn. destruct (place_bounded unq W d V E _ _ Hi Hsp) as (P1 & _).
      apply (after_same _ (s_end (change_span c)) (length W)); [rewrite Em; exact Ho|exact P1|exact L2|lia|].
      destruct (selection_spans unq W d _ V E (places_selected (d_instructions d))) as [Hsel _].
      apply (in_order_disjoint _ _ _ _ _ Hsel); [apply in_flat_map; exists (IFrom f); auto|].
      destruct c as [sp' t r|sp' t|sp' t|sp' t]; try discriminate; cbn [can_make change_span] in Hc0 |- *.
      - destruct Hc0 as (_ & f2 & Hf2 & <-). apply in_flat_map. exists (IFrom f2). split; [exact Hf2|apply image_place].
      - destruct Hc0 as (_ & f2 & al & Hf2 & Ha & <-). apply in_flat_map. exists (IFrom f2). split; [exact Hf2|apply alias_place; exact Ha]. }
    destruct (is_name_change c) eqn:Hn.
    + destruct c as [sp t r|sp t|sp t|sp t]; try discriminate; cbn [change_span changed_instruction] in *.
      * specialize (Place _ (image_place f) eq_refl). rewrite <- S1 in Place.
        destruct (span_eq_dec (ss_span (from_image f1)) sp) as [Q|Q]; injection Ef as <-.
        -- pose proof (proj1 Place Q) as Q0. split; [exact N0|]. split; [|split].
           ++ intros t' r' [K|K]; [injection K as _ <- <-; split; reflexivity|]. exfalso. apply (Later _ K). exact Q0.
           ++ intros K. exfalso. apply (K t r). left. rewrite Q0. reflexivity.
           ++ cbn [with_image move_from from_alias]. destruct (from_alias f) as [al|], (from_alias f1) as [al1|]; try exact N3. cbn [option_map move_string ss_content].
              destruct N3 as [A B]. split; [intros t' [K|K]; [discriminate|exact (A t' K)]|intros K; apply B; intros t' K2; apply (K t'); right; exact K2].
        -- assert (Q0 : ss_span (from_image f) <> sp) by (intros K; apply Q; apply Place; exact K). split; [exact N0|]. split; [|split].
           ++ intros t' r' [K|K]; [congruence|]. exact (N1 t' r' K).
           ++ intros K. apply N2. intros t' r' K2. apply (K t' r'). right. exact K2.
           ++ cbn [move_from from_alias]. destruct (from_alias f) as [al|], (from_alias f1) as [al1|]; try exact N3. cbn [option_map move_string ss_content].
              destruct N3 as [A B]. split; [intros t' [K|K]; [discriminate|exact (A t' K)]|intros K; apply B; intros t' K2; apply (K t'); right; exact K2].
      * assert (I1 : (forall t' r', In (NewImage (ss_span (from_image f)) t' r') (NewAlias sp t :: cs) ->
            ss_content (from_image f1) = t' /\ from_image_parsed f1 = r') /\
          ((forall t' r', ~ In (NewImage (ss_span (from_image f)) t' r') (NewAlias sp t :: cs)) ->
            ss_content (from_image f1) = ss_content (from_image f) /\ from_image_parsed f1 = from_image_parsed f)).
        { split; [intros t' r' [K|K]; [discriminate|exact (N1 t' r' K)]|]. intros K. apply N2. intros t' r' K2. apply (K t' r'). right. exact K2. }
        destruct (from_alias f1) as [al1|] eqn:Ea1.
        2: { injection Ef as <-. split; [exact N0|]. split; [exact (proj1 I1)|]. split; [exact (proj2 I1)|]. cbn [move_from from_alias]. rewrite Ea1.
             destruct (from_alias f); [contradiction|exact I]. }
        destruct (from_alias f) as [al|] eqn:Ea; [|contradiction]. cbn in S2. injection S2 as S2.
        specialize (Place _ (alias_place f al Ea) eq_refl). rewrite <- S2 in Place.
        destruct (span_eq_dec (ss_span al1) sp) as [Q|Q]; injection Ef as <-.
        -- pose proof (proj1 Place Q) as Q0. split; [exact N0|]. split; [exact (proj1 I1)|]. split; [exact (proj2 I1)|].
           cbn [with_alias move_from from_alias]. rewrite Ea, Ea1. cbn [option_map ss_content]. split.
           ++ intros t' [K|K]; [congruence|]. exfalso. apply (Later _ K). exact Q0.
           ++ intros K. exfalso. apply (K t). left. rewrite Q0. reflexivity.
        -- assert (Q0 : ss_span al <> sp) by (intros K; apply Q; apply Place; exact K).
           split; [exact N0|]. split; [exact (proj1 I1)|]. split; [exact (proj2 I1)|].
           cbn [move_from from_alias]. rewrite Ea, Ea1. cbn [option_map move_string ss_content]. destruct N3 as [A B]. split.
           ++ intros t' [K|K]; [congruence|exact (A t' K)].
           ++ intros K. apply B. intros t' K2. apply (K t'). right. exact K2.
    + assert (Far : forall sp, name_place f1 sp -> around (s_start (change_span c)) (s_end (change_span c)) sp = false).
      { intros sp Hsp. apply (name_not_reworded unq _ _ V' E' f1 sp c Hi1 Hsp HcD Hn). }
      assert (Ci : ss_content (from_image f') = ss_content (from_image f1) /\ from_image_parsed f' = from_image_parsed f1 /\ from_index f' = from_index f1 /\
        option_map ss_content (from_alias f') = option_map ss_content (from_alias f1)).
      { destruct c as [sp t r|sp t|sp t|sp t]; try discriminate; cbn [change_span changed_instruction reword_instruction] in *; injection Ef as <-;
          cbn [reword_from from_image reword_string ss_content from_image_parsed from_index from_alias]; unfold reword_text;
          rewrite (Far (ss_span (from_image f1)) (or_introl eq_refl)); (split; [reflexivity|]; split; [reflexivity|]; split; [reflexivity|]);
          destruct (from_alias f1) as [al|] eqn:Ea; cbn [option_map reword_string ss_content]; try reflexivity; unfold reword_text;
          rewrite (Far (ss_span al)) by (right; exists al; auto); reflexivity. }
      destruct Ci as (C1 & C2 & C3 & C4). split; [congruence|]. split; [|split].
      * intros t r [K|K]; [subst c; discriminate|]. rewrite C1, C2. exact (N1 t r K).
      * intros K. rewrite C1, C2. apply N2. intros t r K2. apply (K t r). right. exact K2.
      * destruct (from_alias f) as [al|], (from_alias f1) as [al1|], (from_alias f') as [al'|]; cbn in C4; try discriminate; try exact N3.
        injection C4 as C4. rewrite C4. destruct N3 as [A B]. split; [intros t [K|K]; [subst c; discriminate|exact (A t K)]|].
        intros K. apply B. intros t K2. apply (K t). right. exact K2.
Qed.
