(** Splicing disjoint spans in any history, also with spans spliced again after
    their text was deleted: proofs.  For each span the text that stands in its
    place is kept in three pieces; the middle one is what the splicer takes for the
    span. *)

From Verif Require Import Bytes BytesFacts Result Ast Peg Splicer SpecSplice SplicerFacts.
Local Open Scope nat_scope.

Record zone : Type := Zone { z_span : span; z_left : bytes; z_mid : bytes; z_right : bytes }.

Definition z_text (z : zone) : bytes := z_left z ++ z_mid z ++ z_right z.
Definition z_edits (zs : list zone) : list edit := map (fun z => (z_span z, z_text z)) zs.

(** Where the splicer looks for the spans in the current text *)
Fixpoint places (c p : nat) (zs : list zone) : list (nat * nat) :=
  match zs with
  | [] => []
  | z :: zs' =>
    let a := c + (s_start (z_span z) - p) + length (z_left z) in
    (a, a + length (z_mid z)) ::
    places (a + length (z_mid z) + length (z_right z)) (s_end (z_span z)) zs'
  end.

(** New text before an empty middle, after all other empty middles at this place *)
Fixpoint grow (z : zone) (zs : list zone) (t : bytes) : list zone :=
  match z_mid z with
  | _ :: _ => Zone (z_span z) (z_left z) (t ++ z_mid z) (z_right z) :: zs
  | [] =>
    match zs with
    | k :: zs' =>
      if ((length (z_right z) =? 0) && (s_start (z_span k) =? s_end (z_span z)) && (length (z_left k) =? 0))%bool
      then z :: grow k zs' t
      else Zone (z_span z) (z_left z) [] (t ++ z_right z) :: zs
    | [] => [Zone (z_span z) (z_left z) [] (t ++ z_right z)]
    end
  end.

Fixpoint put_zone (i : nat) (zs : list zone) (t : bytes) : list zone :=
  match zs with
  | [] => []
  | z :: zs' =>
    match i with
    | S i' => z :: put_zone i' zs' t
    | O => match z_mid z with
           | _ :: _ => Zone (z_span z) (z_left z) t (z_right z) :: zs'
           | [] => grow z zs' t
           end
    end
  end.

Definition moved (a n m : nat) (p : nat * nat) : nat * nat :=
  if a <? fst p then (fst p + n - m, snd p + n - m)
  else if a <? snd p then (fst p, snd p + n - m) else p.

Definition zone_ok (z : zone) : Prop :=
  valid_utf8 (z_left z) = true /\ valid_utf8 (z_mid z) = true /\ valid_utf8 (z_right z) = true.

Lemma in_order_ordered p len sps : in_order p len sps -> ordered p len sps.
Proof.
  revert p; induction sps as [|s sps IH]; intros p H; [exact Logic.I|].
  cbn [in_order ordered] in *. destruct H as (H1 & H2 & H3 & H4). repeat split; try lia. apply IH. exact H4.
Qed.

Lemma in_order_nodup p len sps : in_order p len sps -> NoDup sps.
Proof.
  revert p. induction sps as [|s sps IH]; intros p H; [constructor|]. cbn [in_order] in H. destruct H as (_ & H2 & _ & H4).
  constructor; [|exact (IH _ H4)]. intros K. clear IH.
  assert (Q : forall q l, in_order q len l -> In s l -> q <= s_start s).
  { intros q l. revert q. induction l as [|k l IH]; intros q Hl []; cbn [in_order] in Hl; destruct Hl as (L1 & L2 & _ & L4).
    - subst k. exact L1.
    - specialize (IH _ L4 H). lia. }
  specialize (Q _ _ H4 K). lia.
Qed.

Lemma ordered_bounds p len sps sp : ordered p len sps -> In sp sps -> p <= s_start sp /\ s_start sp <= s_end sp /\ s_end sp <= len.
Proof.
  revert p; induction sps as [|s sps IH]; intros p H Hi; [destruct Hi|].
  cbn [ordered] in H. destruct H as (H1 & H2 & H3 & H4). destruct Hi as [->|Hi]; [lia|].
  destruct (IH _ H4 Hi) as (K1 & K2 & K3). lia.
Qed.

Lemma places_bounds c p zs x y : In (x, y) (places c p zs) -> c <= x /\ x <= y.
Proof.
  revert c p; induction zs as [|z zs IH]; intros c p H; [destruct H|].
  cbn [places] in H. destruct H as [H|H]; [injection H as <- <-; lia|]. apply IH in H. lia.
Qed.

Lemma moved_after c c' n m a p zs : a < c -> m <= c -> c' + m = c + n ->
  places c' p zs = map (moved a n m) (places c p zs).
Proof.
  revert c c' p; induction zs as [|z zs IH]; intros c c' p H1 H2 H3; [reflexivity|].
  cbn [places map]. f_equal.
  - unfold moved. cbn [fst snd]. rewrite (proj2 (Nat.ltb_lt _ _)) by lia. f_equal; lia.
  - apply IH; lia.
Qed.

Lemma grow_spans z zs t : map z_span (grow z zs t) = z_span z :: map z_span zs.
Proof.
  revert z; induction zs as [|k zs IH]; intros z; cbn [grow]; destruct (z_mid z); try reflexivity.
  destruct (_ && _)%bool; [|reflexivity]. cbn [map]. rewrite IH. reflexivity.
Qed.

Lemma put_zone_spans i zs t : map z_span (put_zone i zs t) = map z_span zs.
Proof.
  revert i; induction zs as [|z zs IH]; intros i; [destruct i; reflexivity|].
  destruct i as [|i]; cbn [put_zone]; [|cbn [map]; rewrite IH; reflexivity].
  destruct (z_mid z); [apply grow_spans|reflexivity].
Qed.

Lemma zone_ok_3 sp l m r : valid_utf8 l = true -> valid_utf8 m = true -> valid_utf8 r = true -> zone_ok (Zone sp l m r).
Proof. intros H1 H2 H3. exact (conj H1 (conj H2 H3)). Qed.

Lemma grow_ok z zs t : valid_utf8 t = true -> Forall zone_ok (z :: zs) -> Forall zone_ok (grow z zs t).
Proof.
  intros Vt. revert z; induction zs as [|k zs IH]; intros z H; inversion H as [|? ? (H1 & H2 & H3) H4]; subst;
    cbn [grow]; destruct (z_mid z) as [|x m] eqn:E.
  - constructor; [|constructor]. apply zone_ok_3; [assumption|reflexivity|rewrite valid_utf8_app; assumption].
  - constructor; [|constructor]. apply zone_ok_3; [assumption|rewrite valid_utf8_app; assumption|assumption].
  - destruct (_ && _)%bool.
    + constructor; [|apply IH; assumption]. inversion H; assumption.
    + constructor; [|assumption]. apply zone_ok_3; [assumption|reflexivity|rewrite valid_utf8_app; assumption].
  - constructor; [|assumption]. apply zone_ok_3; [assumption|rewrite valid_utf8_app; assumption|assumption].
Qed.

Lemma put_zone_ok i zs t : valid_utf8 t = true -> Forall zone_ok zs -> Forall zone_ok (put_zone i zs t).
Proof.
  intros Vt. revert i; induction zs as [|z zs IH]; intros i H; [destruct i; constructor|].
  destruct i as [|i]; cbn [put_zone].
  - destruct (z_mid z) eqn:E; [apply grow_ok; assumption|].
    inversion H as [|? ? (H1 & H2 & H3) H4]; subst. constructor; [|assumption]. apply zone_ok_3; assumption.
  - inversion H; subst. constructor; [assumption|]. apply IH. assumption.
Qed.

Lemma grow_places c p z zs t a :
  a = c + (s_start (z_span z) - p) + length (z_left z) ->
  (forall len, ordered (s_end (z_span z)) len (map z_span zs) ->
  places c p (grow z zs t) = map (moved a (length t) 0) (places c p (z :: zs))).
Proof.
  revert c p z a; induction zs as [|k zs IH]; intros c p z a Ea len Ho; cbn [grow].
  - destruct (z_mid z) as [|x m] eqn:E; cbn [places z_span z_left z_mid z_right map]; rewrite <- Ea; unfold moved; cbn [fst snd].
    + rewrite E. cbn [length]. rewrite !(proj2 (Nat.ltb_ge _ _)) by lia. reflexivity.
    + rewrite E. rewrite (proj2 (Nat.ltb_ge _ a)) by lia. rewrite (proj2 (Nat.ltb_lt _ _)) by (cbn [length]; lia).
      f_equal. f_equal. rewrite app_length. lia.
  - cbn [map ordered] in Ho. destruct Ho as (O1 & O2 & O3 & O4).
    destruct (z_mid z) as [|x m] eqn:E.
    + destruct (_ && _)%bool eqn:B.
      * apply andb_true_iff in B. destruct B as [B B3]. apply andb_true_iff in B. destruct B as [B1 B2].
        apply Nat.eqb_eq in B1, B2, B3.
        cbn [places]. cbn [map]. rewrite <- Ea, E. cbn [length]. f_equal.
        { unfold moved. cbn [fst snd]. rewrite !(proj2 (Nat.ltb_ge _ _)) by lia. reflexivity. }
        rewrite (IH _ (s_end (z_span z)) k a) with (len := len); [reflexivity|lia|exact O4].
      * cbn [places z_span z_left z_mid z_right]. cbn [map]. rewrite <- Ea, E. cbn [length]. f_equal.
        { unfold moved. cbn [fst snd]. rewrite !(proj2 (Nat.ltb_ge _ _)) by lia. reflexivity. }
        assert (K : 0 < length (z_right z) \/ s_end (z_span z) < s_start (z_span k) \/ 0 < length (z_left k)).
        { apply andb_false_iff in B. destruct B as [B|B]; [apply andb_false_iff in B; destruct B as [B|B]|]; apply Nat.eqb_neq in B; lia. }
        f_equal.
        { unfold moved. cbn [fst snd]. rewrite (proj2 (Nat.ltb_lt _ _)) by lia. rewrite app_length. f_equal; lia. }
        apply moved_after; [lia|lia|]. rewrite app_length. lia.
    + cbn [places z_span z_left z_mid z_right]. cbn [map]. rewrite <- Ea, E. f_equal.
      { unfold moved. cbn [fst snd]. rewrite (proj2 (Nat.ltb_ge _ a)) by lia. rewrite (proj2 (Nat.ltb_lt _ _)) by (cbn [length]; lia).
        f_equal. rewrite app_length. lia. }
      f_equal.
      { unfold moved. cbn [fst snd]. rewrite (proj2 (Nat.ltb_lt _ _)) by (cbn [length]; lia). rewrite app_length. f_equal; lia. }
      apply moved_after; [cbn [length]; lia|lia|]. rewrite app_length. lia.
Qed.

Lemma put_zone_places c p zs i t a b len : ordered p len (map z_span zs) ->
  nth_error (places c p zs) i = Some (a, b) ->
  places c p (put_zone i zs t) = map (moved a (length t) (b - a)) (places c p zs).
Proof.
  revert c p i; induction zs as [|z zs IH]; intros c p i Ho Hi; [destruct i; discriminate|].
  cbn [map ordered] in Ho. destruct Ho as (O1 & O2 & O3 & O4).
  destruct i as [|i]; cbn [put_zone].
  - cbn [places nth_error] in Hi. injection Hi as Ha Hb.
    destruct (z_mid z) as [|x m] eqn:E.
    + rewrite (grow_places c p z zs t a) with (len := len) by (auto; lia).
      f_equal. cbn [length] in Hb. f_equal. lia.
    + rewrite <- E in *. assert (Lm : 0 < length (z_mid z)) by (rewrite E; cbn [length]; lia).
      cbn [places z_span z_left z_mid z_right map]. rewrite Ha in Hb. rewrite Ha. f_equal.
      { unfold moved. cbn [fst snd]. rewrite (proj2 (Nat.ltb_ge _ a)) by lia. rewrite (proj2 (Nat.ltb_lt _ _)) by lia.
        f_equal. lia. }
      apply moved_after; lia.
  - cbn [places nth_error] in Hi. cbn [places map]. f_equal; [|apply IH; assumption].
    apply nth_error_In in Hi. apply places_bounds in Hi. unfold moved. cbn [fst snd].
    rewrite !(proj2 (Nat.ltb_ge _ _)) by lia. reflexivity.
Qed.

Lemma grow_content doc p z zs t :
  replaced doc p (z_edits (grow z zs t)) =
  slice doc p (s_start (z_span z)) ++ z_left z ++ t ++ z_mid z ++ z_right z ++
  replaced doc (s_end (z_span z)) (z_edits zs).
Proof.
  revert p z; induction zs as [|k zs IH]; intros p z; cbn [grow]; destruct (z_mid z) as [|x m] eqn:E.
  - cbn [z_edits map replaced z_span]. unfold z_text. cbn [z_left z_mid z_right app]. rewrite <- !app_assoc. reflexivity.
  - rewrite <- E. cbn [z_edits map replaced z_span]. unfold z_text. cbn [z_left z_mid z_right]. rewrite <- !app_assoc. reflexivity.
  - destruct (_ && _)%bool eqn:B.
    + apply andb_true_iff in B. destruct B as [B B3]. apply andb_true_iff in B. destruct B as [B1 B2].
      apply Nat.eqb_eq in B2. apply Nat.eqb_eq, length_zero_iff_nil in B1. apply Nat.eqb_eq, length_zero_iff_nil in B3.
      unfold z_edits. cbn [map replaced]. fold (z_edits zs). fold (z_edits (grow k zs t)). rewrite IH. unfold z_text.
      rewrite E, B1, B3, B2.
      assert (Es : slice doc (s_end (z_span z)) (s_end (z_span z)) = []) by (unfold slice; rewrite Nat.sub_diag; reflexivity).
      rewrite Es. cbn [app].
      rewrite !app_nil_r, <- !app_assoc. reflexivity.
    + unfold z_edits. cbn [map replaced z_span]. unfold z_text. cbn [z_left z_mid z_right app]. rewrite <- !app_assoc. reflexivity.
  - rewrite <- E. unfold z_edits. cbn [map replaced z_span]. unfold z_text. cbn [z_left z_mid z_right]. rewrite <- !app_assoc. reflexivity.
Qed.

Lemma zones_valid doc p zs : valid_utf8 doc = true -> p <= length doc -> is_boundary doc p = true ->
  ordered p (length doc) (map z_span zs) ->
  (forall sp, In sp (map z_span zs) -> on_boundaries doc sp) ->
  Forall zone_ok zs -> valid_utf8 (replaced doc p (z_edits zs)) = true.
Proof.
  intros Vd. revert p; induction zs as [|z zs IH]; intros p Hp Bp Ho Hb Hz.
  - cbn [z_edits map replaced]. apply valid_boundary in Bp; [|assumption|assumption]. apply Bp.
  - cbn [map ordered] in Ho. destruct Ho as (O1 & O2 & O3 & O4).
    inversion Hz as [|? ? (Z1 & Z2 & Z3) Z4]; subst.
    destruct (Hb (z_span z)) as [B1 B2]; [left; reflexivity|].
    unfold z_edits. cbn [map replaced]. fold (z_edits zs). unfold z_text.
    rewrite valid_utf8_app by (apply valid_slice; try assumption; lia).
    rewrite <- !app_assoc. rewrite !valid_utf8_app by assumption.
    apply IH; try assumption. intros sp Hi. apply Hb. right. exact Hi.
Qed.

Lemma put_zone_content doc c p zs i t a b : valid_utf8 doc = true -> p <= length doc -> is_boundary doc p = true ->
  ordered p (length doc) (map z_span zs) ->
  (forall sp, In sp (map z_span zs) -> on_boundaries doc sp) ->
  Forall zone_ok zs ->
  nth_error (places c p zs) i = Some (a, b) ->
  exists u m v, replaced doc p (z_edits zs) = u ++ m ++ v /\
    replaced doc p (z_edits (put_zone i zs t)) = u ++ t ++ v /\
    c + length u = a /\ a + length m = b /\
    valid_utf8 u = true /\ valid_utf8 m = true /\ valid_utf8 v = true.
Proof.
  intros Vd. revert c p i; induction zs as [|z zs IH]; intros c p i Hp Bp Ho Hb Hz Hi; [destruct i; discriminate|].
  pose proof Ho as Ho'. pose proof Hz as Hz'.
  cbn [map ordered] in Ho. destruct Ho as (O1 & O2 & O3 & O4).
  inversion Hz as [|? ? (Z1 & Z2 & Z3) Z4]; subst.
  destruct (Hb (z_span z)) as [B1 B2]; [left; reflexivity|].
  assert (Hb' : forall sp, In sp (map z_span zs) -> on_boundaries doc sp) by (intros sp Hs; apply Hb; right; exact Hs).
  assert (Vs : valid_utf8 (slice doc p (s_start (z_span z))) = true) by (apply valid_slice; try assumption; lia).
  assert (Ls : length (slice doc p (s_start (z_span z))) = s_start (z_span z) - p) by (apply slice_length; lia).
  assert (Vr : valid_utf8 (replaced doc (s_end (z_span z)) (z_edits zs)) = true) by (apply zones_valid; assumption).
  destruct i as [|i]; cbn [put_zone].
  - cbn [places nth_error] in Hi. injection Hi as Ha Hb0.
    exists (slice doc p (s_start (z_span z)) ++ z_left z), (z_mid z), (z_right z ++ replaced doc (s_end (z_span z)) (z_edits zs)).
    split; [|split; [|split; [|split; [|split; [|split]]]]].
    + unfold z_edits. cbn [map replaced]. unfold z_text. rewrite <- !app_assoc. reflexivity.
    + destruct (z_mid z) as [|x m] eqn:E.
      * rewrite grow_content, E. cbn [app]. rewrite <- !app_assoc. reflexivity.
      * unfold z_edits. cbn [map replaced z_span]. unfold z_text. cbn [z_left z_mid z_right]. rewrite <- !app_assoc. reflexivity.
    + rewrite app_length. lia.
    + lia.
    + rewrite valid_utf8_app; assumption.
    + assumption.
    + rewrite valid_utf8_app; assumption.
  - cbn [places nth_error] in Hi.
    destruct (IH _ _ _ O3 B2 O4 Hb' Z4 Hi) as (u & m & v & E1 & E2 & E3 & E4 & V1 & V2 & V3).
    exists (slice doc p (s_start (z_span z)) ++ z_text z ++ u), m, v.
    split; [|split; [|split; [|split; [|split; [|split]]]]]; try assumption.
    + unfold z_edits in *. cbn [map replaced]. rewrite E1, <- !app_assoc. reflexivity.
    + unfold z_edits in *. cbn [map replaced]. rewrite E2, <- !app_assoc. reflexivity.
    + unfold z_text. rewrite !app_length. lia.
    + unfold z_text. rewrite <- !app_assoc. rewrite !valid_utf8_app by assumption. assumption.
Qed.

(** ** The invariant *)

Record safe_inv (doc : bytes) (sps : list span) (st : splicer) (zs : list zone) : Prop := {
  si_spans : map z_span zs = sps;
  si_zones : Forall zone_ok zs;
  si_content : sp_content st = replaced doc 0 (z_edits zs);
  si_adjust : forall i j si sj a b a' b', i <= j ->
    nth_error sps i = Some si -> nth_error (places 0 0 zs) i = Some (a, b) ->
    nth_error sps j = Some sj -> nth_error (places 0 0 zs) j = Some (a', b') ->
    fold_left adjust_step (sp_offsets st) (Z.of_nat (s_start si), Z.of_nat (s_end sj)) = (Z.of_nat a, Z.of_nat b')
}.

Definition zone_of (doc : bytes) (sp : span) : zone := Zone sp [] (slice doc (s_start sp) (s_end sp)) [].

Lemma zones_of_places doc p len sps i sp : len <= length doc -> ordered p len sps -> nth_error sps i = Some sp ->
  nth_error (places p p (map (zone_of doc) sps)) i = Some (s_start sp, s_end sp).
Proof.
  intros Hl. revert p i; induction sps as [|s sps IH]; intros p i Ho Hi; [destruct i; discriminate|].
  cbn [ordered] in Ho. destruct Ho as (O1 & O2 & O3 & O4).
  cbn [map places zone_of z_span z_left z_mid z_right length]. rewrite slice_length by lia.
  destruct i as [|i]; cbn [nth_error] in *.
  - injection Hi as ->. f_equal. f_equal; lia.
  - replace (p + (s_start s - p) + 0 + (s_end s - s_start s) + 0) with (s_end s) by lia. apply IH; assumption.
Qed.

Lemma zones_of_content doc p sps : p <= length doc -> ordered p (length doc) sps ->
  replaced doc p (z_edits (map (zone_of doc) sps)) = skipn p doc.
Proof.
  revert p; induction sps as [|s sps IH]; intros p Hp Ho; [reflexivity|].
  cbn [ordered] in Ho. destruct Ho as (O1 & O2 & O3 & O4).
  unfold z_edits. cbn [map replaced zone_of z_span]. fold (z_edits (map (zone_of doc) sps)). rewrite IH by assumption.
  unfold z_text, zone_of. cbn [z_left z_mid z_right app]. rewrite app_nil_r, app_assoc, <- slice_split by lia.
  unfold slice. rewrite <- (firstn_skipn (s_end s - p) (skipn p doc)) at 2. f_equal.
  rewrite skipn_skipn. f_equal. lia.
Qed.

Lemma safe_start doc sps : valid_utf8 doc = true -> ordered 0 (length doc) sps ->
  (forall sp, In sp sps -> on_boundaries doc sp) ->
  safe_inv doc sps (splicer_from_str doc) (map (zone_of doc) sps).
Proof.
  intros Vd Ho Hb. split.
  - rewrite map_map. cbn [zone_of z_span]. apply map_id.
  - apply Forall_forall. intros z Hz. apply in_map_iff in Hz. destruct Hz as (sp & <- & Hi).
    destruct (ordered_bounds _ _ _ _ Ho Hi) as (_ & K1 & K2). destruct (Hb sp Hi) as [B1 B2].
    apply zone_ok_3; [reflexivity| |reflexivity]. apply valid_slice; assumption.
  - cbn [splicer_from_str sp_content]. rewrite zones_of_content by (auto; lia). reflexivity.
  - intros i j si sj a b a' b' _ Hi Hp Hj Hq. rewrite (zones_of_places doc 0 (length doc) sps i si) in Hp by (auto; lia).
    rewrite (zones_of_places doc 0 (length doc) sps j sj) in Hq by (auto; lia).
    injection Hp as <- <-. injection Hq as <- <-. reflexivity.
Qed.

Lemma places_length c p zs : length (places c p zs) = length zs.
Proof. revert c p; induction zs as [|z zs IH]; intros c p; cbn [places length]; [reflexivity|]. f_equal. apply IH. Qed.

Lemma places_order c p zs i j a b x y : i < j ->
  nth_error (places c p zs) i = Some (a, b) -> nth_error (places c p zs) j = Some (x, y) -> b <= x.
Proof.
  revert c p i j; induction zs as [|z zs IH]; intros c p i j L Hi Hj; [destruct i; discriminate|].
  cbn [places] in *. destruct j as [|j]; [lia|]. cbn [nth_error] in Hj. destruct i as [|i]; cbn [nth_error] in Hi.
  - injection Hi as <- <-. apply nth_error_In in Hj. apply places_bounds in Hj. lia.
  - apply (IH _ _ i j) in Hj; [exact Hj|lia|exact Hi].
Qed.

Lemma safe_splice doc sps st zs sp t : valid_utf8 doc = true -> ordered 0 (length doc) sps ->
  (forall s, In s sps -> on_boundaries doc s) -> (Z.of_nat (length doc) < two63)%Z ->
  safe_inv doc sps st zs -> In sp sps -> valid_utf8 t = true ->
  (Z.of_nat (length (sp_content st) + length t) < two63)%Z ->
  exists st' i, nth_error sps i = Some sp /\ splice st sp t = Ok st' /\ safe_inv doc sps st' (put_zone i zs t) /\
    length (sp_content st') <= length (sp_content st) + length t.
Proof.
  intros Vd Ho Hb Hd I Hi Vt Hs. destruct I as [I1 I2 I3 I4].
  apply In_nth_error in Hi. destruct Hi as [i Hi].
  destruct (nth_error (places 0 0 zs) i) as [[a b]|] eqn:Ep.
  2: { exfalso. apply nth_error_None in Ep. rewrite places_length in Ep.
       assert (K : i < length sps) by (apply nth_error_Some; congruence). rewrite <- I1, map_length in K. lia. }
  destruct (ordered_bounds _ _ _ _ Ho (nth_error_In _ _ Hi)) as (_ & K1 & K2).
  assert (Ho' : ordered 0 (length doc) (map z_span zs)) by (rewrite I1; exact Ho).
  assert (Hb' : forall s, In s (map z_span zs) -> on_boundaries doc s) by (rewrite I1; exact Hb).
  destruct (put_zone_content doc 0 0 zs i t a b) as (u & m & v & E1 & E2 & E3 & E4 & V1 & V2 & V3); try assumption; [lia|reflexivity|].
  cbn [plus] in E3.
  assert (Ea : adjust_offsets sp (sp_offsets st) = Span a b).
  { unfold adjust_offsets. rewrite !as_isize_small by lia. rewrite (I4 i i sp sp a b a b) by (auto; lia).
    unfold try_usize. rewrite !(proj2 (Z.ltb_ge _ 0)) by lia. rewrite !Nat2Z.id. reflexivity. }
  assert (Lc : length (sp_content st) = length u + length m + length v).
  { rewrite I3, E1, !app_length. lia. }
  assert (Es : splice st sp t = Ok (Splicer (u ++ t ++ v)
     (sp_offsets st ++ [SpliceOffset a (Z.of_nat (length t) - Z.of_nat (b - a))]))).
  { unfold splice. rewrite Ea. cbn [s_start s_end]. rewrite (proj2 (Nat.ltb_ge _ _)) by lia.
    rewrite I3, E1. unfold split_at at 1. rewrite (proj2 (Nat.leb_le _ _)) by (rewrite app_length; lia).
    rewrite <- E3. rewrite boundary_of_app by (rewrite valid_utf8_app; assumption).
    cbn [andb bind]. rewrite skipn_app_exact, firstn_app_exact.
    unfold split_at. replace (b - length u) with (length m) by lia.
    rewrite (proj2 (Nat.leb_le _ _)) by (rewrite app_length; lia).
    rewrite boundary_of_app by assumption. cbn [andb bind]. rewrite skipn_app_exact.
    unfold new_string. rewrite (proj2 (Z.ltb_lt _ _)) by (rewrite !app_length; lia). reflexivity. }
  exists (Splicer (u ++ t ++ v) (sp_offsets st ++ [SpliceOffset a (Z.of_nat (length t) - Z.of_nat (b - a))])), i.
  split; [exact Hi|]. split; [exact Es|]. split; [|cbn [sp_content]; rewrite !app_length; lia].
  split; cbn [sp_content sp_offsets].
  - rewrite put_zone_spans. exact I1.
  - apply put_zone_ok; assumption.
  - symmetry. exact E2.
  - intros j k sj sk a1 b1 a2 b2 Hjk Hj Hp Hk Hq. rewrite fold_left_app. cbn [fold_left].
    rewrite (put_zone_places 0 0 zs i t a b (length doc)) in Hp, Hq by assumption.
    rewrite nth_error_map in Hp, Hq. destruct (nth_error (places 0 0 zs) j) as [[x y]|] eqn:Ex; [|discriminate].
    destruct (nth_error (places 0 0 zs) k) as [[x' y']|] eqn:Ex'; [|discriminate].
    cbn [option_map] in Hp, Hq. injection Hp as Hp. injection Hq as Hq.
    rewrite (I4 j k sj sk x y x' y') by assumption. cbn [adjust_step so_position so_offset].
    assert (F : forall n p q, nth_error (places 0 0 zs) n = Some (p, q) ->
              p <= q /\ q <= length (sp_content st) /\ ((p = a /\ q = b) \/ q <= a \/ b <= p)).
    { intros n p q Hn. destruct (put_zone_content doc 0 0 zs n [] p q) as (u' & m' & v' & F1 & _ & F3 & F4 & _); try assumption; [lia|reflexivity|].
      assert (Ly : q <= length (sp_content st)) by (rewrite I3, F1, !app_length; lia).
      split; [lia|]. split; [exact Ly|].
      destruct (lt_eq_lt_dec i n) as [[L|L]|L].
      - right. right. apply (places_order 0 0 zs i n a b p q); assumption.
      - left. subst n. rewrite Ep in Hn. injection Hn as -> ->. auto.
      - right. left. apply (places_order 0 0 zs n i p q a b); assumption. }
    destruct (F _ _ _ Ex) as (F1 & F2 & F3). destruct (F _ _ _ Ex') as (F1' & F2' & F3').
    assert (Fxy : x <= y').
    { destruct (Nat.eq_dec j k) as [->|Hn]; [rewrite Ex in Ex'; injection Ex' as <- <-; exact F1|].
      pose proof (places_order 0 0 zs j k x y x' y' ltac:(lia) Ex Ex'). lia. }
    assert (Kab : a <= b) by lia.
    rewrite !as_usize_small by lia.
    unfold moved in Hp, Hq. cbn [fst snd] in Hp, Hq.
    assert (Zlt : forall n k, (Z.of_nat n <? Z.of_nat k)%Z = (n <? k)).
    { intros n p. destruct (n <? p) eqn:E; [apply Z.ltb_lt; apply Nat.ltb_lt in E|apply Z.ltb_ge; apply Nat.ltb_ge in E]; lia. }
    rewrite !Zlt.
    assert (Ha1 : a1 = if a <? x then x + length t - (b - a) else x).
    { destruct (a <? x); [|destruct (a <? y)]; injection Hp as <- <-; reflexivity. }
    assert (Hb2 : b2 = if a <? y' then y' + length t - (b - a) else y').
    { destruct (a <? x') eqn:Q; [|destruct (a <? y'); injection Hq as <- <-; reflexivity].
      apply Nat.ltb_lt in Q. rewrite (proj2 (Nat.ltb_lt a y')) by lia. injection Hq as <- <-. reflexivity. }
    clear Hp Hq. rewrite Ha1, Hb2. destruct (a <? x) eqn:Q1.
    + apply Nat.ltb_lt in Q1. rewrite (proj2 (Nat.ltb_lt a y')) by lia.
      rewrite !as_isize_small by lia. f_equal; lia.
    + destruct (a <? y') eqn:Q2; [|reflexivity].
      apply Nat.ltb_lt in Q2. rewrite !as_isize_small by lia. f_equal; lia.
Qed.

(** What stands beside the middle pieces is made of texts spliced before. *)
Definition leftover (ts : list bytes) (z : zone) : Prop := z_left z = [] /\ made_of ts (z_right z).

Lemma leftover_incl ts ts' z : incl ts ts' -> leftover ts z -> leftover ts' z.
Proof.
  intros H [E (l & El & Hl)]. split; [exact E|]. exists l. split; [exact El|]. intros x Hx. apply H, Hl, Hx.
Qed.

Lemma made_more ts t s : In t ts -> made_of ts s -> made_of ts (t ++ s).
Proof. intros Ht (l & -> & Hl). exists (t :: l). split; [reflexivity|]. intros x [<-|Hx]; auto. Qed.

Lemma grow_left ts z zs t : In t ts -> Forall (leftover ts) (z :: zs) -> Forall (leftover ts) (grow z zs t).
Proof.
  intros Ht. revert z; induction zs as [|k zs IH]; intros z H; cbn [grow].
  - destruct (z_mid z); constructor; auto; destruct (Forall_inv H) as [E1 E2]; split; cbn; auto. apply made_more; assumption.
  - pose proof (Forall_inv H) as [E1 E2]. pose proof (Forall_inv_tail H) as H'.
    destruct (z_mid z); [|constructor; [split; cbn; auto|exact H']].
    destruct (_ && _)%bool.
    + constructor; [split; auto|]. apply IH. exact H'.
    + constructor; [|exact H']. split; cbn; [exact E1|]. apply made_more; assumption.
Qed.

Lemma put_zone_left ts i zs t : In t ts -> Forall (leftover ts) zs -> Forall (leftover ts) (put_zone i zs t).
Proof.
  intros Ht. revert i; induction zs as [|z zs IH]; intros i H; [destruct i; constructor|].
  pose proof (Forall_inv H) as [E1 E2]. pose proof (Forall_inv_tail H) as H'.
  destruct i as [|i]; cbn [put_zone].
  - destruct (z_mid z); [apply grow_left; assumption|]. constructor; [split; cbn; auto|exact H'].
  - constructor; [split; auto|]. apply IH. exact H'.
Qed.

Lemma safe_run doc sps ops : valid_utf8 doc = true -> ordered 0 (length doc) sps ->
  (forall sp, In sp sps -> on_boundaries doc sp) ->
  (forall op, In op ops -> In (fst op) sps /\ valid_utf8 (snd op) = true) ->
  fits doc ops ->
  exists st zs, splice_all (splicer_from_str doc) ops = Ok st /\ safe_inv doc sps st zs /\
    length (sp_content st) <= length doc + text_size ops /\ Forall (leftover (map snd ops)) zs.
Proof.
  intros Vd Ho Hb. induction ops as [|[sp t] ops IH] using rev_ind; intros Hin Hf.
  - exists (splicer_from_str doc), (map (zone_of doc) sps). split; [reflexivity|]. split; [apply safe_start; assumption|].
    split; [cbn; lia|]. apply Forall_forall. intros z Hz. apply in_map_iff in Hz. destruct Hz as (sp & <- & _).
    split; [reflexivity|]. exists []. split; [reflexivity|]. intros x [].
  - unfold fits in *. rewrite text_size_app in *.
    assert (Ez : text_size [(sp, t)] = length t) by (unfold text_size; cbn; lia).
    destruct IH as (st & zs & E & I & L & F).
    + intros op Hi. apply Hin. apply in_or_app. left. exact Hi.
    + lia.
    + destruct (Hin (sp, t)) as [Hs Vt]; [apply in_or_app; right; left; reflexivity|]. cbn [fst snd] in *.
      destruct (safe_splice doc sps st zs sp t) as (st' & i & _ & E' & I' & L'); try assumption; [lia|lia|].
      exists st', (put_zone i zs t). split; [|split; [exact I'|split; [lia|]]].
      2: { apply put_zone_left; [rewrite map_app; apply in_or_app; right; left; reflexivity|].
           eapply Forall_impl; [|exact F]. intros z. apply leftover_incl. rewrite map_app. apply incl_appl, incl_refl. }
      unfold splice_all. rewrite for_each_app. fold (splice_all (splicer_from_str doc) ops).
      rewrite E. cbn [bind for_each fst snd]. rewrite E'. reflexivity.
Qed.

(** *** Spans with text between them: what any history gives *)

Definition zone_after (doc : bytes) (ops : list edit) (sp : span) : zone :=
  let '(m, r) := fold_left splice_again (texts_for sp ops) (slice doc (s_start sp) (s_end sp), []) in Zone sp [] m r.

Lemma zone_after_span doc ops sp : z_span (zone_after doc ops sp) = sp.
Proof. unfold zone_after. destruct (fold_left _ _ _). reflexivity. Qed.

Lemma texts_for_app sp a b : texts_for sp (a ++ b) = texts_for sp a ++ texts_for sp b.
Proof. unfold texts_for. rewrite filter_app, map_app. reflexivity. Qed.

Lemma zone_after_other doc ops sp sp' t : sp' <> sp -> zone_after doc (ops ++ [(sp, t)]) sp' = zone_after doc ops sp'.
Proof.
  intros H. unfold zone_after. rewrite texts_for_app. unfold texts_for at 2. cbn [filter fst].
  destruct (span_eq_dec sp sp'); [congruence|]. cbn [map]. rewrite app_nil_r. reflexivity.
Qed.

Lemma zone_after_same doc ops sp t : zone_after doc (ops ++ [(sp, t)]) sp =
  let z := zone_after doc ops sp in
  match z_mid z with [] => Zone sp [] [] (t ++ z_right z) | _ :: _ => Zone sp [] t (z_right z) end.
Proof.
  unfold zone_after. rewrite texts_for_app, fold_left_app. unfold texts_for at 1. cbn [filter fst].
  destruct (span_eq_dec sp sp); [|congruence]. cbn [map snd fold_left].
  destruct (fold_left splice_again (texts_for sp ops) _) as [m r]. unfold splice_again. cbn [fst snd z_mid z_right].
  destruct m; reflexivity.
Qed.

Lemma zone_after_left doc ops sp : z_left (zone_after doc ops sp) = [].
Proof. unfold zone_after. destruct (fold_left _ _ _). reflexivity. Qed.

Lemma put_zone_after doc ops sps i sp t : NoDup sps -> apart sps -> nth_error sps i = Some sp ->
  put_zone i (map (zone_after doc ops) sps) t = map (zone_after doc (ops ++ [(sp, t)])) sps.
Proof.
  revert i. induction sps as [|s sps IH]; intros i Hn Ha Hi; [destruct i; discriminate|].
  inversion Hn as [|? ? Hs Hn']. subst. destruct i as [|i]; cbn [nth_error] in Hi.
  - injection Hi as ->. cbn [map put_zone]. rewrite zone_after_same. cbv zeta.
    assert (Er : map (zone_after doc (ops ++ [(sp, t)])) sps = map (zone_after doc ops) sps).
    { apply map_ext_in. intros x Hx. apply zone_after_other. intros ->. contradiction. }
    rewrite Er. pose proof (zone_after_span doc ops sp) as Ez. pose proof (zone_after_left doc ops sp) as El.
    destruct (zone_after doc ops sp) as [s0 l m r]. cbn [z_span z_left z_mid z_right] in *. subst s0 l.
    destruct m as [|x m]; [|reflexivity]. destruct sps as [|k sps]; cbn [map grow z_mid]; [reflexivity|].
    rewrite zone_after_span, zone_after_left. cbn [z_span z_right].
    destruct Ha as [Ha _]. rewrite (proj2 (Nat.eqb_neq (s_start k) (s_end sp))) by lia. rewrite andb_false_r. cbn [andb]. reflexivity.
  - cbn [map put_zone]. rewrite IH; [|exact Hn'|destruct sps; [exact I|apply Ha]|exact Hi].
    f_equal. symmetry. apply zone_after_other. intros ->. apply nth_error_In in Hi. contradiction.
Qed.

Lemma apart_nodup p len sps : ordered p len sps -> apart sps -> NoDup sps.
Proof.
  revert p. induction sps as [|s sps IH]; intros p Ho Ha; [constructor|]. cbn [ordered] in Ho. destruct Ho as (_ & O2 & _ & O4).
  assert (Ha' : apart sps) by (destruct sps; [exact I|apply Ha]). constructor; [|eapply IH; eassumption].
  intros K. destruct sps as [|k sps]; [destruct K|]. destruct Ha as [Ha _]. cbn [ordered] in O4. destruct O4 as (Q1 & Q2 & _ & Q4).
  destruct K as [->|K]; [lia|]. apply (ordered_bounds _ _ _ _ Q4) in K. lia.
Qed.

Lemma run_apart doc sps ops : valid_utf8 doc = true -> ordered 0 (length doc) sps -> apart sps ->
  (forall sp, In sp sps -> on_boundaries doc sp) ->
  (forall op, In op ops -> In (fst op) sps /\ valid_utf8 (snd op) = true) ->
  fits doc ops ->
  exists st, splice_all (splicer_from_str doc) ops = Ok st /\ safe_inv doc sps st (map (zone_after doc ops) sps) /\
    length (sp_content st) <= length doc + text_size ops.
Proof.
  intros Vd Ho Ha Hb. pose proof (apart_nodup _ _ _ Ho Ha) as Hn. induction ops as [|[sp t] ops IH] using rev_ind; intros Hin Hf.
  - exists (splicer_from_str doc). split; [reflexivity|]. split; [|cbn; lia]. exact (safe_start doc sps Vd Ho Hb).
  - unfold fits in *. rewrite text_size_app in *.
    assert (Ez : text_size [(sp, t)] = length t) by (unfold text_size; cbn; lia).
    destruct IH as (st & E & I & L).
    + intros op Hi. apply Hin. apply in_or_app. left. exact Hi.
    + lia.
    + destruct (Hin (sp, t)) as [Hs Vt]; [apply in_or_app; right; left; reflexivity|]. cbn [fst snd] in *.
      destruct (safe_splice doc sps st (map (zone_after doc ops) sps) sp t) as (st' & i & Hi & E' & I' & L'); try assumption; [lia|lia|].
      exists st'. rewrite (put_zone_after doc ops sps i sp t Hn Ha Hi) in I'. split; [|split; [exact I'|lia]].
      unfold splice_all. rewrite for_each_app. fold (splice_all (splicer_from_str doc) ops).
      rewrite E. cbn [bind for_each fst snd]. rewrite E'. reflexivity.
Qed.

Lemma splice_apart doc sps ops : valid_utf8 doc = true -> ordered 0 (length doc) sps -> apart sps ->
  (forall sp, In sp sps -> on_boundaries doc sp) ->
  (forall op, In op ops -> In (fst op) sps /\ valid_utf8 (snd op) = true) ->
  fits doc ops ->
  exists st, splice_all (splicer_from_str doc) ops = Ok st /\
    sp_content st = replaced doc 0 (map (fun sp => (sp, text_after (slice doc (s_start sp) (s_end sp)) (texts_for sp ops))) sps).
Proof.
  intros Vd Ho Ha Hb Hin Hf. destruct (run_apart doc sps ops Vd Ho Ha Hb Hin Hf) as (st & E & [_ _ I3 _] & _).
  exists st. split; [exact E|]. rewrite I3. f_equal. unfold z_edits. rewrite map_map. apply map_ext. intros sp.
  unfold zone_after, text_after, z_text. destruct (fold_left splice_again _ _) as [m r]. reflexivity.
Qed.

(** *** Spans that may touch: what any history gives *)

Definition zone_now (x : span * (bytes * bytes)) : zone := Zone (fst x) [] (fst (snd x)) (snd (snd x)).

Lemma grow_give rest : forall sp r t, grow (Zone sp [] [] r) (map zone_now rest) t = map zone_now (give sp r t rest).
Proof.
  induction rest as [|[sp2 [m2 r2]] rest IH]; intros sp r t; cbn [map grow give z_mid z_right z_span z_left zone_now fst snd].
  - destruct r; reflexivity.
  - destruct r as [|x r]; cbn [length Nat.eqb andb]; [|reflexivity]. rewrite andb_true_r, Nat.eqb_sym.
    destruct (s_end sp =? s_start sp2); cbn [map]; [|rewrite app_nil_r; reflexivity]. f_equal.
    destruct m2 as [|y m2]; [apply IH|]. destruct rest; reflexivity.
Qed.

Lemma put_zone_one i sp t : forall now, NoDup (map fst now) -> nth_error (map fst now) i = Some sp ->
  put_zone i (map zone_now now) t = map zone_now (splice_one (sp, t) now).
Proof.
  induction i as [|i IH]; intros [|[s [m r]] now] Hn Hi; try discriminate; cbn [map nth_error fst] in *.
  - injection Hi as ->. cbn [map put_zone splice_one fst snd zone_now z_mid z_span z_left z_right].
    destruct (span_eq_dec sp sp); [|congruence]. destruct m; [apply grow_give|reflexivity].
  - inversion Hn as [|? ? Hs Hn']. subst. cbn [map put_zone splice_one fst snd].
    destruct (span_eq_dec sp s) as [->|_]; [apply nth_error_In in Hi; contradiction|].
    cbn [map]. f_equal. apply IH; assumption.
Qed.

Lemma give_spans rest : forall sp r t, map fst (give sp r t rest) = sp :: map fst rest.
Proof.
  induction rest as [|[sp2 [m2 r2]] rest IH]; intros sp r t; cbn [give]; [destruct r; reflexivity|].
  destruct r; [|reflexivity]. destruct (_ =? _); cbn [map fst]; [|reflexivity]. f_equal. destruct m2; [apply IH|reflexivity].
Qed.

Lemma splice_one_spans op now : map fst (splice_one op now) = map fst now.
Proof.
  induction now as [|[sp [m r]] now IH]; cbn [splice_one map fst]; [reflexivity|].
  destruct (span_eq_dec (fst op) sp); [destruct m; [apply give_spans|reflexivity]|]. cbn [map fst]. f_equal. exact IH.
Qed.

Lemma splice_each_spans doc sps ops : map fst (splice_each doc sps ops) = sps.
Proof.
  unfold splice_each. assert (E : map fst (map (fun sp => (sp, (slice doc (s_start sp) (s_end sp), @nil N))) sps) = sps).
  { rewrite map_map. apply map_id. }
  revert E. generalize (map (fun sp => (sp, (slice doc (s_start sp) (s_end sp), @nil N))) sps).
  induction ops as [|op ops IH]; intros now E; cbn [fold_left]; [exact E|]. apply IH. rewrite splice_one_spans. exact E.
Qed.

Lemma run_each doc sps ops : valid_utf8 doc = true -> ordered 0 (length doc) sps -> NoDup sps ->
  (forall sp, In sp sps -> on_boundaries doc sp) ->
  (forall op, In op ops -> In (fst op) sps /\ valid_utf8 (snd op) = true) ->
  fits doc ops ->
  exists st, splice_all (splicer_from_str doc) ops = Ok st /\ safe_inv doc sps st (map zone_now (splice_each doc sps ops)) /\
    length (sp_content st) <= length doc + text_size ops.
Proof.
  intros Vd Ho Hn Hb. induction ops as [|[sp t] ops IH] using rev_ind; intros Hin Hf.
  - exists (splicer_from_str doc). split; [reflexivity|]. split; [|cbn; lia].
    unfold splice_each. cbn [fold_left]. rewrite map_map. exact (safe_start doc sps Vd Ho Hb).
  - unfold fits in *. rewrite text_size_app in *.
    assert (Ez : text_size [(sp, t)] = length t) by (unfold text_size; cbn; lia).
    destruct IH as (st & E & I & L).
    + intros op Hi. apply Hin. apply in_or_app. left. exact Hi.
    + lia.
    + destruct (Hin (sp, t)) as [Hs Vt]; [apply in_or_app; right; left; reflexivity|]. cbn [fst snd] in *.
      destruct (safe_splice doc sps st (map zone_now (splice_each doc sps ops)) sp t) as (st' & i & Hi & E' & I' & L'); try assumption; [lia|lia|].
      exists st'. rewrite (put_zone_one i sp t) in I' by (rewrite splice_each_spans; assumption).
      split; [|split; [|lia]].
      * unfold splice_all. rewrite for_each_app. fold (splice_all (splicer_from_str doc) ops).
        rewrite E. cbn [bind for_each fst snd]. rewrite E'. reflexivity.
      * unfold splice_each at 1. rewrite fold_left_app. exact I'.
Qed.

Lemma splice_touching doc sps ops : valid_utf8 doc = true -> ordered 0 (length doc) sps -> NoDup sps ->
  (forall sp, In sp sps -> on_boundaries doc sp) ->
  (forall op, In op ops -> In (fst op) sps /\ valid_utf8 (snd op) = true) ->
  fits doc ops ->
  exists st, splice_all (splicer_from_str doc) ops = Ok st /\
    sp_content st = replaced doc 0 (map (fun x => (fst x, fst (snd x) ++ snd (snd x))) (splice_each doc sps ops)).
Proof.
  intros Vd Ho Hn Hb Hin Hf. destruct (run_each doc sps ops Vd Ho Hn Hb Hin Hf) as (st & E & [_ _ I3 _] & _).
  exists st. split; [exact E|]. rewrite I3. f_equal. unfold z_edits. rewrite map_map. reflexivity.
Qed.

Lemma text_after_spec (original : bytes) (ts : list bytes) : original <> [] -> Forall (fun t => t <> []) ts ->
  text_after original ts = last ts original /\
  forall after, text_after original (ts ++ [] :: after) = concat (rev after).
Proof.
  intros Ho Ht. assert (E : fold_left splice_again ts (original, [] : bytes) = (last ts original, []) /\ last ts original <> []).
  { induction ts as [|t ts IH] using rev_ind; [split; [reflexivity|exact Ho]|]. apply Forall_app in Ht. destruct Ht as [Ht Hl].
    inversion Hl. subst. specialize (IH Ht). destruct IH as [IH Hn]. rewrite fold_left_app, IH, last_last. cbn [fold_left].
    unfold splice_again. cbn [fst snd]. destruct (last ts original); [contradiction|]. split; [reflexivity|assumption]. }
  destruct E as [E Hn].
  assert (U : forall l, text_after original l = let '(m, r) := fold_left splice_again l (original, [] : bytes) in m ++ r) by reflexivity.
  split; [rewrite U, E; apply app_nil_r|]. intros after.
  rewrite U, fold_left_app, E. cbn [fold_left]. unfold splice_again at 2. cbn [fst snd].
  destruct (last ts original); [contradiction|].
  assert (G : forall r : bytes, fold_left splice_again after ([] : bytes, r) = ([], concat (rev after) ++ r)).
  { clear. induction after as [|a after IH]; intros r; [reflexivity|]. cbn [fold_left]. unfold splice_again at 2. cbn [fst snd].
    rewrite IH. cbn [rev]. rewrite concat_app. cbn [concat]. rewrite app_nil_r, <- app_assoc. reflexivity. }
  rewrite G. cbn [app]. apply app_nil_r.
Qed.

Lemma splice_safe doc sps ops : valid_utf8 doc = true -> ordered 0 (length doc) sps ->
  (forall sp, In sp sps -> on_boundaries doc sp) ->
  (forall op, In op ops -> In (fst op) sps /\ valid_utf8 (snd op) = true) ->
  fits doc ops ->
  exists st edits, splice_all (splicer_from_str doc) ops = Ok st /\ valid_utf8 (sp_content st) = true /\
    map fst edits = sps /\ sp_content st = replaced doc 0 edits.
Proof.
  intros Vd Ho Hb Hin Hf. destruct (safe_run doc sps ops Vd Ho Hb Hin Hf) as (st & zs & E & [I1 I2 I3 I4] & _).
  exists st, (z_edits zs). split; [exact E|]. split; [|split].
  - rewrite I3. apply zones_valid; try assumption; [lia|reflexivity| |]; rewrite I1; assumption.
  - unfold z_edits. rewrite map_map. cbn [fst]. exact I1.
  - exact I3.
Qed.

(** ** One more splice, of a span around some of the spans *)

Lemma zones_cut doc zb : forall c p z zs, ordered p (length doc) (map z_span (zb ++ z :: zs)) ->
  exists u a, nth_error (places c p (zb ++ z :: zs)) (length zb) = Some (a, a + length (z_mid z)) /\
    c + length u + length (z_left z) = a /\
    forall sp x es, s_start sp = s_start (z_span z) ->
      replaced doc p (z_edits zb ++ (sp, x) :: es) = u ++ x ++ replaced doc (s_end sp) es.
Proof.
  induction zb as [|k zb IH]; intros c p z zs Ho; cbn [app map ordered] in Ho; destruct Ho as (O1 & O2 & O3 & O4).
  - exists (slice doc p (s_start (z_span z))), (c + (s_start (z_span z) - p) + length (z_left z)).
    split; [reflexivity|]. split; [rewrite slice_length by lia; lia|].
    intros sp x es Es. cbn [z_edits map app replaced]. rewrite Es. reflexivity.
  - destruct (IH (c + (s_start (z_span k) - p) + length (z_left k) + length (z_mid k) + length (z_right k)) (s_end (z_span k)) z zs O4)
      as (u & a & E1 & E2 & E3).
    exists (slice doc p (s_start (z_span k)) ++ z_text k ++ u), a. split; [exact E1|]. split.
    + rewrite <- E2. unfold z_text. rewrite !app_length, slice_length by lia. lia.
    + intros sp x es Es. cbn [z_edits map app replaced]. fold (z_edits zb). rewrite (E3 sp x es Es), <- !app_assoc. reflexivity.
Qed.

Lemma ordered_app p len a b : ordered p len (a ++ b) ->
  ordered p len a /\ (forall sp sp', In sp a -> In sp' b -> s_end sp <= s_start sp').
Proof.
  revert p; induction a as [|s a IH]; intros p H; [split; [exact Logic.I|intros sp sp' []]|].
  cbn [app ordered] in *. destruct H as (H1 & H2 & H3 & H4). destruct (IH _ H4) as [K1 K2].
  split; [auto|]. intros sp sp' [<-|Hi] Hi'; [|auto].
  destruct (ordered_bounds _ _ _ sp' H4) as (K & _); [apply in_or_app; auto|exact K].
Qed.

Lemma ordered_tail p len a b q : ordered p len (a ++ b) -> (forall sp, In sp b -> q <= s_start sp) -> ordered q len b.
Proof.
  revert p; induction a as [|s a IH]; intros p H K; cbn [app] in H.
  - destruct b as [|s b]; [exact Logic.I|]. cbn [ordered] in *. destruct H as (H1 & H2 & H3 & H4).
    repeat split; auto. apply K. left. reflexivity.
  - cbn [ordered] in H. apply (IH (s_end s)); [tauto|exact K].
Qed.

Lemma ordered_join p q len a b : ordered p q a -> p <= q -> q <= len -> ordered q len b -> ordered p len (a ++ b).
Proof.
  revert p; induction a as [|s a IH]; intros p H Hq Hl K; cbn [app].
  - destruct b as [|s b]; [exact Logic.I|]. cbn [ordered] in *. destruct K as (K1 & K). repeat split; try tauto. lia.
  - cbn [ordered] in *. destruct H as (H1 & H2 & H3 & H4). repeat split; try lia. apply IH; try assumption.
Qed.

Lemma ordered_stop p len q a : ordered p len a -> (forall sp, In sp a -> s_end sp <= q) -> ordered p q a.
Proof.
  revert p; induction a as [|s a IH]; intros p H K; [exact Logic.I|].
  cbn [ordered] in *. destruct H as (H1 & H2 & H3 & H4). repeat split; auto.
  - apply K. left. reflexivity.
  - apply IH; [exact H4|]. intros sp Hi. apply K. right. exact Hi.
Qed.

Lemma same_prefix {A} (u u' v v' : list A) : u ++ v = u' ++ v' -> length u = length u' -> u = u' /\ v = v'.
Proof.
  revert u'; induction u as [|x u IH]; intros [|x' u'] H L; cbn in L; try discriminate; [auto|].
  cbn [app] in H. injection H as -> H. destruct (IH u' H) as [-> ->]; [lia|auto].
Qed.

Lemma longer_prefix {A} (u u' v v' : list A) : u ++ v = u' ++ v' -> length u <= length u' -> exists w, u' = u ++ w.
Proof.
  revert u'; induction u as [|x u IH]; intros u' H L; [exists u'; reflexivity|].
  destruct u' as [|x' u']; cbn in L; [lia|]. cbn [app] in H. injection H as -> H.
  destruct (IH u' H) as (w & ->); [lia|]. exists w. reflexivity.
Qed.

Lemma outer_step doc before inner after s e r st zb zS zi zE za : let sps := before ++ Span s s :: inner ++ Span e e :: after in
  valid_utf8 doc = true -> s <= e -> e <= length doc ->
  ordered 0 (length doc) sps -> (forall sp, In sp sps -> on_boundaries doc sp) ->
  safe_inv doc sps st (zb ++ zS :: zi ++ zE :: za) ->
  map z_span zb = before -> z_span zS = Span s s -> map z_span zi = inner -> z_span zE = Span e e -> map z_span za = after ->
  z_left zS = [] -> z_left zE = [] -> valid_utf8 r = true ->
  (Z.of_nat (length doc) < two63)%Z -> (Z.of_nat (length (sp_content st) + length r) < two63)%Z ->
  exists st', splice st (Span s e) r = Ok st' /\ valid_utf8 (sp_content st') = true /\
    sp_content st' = replaced doc 0 (z_edits zb ++ (Span s e, r ++ z_right zE) :: z_edits za).
Proof.
  intros sps Vd Hse Hel Os Bs [I1 I2 I3 I4] Mb MS Mi ME Ma FS1 FE1 Vr Hd Hc. clear I1.
  assert (Mz : map z_span (zb ++ zS :: zi ++ zE :: za) = sps).
  { rewrite map_app. cbn [map]. rewrite map_app. cbn [map]. rewrite Mb, MS, Mi, ME, Ma. reflexivity. }
  assert (Oz : ordered 0 (length doc) (map z_span (zb ++ zS :: zi ++ zE :: za))) by (rewrite Mz; exact Os).
  assert (Bz : forall sp, In sp (map z_span (zb ++ zS :: zi ++ zE :: za)) -> on_boundaries doc sp) by (rewrite Mz; exact Bs).
  destruct (zones_cut doc zb 0 0 zS (zi ++ zE :: za) Oz) as (uS & aS & PS & LS & CS).
  assert (Eapp : zb ++ zS :: zi ++ zE :: za = (zb ++ zS :: zi) ++ zE :: za) by (rewrite <- app_assoc; reflexivity).
  pose proof Oz as Oz'. rewrite Eapp in Oz'.
  destruct (zones_cut doc (zb ++ zS :: zi) 0 0 zE za Oz') as (uE & aE & PE & LE & CE).
  rewrite <- Eapp in PE.
  rewrite FS1 in LS. rewrite FE1 in LE. cbn [length] in LS, LE.
  destruct (put_zone_content doc 0 0 _ _ [] _ _ Vd ltac:(lia) eq_refl Oz Bz I2 PS)
    as (u1 & m1 & v1 & G1 & _ & G3 & G4 & V1 & V2 & V3).
  destruct (put_zone_content doc 0 0 _ _ [] _ _ Vd ltac:(lia) eq_refl Oz Bz I2 PE)
    as (u2 & m2 & v2 & G5 & _ & G7 & G8 & V5 & V6 & V7).
  cbn [plus] in G3, G7, LS, LE. rewrite Nat.add_0_r in LS, LE.
  (* the text in front of the outer span *)
  assert (Econt : replaced doc 0 (z_edits (zb ++ zS :: zi ++ zE :: za)) =
                  uS ++ z_text zS ++ replaced doc (s_end (z_span zS)) (z_edits (zi ++ zE :: za))).
  { rewrite <- (CS (z_span zS) (z_text zS)) by reflexivity. f_equal. unfold z_edits. rewrite map_app. reflexivity. }
  rewrite G1 in Econt. destruct (same_prefix _ _ _ _ Econt) as [-> _]; [lia|]. clear Econt.
  (* the text behind it *)
  assert (Econt : replaced doc 0 (z_edits (zb ++ zS :: zi ++ zE :: za)) =
                  uE ++ z_text zE ++ replaced doc (s_end (z_span zE)) (z_edits za)).
  { rewrite <- (CE (z_span zE) (z_text zE)) by reflexivity. f_equal. rewrite Eapp. unfold z_edits. rewrite map_app. reflexivity. }
  rewrite G5 in Econt. unfold z_text in Econt. rewrite FE1 in Econt. cbn [app] in Econt.
  rewrite <- (app_assoc (z_mid zE)), (app_assoc uE), (app_assoc u2) in Econt.
  destruct (same_prefix _ _ _ _ Econt) as [Ew Ev]; [rewrite !app_length; lia|]. clear Econt.
  (* the text in between *)
  pose proof (places_order 0 0 (zb ++ zS :: zi ++ zE :: za) (length zb) (length (zb ++ zS :: zi)) _ _ _ _
    ltac:(rewrite app_length; cbn [length]; lia) PS PE) as Hord.
  assert (Esame : uS ++ (m1 ++ v1) = (u2 ++ m2) ++ v2) by (rewrite <- app_assoc, <- G5; symmetry; exact G1).
  destruct (longer_prefix _ _ _ _ Esame) as (w & Hw); [rewrite app_length; lia|].
  assert (Vw : valid_utf8 w = true).
  { rewrite <- (valid_utf8_app uS w V1), <- Hw, valid_utf8_app; assumption. }
  assert (Lw : length w = aE + length (z_mid zE) - aS).
  { apply (f_equal (@length N)) in Hw. rewrite !app_length in Hw. lia. }
  assert (Ec : sp_content st = uS ++ w ++ v2).
  { rewrite I3, G5, app_assoc, Hw, <- app_assoc. reflexivity. }
  assert (Ea : adjust_offsets (Span s e) (sp_offsets st) = Span aS (aE + length (z_mid zE))).
  { unfold adjust_offsets. cbn [s_start s_end]. rewrite !as_isize_small by lia.
    pose proof (I4 (length zb) (length (zb ++ zS :: zi)) (Span s s) (Span e e) aS (aS + length (z_mid zS)) aE (aE + length (z_mid zE))) as K.
    cbn [s_start s_end] in K. rewrite K; try assumption.
    - unfold try_usize. rewrite !(proj2 (Z.ltb_ge _ 0)) by lia. rewrite !Nat2Z.id. reflexivity.
    - rewrite app_length. lia.
    - rewrite <- Mz, map_app, nth_error_app2 by (rewrite map_length; lia).
      rewrite map_length, Nat.sub_diag. cbn [map nth_error]. rewrite MS. reflexivity.
    - rewrite <- Mz, Eapp, map_app, nth_error_app2 by (rewrite map_length; lia).
      rewrite map_length, Nat.sub_diag. cbn [map nth_error]. rewrite ME. reflexivity. }
  set (offs := sp_offsets st ++ [SpliceOffset aS (Z.of_nat (length r) - Z.of_nat (aE + length (z_mid zE) - aS))]).
  assert (Es : splice st (Span s e) r = Ok (Splicer (uS ++ r ++ v2) offs)).
  { assert (Lc : length (sp_content st) = length uS + length w + length v2) by (rewrite Ec, !app_length; lia).
    unfold splice. rewrite Ea. cbn [s_start s_end]. rewrite (proj2 (Nat.ltb_ge _ _)) by lia.
    rewrite Ec. unfold split_at at 1. rewrite (proj2 (Nat.leb_le _ _)) by (rewrite app_length; lia).
    replace aS with (length uS) at 1 by lia. rewrite boundary_of_app by (rewrite valid_utf8_app; assumption).
    cbn [andb bind]. replace (skipn aS (uS ++ w ++ v2)) with (w ++ v2) by (replace aS with (length uS) by lia; rewrite skipn_app_exact; reflexivity).
    replace (firstn aS (uS ++ w ++ v2)) with uS by (replace aS with (length uS) by lia; rewrite firstn_app_exact; reflexivity).
    unfold split_at. rewrite <- Lw.
    rewrite (proj2 (Nat.leb_le _ _)) by (rewrite app_length; lia).
    rewrite boundary_of_app by assumption. cbn [andb bind]. rewrite skipn_app_exact.
    unfold new_string. rewrite (proj2 (Z.ltb_lt _ _)) by (rewrite !app_length; lia). unfold offs. rewrite Lw. reflexivity. }
  exists (Splicer (uS ++ r ++ v2) offs). split; [exact Es|].
  cbn [sp_content]. split; [rewrite !valid_utf8_app; assumption|].
  rewrite (CS (Span s e)) by (rewrite MS; reflexivity). cbn [s_end].
  rewrite Ev, <- app_assoc, ME. reflexivity.
Qed.

Lemma outer_safe doc before inner after outer ops r :
  valid_utf8 doc = true ->
  ordered 0 (length doc) (before ++ inner ++ after) ->
  ordered 0 (length doc) (before ++ outer :: after) ->
  (forall sp, In sp inner -> inside sp outer) ->
  (forall sp, In sp (outer :: before ++ inner ++ after) -> on_boundaries doc sp) ->
  (forall op, In op ops -> In (fst op) (before ++ inner ++ after) /\ valid_utf8 (snd op) = true) ->
  valid_utf8 r = true -> fits doc (ops ++ [(outer, r)]) ->
  exists st eb rest ea, splice_all (splicer_from_str doc) (ops ++ [(outer, r)]) = Ok st /\
    valid_utf8 (sp_content st) = true /\ map fst eb = before /\ map fst ea = after /\
    made_of (map snd ops) rest /\
    sp_content st = replaced doc 0 (eb ++ (outer, r ++ rest) :: ea).
Proof.
  intros Vd Ho Ho2 Hins Hb Hin Vr Hf. destruct outer as [s e].
  pose proof (ordered_bounds _ _ _ (Span s e) Ho2 ltac:(apply in_or_app; right; left; reflexivity)) as (_ & Hse & Hel).
  cbn [s_start s_end] in Hse, Hel.
  set (sps := before ++ Span s s :: inner ++ Span e e :: after).
  destruct (ordered_app _ _ _ _ Ho2) as [O1 O2].
  assert (Os : ordered 0 (length doc) sps).
  { unfold sps. apply ordered_join with (q := s); [|lia|lia|].
    - apply (ordered_stop _ (length doc)); [exact O1|]. intros sp Hi. apply (O2 sp (Span s e) Hi). left. reflexivity.
    - cbn [ordered s_start s_end]. repeat split; try lia. apply ordered_join with (q := e); [|lia|lia|].
      + apply (ordered_stop _ (length doc)); [|intros sp Hi; apply (Hins sp Hi)].
        apply (ordered_app s (length doc) inner after). apply (ordered_tail 0 _ before _ s Ho).
        intros sp Hi. apply in_app_or in Hi. destruct Hi as [Hi|Hi]; [apply (Hins sp Hi)|].
        apply (ordered_tail 0 _ before _ 0) in Ho2; [|intros; lia]. cbn [ordered] in Ho2. destruct Ho2 as (_ & _ & _ & Ho2).
        destruct (ordered_bounds _ _ _ _ Ho2 Hi) as (K & _). cbn [s_end] in K. lia.
      + cbn [ordered s_start s_end]. repeat split; try lia.
        apply (ordered_tail 0 _ before _ 0) in Ho2; [|intros; lia]. cbn [ordered] in Ho2. tauto. }
  assert (Bs : forall sp, In sp sps -> on_boundaries doc sp).
  { destruct (Hb (Span s e)) as [B1 B2]; [left; reflexivity|]. cbn [s_start s_end] in B1, B2.
    intros sp Hi. unfold sps in Hi. apply in_app_or in Hi. destruct Hi as [Hi|[<-|Hi]].
    - apply Hb. right. apply in_or_app. left. exact Hi.
    - split; exact B1.
    - apply in_app_or in Hi. destruct Hi as [Hi|[<-|Hi]].
      + apply Hb. right. apply in_or_app. right. apply in_or_app. left. exact Hi.
      + split; exact B2.
      + apply Hb. right. apply in_or_app. right. apply in_or_app. right. exact Hi. }
  assert (Ez : text_size [(Span s e, r)] = length r) by (unfold text_size; cbn; lia).
  unfold fits in Hf. rewrite text_size_app, Ez in Hf.
  destruct (safe_run doc sps ops Vd Os Bs) as (st & zs & E & I0 & L & F).
  { intros op Hi. destruct (Hin op Hi) as [H1 H2]. split; [|exact H2]. unfold sps.
    rewrite !in_app_iff in *. cbn [In]. rewrite in_app_iff. cbn [In]. tauto. }
  { unfold fits. lia. }
  pose proof (si_spans _ _ _ _ I0) as I1. unfold sps in I1. apply map_eq_app in I1. destruct I1 as (zb & zs1 & -> & Mb & I1).
  apply map_eq_cons in I1. destruct I1 as (zS & zs2 & -> & MS & I1).
  apply map_eq_app in I1. destruct I1 as (zi & zs3 & -> & Mi & I1).
  apply map_eq_cons in I1. destruct I1 as (zE & za & -> & ME & Ma).
  assert (FS : leftover (map snd ops) zS).
  { rewrite Forall_forall in F. apply F. apply in_or_app. right. left. reflexivity. }
  assert (FE : leftover (map snd ops) zE).
  { rewrite Forall_forall in F. apply F. apply in_or_app. right. right. apply in_or_app. right. left. reflexivity. }
  destruct FS as [FS1 _]. destruct FE as [FE1 FE2].
  destruct (outer_step doc before inner after s e r st zb zS zi zE za) as (st' & Es & V & C); try assumption; [lia|lia|].
  exists st', (z_edits zb), (z_right zE), (z_edits za). split.
  { unfold splice_all. rewrite for_each_app. fold (splice_all (splicer_from_str doc) ops).
    rewrite E. cbn [bind for_each fst snd]. rewrite Es. reflexivity. }
  split; [exact V|]. split; [unfold z_edits; rewrite map_map; exact Mb|]. split; [unfold z_edits; rewrite map_map; exact Ma|].
  split; [exact FE2|exact C].
Qed.
