(** Splicing a span around others, after any history: exactly what it gives *)

From Verif Require Import Bytes BytesFacts Result Ast Peg Splicer SpecSplice SplicerFacts SplicerSafe.
Local Open Scope nat_scope.

Lemma put_zone_at a z b t : put_zone (length a) (a ++ z :: b) t =
  a ++ match z_mid z with _ :: _ => Zone (z_span z) (z_left z) t (z_right z) :: b | [] => grow z b t end.
Proof. induction a as [|x a IH]; [reflexivity|]. cbn [length app put_zone]. rewrite IH. reflexivity. Qed.

Lemma zone_after_right doc ops sp : z_right (zone_after doc ops sp) = snd (fold_left splice_again (texts_for sp ops) (slice doc (s_start sp) (s_end sp), [])).
Proof. unfold zone_after. destruct (fold_left _ _ _). reflexivity. Qed.

Lemma zone_after_none doc ops sp : ~ In sp (map fst ops) -> zone_after doc ops sp = zone_of doc sp.
Proof.
  intros H. unfold zone_after. replace (texts_for sp ops) with (@nil bytes); [reflexivity|]. symmetry. unfold texts_for.
  replace (filter _ ops) with (@nil edit); [reflexivity|]. symmetry. induction ops as [|[s t] ops IH]; [reflexivity|]. cbn [filter fst].
  destruct (span_eq_dec s sp) as [->|]; [exfalso; apply H; left; reflexivity|]. apply IH. intros K. apply H. right. exact K.
Qed.

Lemma nodup_right {A} (a b : list A) : NoDup (a ++ b) -> NoDup b.
Proof. induction a as [|x a IH]; [auto|]. cbn [app]. intros H. inversion H. auto. Qed.
Lemma nodup_left {A} (a b : list A) : NoDup (a ++ b) -> NoDup a.
Proof.
  induction a as [|x a IH]; [constructor|]. cbn [app]. intros H. inversion H as [|? ? N H']. constructor; [|auto].
  intros K. apply N. apply in_or_app. auto.
Qed.

(** Spans in order end at different places. *)
Lemma same_end p len sps x y : in_order p len sps -> In x sps -> In y sps -> s_end x = s_end y -> x = y.
Proof.
  revert p. induction sps as [|s sps IH]; intros p H Hx Hy E; [destruct Hx|]. cbn [in_order] in H. destruct H as (H1 & H2 & H3 & H4).
  assert (K : forall z, In z sps -> s_end s < s_end z).
  { clear - H4. revert H4. generalize (s_end s). induction sps as [|k sps IH]; intros p H z Hz; [destruct Hz|]. cbn [in_order] in H.
    destruct H as (H1 & H2 & H3 & H4). destruct Hz as [<-|Hz]; [lia|]. specialize (IH _ H4 z Hz). lia. }
  destruct Hx as [<-|Hx], Hy as [<-|Hy]; [reflexivity|specialize (K _ Hy); lia|specialize (K _ Hx); lia|]. eapply IH; eassumption.
Qed.

Lemma fold_kept (o : bytes) (ts : list bytes) : o <> [] -> Forall (fun t => t <> []) ts -> fold_left splice_again ts (o, [] : bytes) = (last ts o, []) /\ last ts o <> [].
Proof.
  intros Ho Ht. induction ts as [|t ts IH] using rev_ind; [split; [reflexivity|exact Ho]|]. apply Forall_app in Ht. destruct Ht as [Ht Hl].
  inversion Hl. subst. specialize (IH Ht). destruct IH as [IH Hn]. rewrite fold_left_app, IH, last_last. cbn [fold_left].
  unfold splice_again. cbn [fst snd]. destruct (last ts o); [contradiction|]. split; [reflexivity|assumption].
Qed.

Lemma fold_deleted (o : bytes) (ts later : list bytes) : o <> [] -> Forall (fun t => t <> []) ts ->
  fold_left splice_again (ts ++ [] :: later) (o, [] : bytes) = ([], concat (rev later)).
Proof.
  intros Ho Ht. destruct (fold_kept o ts Ho Ht) as [E Hn]. rewrite fold_left_app, E. cbn [fold_left]. unfold splice_again at 2. cbn [fst snd].
  destruct (last ts o); [contradiction|].
  assert (G : forall r : bytes, fold_left splice_again later ([] : bytes, r) = ([], concat (rev later) ++ r)).
  { clear. induction later as [|a later IH]; intros r; [reflexivity|]. cbn [fold_left]. unfold splice_again at 2. cbn [fst snd].
    rewrite IH. cbn [rev]. rewrite concat_app. cbn [concat]. rewrite app_nil_r, <- app_assoc. reflexivity. }
  rewrite G, app_nil_r. reflexivity.
Qed.

Section Outer.
Variables (doc : bytes) (before inner after : list span) (s e : nat).
Notation outer := (Span s e).
Notation sps := (before ++ Span s s :: inner ++ Span e e :: after).
Hypothesis Vd : valid_utf8 doc = true.
Hypothesis Hin : in_order 0 (length doc) (before ++ inner ++ after).
Hypothesis Hout : in_order 0 (length doc) (before ++ outer :: after).
Hypothesis Ain : apart (before ++ inner ++ after).
Hypothesis Aout : apart (before ++ outer :: after).
Hypothesis Hins : forall sp, In sp inner -> inside sp outer.

(** The place of each span when [ops] were done: what an inner span that ends at [e] leaves
    stands after [e]. *)
Definition zone_in (ops : list edit) (sp : span) : zone :=
  let z := zone_after doc ops sp in
  if s_end sp =? e then Zone sp [] (z_mid z) [] else z.
Definition zones_in (ops : list edit) : list zone :=
  map (zone_after doc ops) before ++ zone_of doc (Span s s) :: map (zone_in ops) inner ++
  Zone (Span e e) [] [] (left_behind doc inner outer ops) :: map (zone_after doc ops) after.

Lemma left_one ops sp : In sp inner -> s_end sp = e -> left_behind doc inner outer ops = z_right (zone_after doc ops sp).
Proof.
  intros Hi He. rewrite zone_after_right. unfold left_behind. cbn [s_end].
  assert (U : forall x, In x inner -> s_end x = e -> x = sp).
  { intros x Hx Ex. apply (same_end 0 (length doc) (before ++ inner ++ after)); [exact Hin|rewrite !in_app_iff; auto|rewrite !in_app_iff; auto|congruence]. }
  assert (D : NoDup inner).
  { pose proof (apart_nodup _ _ _ (in_order_ordered _ _ _ Hin) Ain) as D. exact (nodup_left _ _ (nodup_right _ _ D)). }
  clear Hins Hin Ain. revert Hi U D. induction inner as [|x l IH]; intros Hi U D; [destruct Hi|]. inversion D as [|? ? Nx N']. subst x0 l0. cbn [map concat].
  destruct (Nat.eqb_spec (s_end x) e) as [E|E].
  - assert (x = sp) by (apply U; [left; reflexivity|exact E]). subst x.
    replace (concat _) with (@nil N); [apply app_nil_r|]. symmetry. clear IH Hi D N'. induction l as [|y l IH]; [reflexivity|]. cbn [map concat].
    destruct (Nat.eqb_spec (s_end y) e) as [E'|E'].
    + exfalso. apply Nx. left. apply U; [right; left; reflexivity|exact E'].
    + cbn [app]. apply IH; first [intros K; apply Nx; right; exact K|intros z [<-|Hz] Ez; [reflexivity|]; apply U; [right; right; exact Hz|exact Ez]].
  - cbn [app]. destruct Hi as [->|Hi]; [contradiction|]. apply IH; [exact Hi| |exact N']. intros z Hz Ez. apply U; [right; exact Hz|exact Ez].
Qed.

Lemma left_other ops sp t : ~ (In sp inner /\ s_end sp = e) -> left_behind doc inner outer (ops ++ [(sp, t)]) = left_behind doc inner outer ops.
Proof.
  intros H. unfold left_behind. f_equal. apply map_ext_in. intros x Hx. cbn [s_end]. destruct (Nat.eqb_spec (s_end x) e) as [E|E]; [|reflexivity].
  rewrite <- !zone_after_right. rewrite zone_after_other; [reflexivity|]. intros ->. tauto.
Qed.

Lemma zone_in_other ops sp sp' t : sp' <> sp -> zone_in (ops ++ [(sp, t)]) sp' = zone_in ops sp'.
Proof. intros H. unfold zone_in. rewrite zone_after_other by exact H. reflexivity. Qed.

Lemma stays ops sp b t : (match b with k :: _ => s_end sp < s_start (z_span k) | [] => True end) ->
  (let z := zone_after doc ops sp in
   match z_mid z with _ :: _ => Zone (z_span z) (z_left z) t (z_right z) :: b | [] => grow z b t end) =
  zone_after doc (ops ++ [(sp, t)]) sp :: b.
Proof.
  intros H. rewrite zone_after_same. cbv zeta. pose proof (zone_after_span doc ops sp) as Es. pose proof (zone_after_left doc ops sp) as El.
  destruct (zone_after doc ops sp) as [s0 l m r]. cbn [z_span z_left z_mid z_right] in *. subst s0 l. destruct m as [|x m]; [|reflexivity].
  destruct b as [|k b]; cbn [grow z_mid z_span z_right z_left]; [reflexivity|].
  rewrite (proj2 (Nat.eqb_neq (s_start (z_span k)) (s_end sp))) by lia. rewrite andb_false_r. reflexivity.
Qed.

Lemma apart_next a x y b : apart (a ++ x :: y :: b) -> s_end x < s_start y.
Proof. induction a as [|z a IH]; cbn [app]; [intros [H _]; exact H|]. destruct a; intros [_ H]; apply IH; exact H. Qed.

Lemma nonempty sp : In sp (before ++ inner ++ after) -> s_start sp < s_end sp.
Proof.
  clear - Hin. revert Hin. generalize 0 (length doc). induction (before ++ inner ++ after) as [|x l IH]; intros p len H K; [destruct K|].
  cbn [in_order] in H. destruct H as (_ & H1 & _ & H2). destruct K as [<-|K]; [exact H1|]. eapply IH; eassumption.
Qed.

Lemma others ops sp t l : ~ In sp l -> map (zone_after doc (ops ++ [(sp, t)])) l = map (zone_after doc ops) l.
Proof. intros H. apply map_ext_in. intros x Hx. apply zone_after_other. intros ->. contradiction. Qed.
Lemma others_in ops sp t l : ~ In sp l -> map (zone_in (ops ++ [(sp, t)])) l = map (zone_in ops) l.
Proof. intros H. apply map_ext_in. intros x Hx. apply zone_in_other. intros ->. contradiction. Qed.

Lemma outer_size : s < e.
Proof.
  clear - Hout. revert Hout. generalize 0 (length doc). induction before as [|x l IH]; intros p len H; cbn [app in_order] in H.
  - apply H.
  - destruct H as (_ & _ & _ & H). eapply IH; eassumption.
Qed.

Lemma put_in ops i sp t : nth_error sps i = Some sp -> In sp (before ++ inner ++ after) ->
  put_zone i (zones_in ops) t = zones_in (ops ++ [(sp, t)]).
Proof.
  intros Hi Hsp. pose proof (apart_nodup _ _ _ (in_order_ordered _ _ _ Hin) Ain) as N. pose proof (nonempty sp Hsp) as Hn. pose proof outer_size as Hse.
  assert (Na : forall x, In x after -> ~ In x inner /\ e < s_start x).
  { intros x Hx. apply nodup_right in N. split.
    - intros K. apply in_split in K. destruct K as (i1 & i2 & Ei). rewrite Ei, <- app_assoc in N. apply nodup_right in N. inversion N as [|? ? Nx _]. apply Nx.
      apply in_or_app. auto.
    - clear - Hx Aout Hout. destruct after as [|y l]; [destruct Hx|]. pose proof (apart_next before (Span s e) y l Aout) as K. cbn [s_end] in K.
      destruct Hx as [<-|Hx]; [exact K|]. apply in_order_ordered in Hout. replace (before ++ Span s e :: y :: l) with ((before ++ [Span s e]) ++ y :: l) in Hout by (rewrite <- app_assoc; reflexivity).
      destruct (ordered_app _ _ _ _ Hout) as [_ _]. apply (ordered_tail 0 _ (before ++ [Span s e]) _ 0) in Hout; [|intros; lia]. cbn [ordered] in Hout.
      destruct Hout as (_ & K2 & _ & K3). pose proof (ordered_bounds _ _ _ _ K3 Hx). lia. }
  assert (Nb : forall x, In x before -> ~ In x inner /\ ~ In x after).
  { intros x Hx. apply in_split in Hx. destruct Hx as (b1 & b2 & Eb). rewrite Eb, <- app_assoc in N. apply nodup_right in N. cbn [app] in N. inversion N as [|? ? Nx _].
    rewrite !in_app_iff in Nx. tauto. }
  destruct (lt_dec i (length before)) as [L|L].
  - (* before *)
    rewrite nth_error_app1 in Hi by exact L. pose proof (nth_error_In _ _ Hi) as Hb. apply nth_error_split in Hi. destruct Hi as (b1 & b2 & Eb & <-).
    destruct (Nb _ Hb) as [Ni Na']. unfold zones_in. rewrite left_other by tauto. rewrite (others ops sp t after Na'), (others_in ops sp t inner Ni).
    rewrite Eb, !map_app. cbn [map]. rewrite <- !app_assoc. cbn [app]. rewrite <- (map_length (zone_after doc ops) b1), put_zone_at.
    assert (Nd : ~ In sp b1 /\ ~ In sp b2).
    { pose proof (nodup_left _ _ N) as N'. rewrite Eb in N'. apply NoDup_remove_2 in N'. rewrite in_app_iff in N'. tauto. }
    rewrite (others ops sp t b1), (others ops sp t b2) by tauto. f_equal. apply stays.
    destruct b2 as [|k b2]; cbn [map app]; rewrite ?zone_after_span.
    + rewrite Eb, <- app_assoc in Aout. cbn [app] in Aout. apply apart_next in Aout. exact Aout.
    + rewrite Eb, <- app_assoc in Aout. cbn [app] in Aout. apply apart_next in Aout. exact Aout.
  - rewrite nth_error_app2 in Hi by lia. destruct (i - length before) as [|j] eqn:Ej; cbn [nth_error] in Hi.
    { injection Hi as <-. cbn [s_start s_end] in Hn. lia. }
    assert (Eput : forall tl, put_zone i (map (zone_after doc ops) before ++ zone_of doc (Span s s) :: tl) t =
      map (zone_after doc ops) before ++ zone_of doc (Span s s) :: put_zone j tl t).
    { intros tl. replace i with (length (map (zone_after doc ops) before) + S j) by (rewrite map_length; lia). generalize (map (zone_after doc ops) before).
      clear. induction l as [|x l IH]; [reflexivity|]. cbn [length app plus put_zone]. f_equal. exact IH. }
    unfold zones_in at 1. rewrite Eput. clear Eput.
    destruct (lt_dec j (length inner)) as [L2|L2].
    + rewrite nth_error_app1 in Hi by exact L2. pose proof (nth_error_In _ _ Hi) as Hii. apply nth_error_split in Hi. destruct Hi as (i1 & i2 & Ei & <-).
      assert (Ni : ~ In sp before /\ ~ In sp after) by (split; intros K; [apply Nb in K|apply Na in K]; tauto).
      unfold zones_in. rewrite (others ops sp t before), (others ops sp t after) by tauto. f_equal. f_equal.
      assert (Nd : ~ In sp i1 /\ ~ In sp i2).
      { pose proof (nodup_left _ _ (nodup_right _ _ N)) as N'. rewrite Ei in N'. apply NoDup_remove_2 in N'. rewrite in_app_iff in N'. tauto. }
      destruct (Hins _ Hii) as [In1 In2]. cbn [s_start s_end] in In1, In2.
      destruct (Nat.eq_dec (s_end sp) e) as [Ee|Ee].
      * rewrite !(left_one _ sp Hii Ee).
        assert (E2 : i2 = []).
        { destruct i2 as [|k i2]; [reflexivity|exfalso]. assert (Hk : In k inner) by (rewrite Ei; apply in_or_app; right; right; left; reflexivity).
          destruct (Hins _ Hk) as [_ K2]. cbn [s_end] in K2. pose proof (nonempty k ltac:(rewrite !in_app_iff; auto)) as K3.
          pose proof Ain as K4. rewrite Ei, <- app_assoc in K4. cbn [app] in K4. rewrite app_assoc in K4. apply apart_next in K4. lia. }
        subst i2. rewrite Ei, !map_app. cbn [map]. rewrite <- !app_assoc. cbn [app].
        rewrite <- (map_length (zone_in ops) i1), put_zone_at. rewrite (others_in ops sp t i1) by tauto. f_equal.
        unfold zone_in. rewrite Ee, Nat.eqb_refl. rewrite zone_after_same. cbv zeta.
        destruct (zone_after doc ops sp) as [s0 l m r]. cbn [z_span z_left z_mid z_right]. destruct m as [|x m]; [|reflexivity].
        cbn [grow z_mid z_span z_right z_left length s_start]. rewrite Ee, !Nat.eqb_refl. cbn [andb]. cbn [z_mid z_right]. f_equal.
        destruct after as [|k af] eqn:Ea; cbn [map grow z_mid z_span z_left z_right]; [reflexivity|].
        rewrite zone_after_span. destruct (Na k ltac:(left; reflexivity)) as [_ K]. cbn [s_end].
        rewrite (proj2 (Nat.eqb_neq (s_start k) e)) by lia. rewrite andb_false_r. reflexivity.
      * rewrite left_other by tauto. rewrite Ei, !map_app. cbn [map]. rewrite <- !app_assoc. cbn [app].
        rewrite <- (map_length (zone_in ops) i1), put_zone_at. rewrite (others_in ops sp t i1), (others_in ops sp t i2) by tauto. f_equal.
        assert (Ez : forall o, zone_in o sp = zone_after doc o sp) by (intros o; unfold zone_in; rewrite (proj2 (Nat.eqb_neq _ _) Ee); reflexivity).
        rewrite !Ez. apply stays. destruct i2 as [|k i2]; cbn [map app z_span s_start]; [lia|].
        replace (z_span (zone_in ops k)) with k by (unfold zone_in; destruct (_ =? _); [reflexivity|rewrite zone_after_span; reflexivity]).
        pose proof Ain as K4. rewrite Ei, <- app_assoc in K4. cbn [app] in K4. rewrite app_assoc in K4. apply apart_next in K4. exact K4.
    + rewrite nth_error_app2 in Hi by lia. destruct (j - length inner) as [|k] eqn:Ek; cbn [nth_error] in Hi.
      { injection Hi as <-. cbn [s_start s_end] in Hn. lia. }
      assert (Eput : forall z tl, put_zone j (map (zone_in ops) inner ++ z :: tl) t = map (zone_in ops) inner ++ z :: put_zone k tl t).
      { intros z tl. replace j with (length (map (zone_in ops) inner) + S k) by (rewrite map_length; lia). generalize (map (zone_in ops) inner).
        clear. induction l as [|x l IH]; [reflexivity|]. cbn [length app plus put_zone]. f_equal. exact IH. }
      rewrite Eput. clear Eput. pose proof (nth_error_In _ _ Hi) as Haa. destruct (Na _ Haa) as [Ni _].
      assert (Nb' : ~ In sp before) by (intros K; apply Nb in K; tauto).
      apply nth_error_split in Hi. destruct Hi as (a1 & a2 & Ea & <-).
      unfold zones_in. rewrite left_other by tauto. rewrite (others ops sp t before Nb'), (others_in ops sp t inner Ni). f_equal. f_equal. f_equal. f_equal.
      rewrite Ea, !map_app. cbn [map]. rewrite <- (map_length (zone_after doc ops) a1), put_zone_at.
      assert (Nd : ~ In sp a1 /\ ~ In sp a2).
      { pose proof (nodup_right _ _ (nodup_right _ _ N)) as N'. rewrite Ea in N'. apply NoDup_remove_2 in N'. rewrite in_app_iff in N'. tauto. }
      rewrite (others ops sp t a1), (others ops sp t a2) by tauto. f_equal. apply stays.
      destruct a2 as [|x a2]; cbn [map]; [exact I|]. rewrite zone_after_span.
      pose proof Ain as K4. rewrite Ea, !app_assoc in K4. apply apart_next in K4. exact K4.
Qed.

Hypothesis Hb : forall sp, In sp (outer :: before ++ inner ++ after) -> on_boundaries doc sp.

Lemma marks_ordered : ordered 0 (length doc) sps /\ e <= length doc /\ forall sp, In sp sps -> on_boundaries doc sp.
Proof.
  pose proof (in_order_ordered _ _ _ Hin) as Ho. pose proof (in_order_ordered _ _ _ Hout) as Ho2. pose proof outer_size as Hse.
  pose proof (ordered_bounds _ _ _ (Span s e) Ho2 ltac:(apply in_or_app; right; left; reflexivity)) as (_ & _ & Hel). cbn [s_end] in Hel.
  destruct (ordered_app _ _ _ _ Ho2) as [O1 O2]. split; [|split; [exact Hel|]].
  - apply ordered_join with (q := s); [|lia|lia|].
    + apply (ordered_stop _ (length doc)); [exact O1|]. intros sp Hi. apply (O2 sp (Span s e) Hi). left. reflexivity.
    + cbn [ordered s_start s_end]. repeat split; try lia. apply ordered_join with (q := e); [|lia|lia|].
      * apply (ordered_stop _ (length doc)); [|intros sp Hi; apply (Hins sp Hi)].
        apply (ordered_app s (length doc) inner after). apply (ordered_tail 0 _ before _ s Ho).
        intros sp Hi. apply in_app_or in Hi. destruct Hi as [Hi|Hi]; [apply (Hins sp Hi)|].
        apply (ordered_tail 0 _ before _ 0) in Ho2; [|intros; lia]. cbn [ordered] in Ho2. destruct Ho2 as (_ & _ & _ & Ho2).
        destruct (ordered_bounds _ _ _ _ Ho2 Hi) as (K & _). cbn [s_end] in K. lia.
      * cbn [ordered s_start s_end]. repeat split; try lia.
        apply (ordered_tail 0 _ before _ 0) in Ho2; [|intros; lia]. cbn [ordered] in Ho2. tauto.
  - destruct (Hb (Span s e)) as [B1 B2]; [left; reflexivity|]. cbn [s_start s_end] in B1, B2.
    intros sp Hi. apply in_app_or in Hi. destruct Hi as [Hi|[<-|Hi]].
    + apply Hb. right. apply in_or_app. left. exact Hi.
    + split; exact B1.
    + apply in_app_or in Hi. destruct Hi as [Hi|[<-|Hi]].
      * apply Hb. right. apply in_or_app. right. apply in_or_app. left. exact Hi.
      * split; exact B2.
      * apply Hb. right. apply in_or_app. right. apply in_or_app. right. exact Hi.
Qed.

Lemma start_in : zones_in [] = map (zone_of doc) sps.
Proof.
  unfold zones_in. rewrite map_app. cbn [map]. rewrite map_app. cbn [map]. f_equal. f_equal.
  assert (E : left_behind doc inner outer [] = []).
  { unfold left_behind, texts_for. cbn [filter map fold_left snd]. clear. induction inner as [|x l IH]; [reflexivity|]. cbn [map concat].
    destruct (_ =? _); exact IH. }
  f_equal.
  - apply map_ext. intros sp. unfold zone_in. destruct (_ =? _); reflexivity.
  - rewrite E. f_equal. unfold zone_of, slice. cbn [s_start s_end]. rewrite Nat.sub_diag. reflexivity.
Qed.

Lemma run_in ops : (forall op, In op ops -> In (fst op) (before ++ inner ++ after) /\ valid_utf8 (snd op) = true) -> fits doc ops ->
  exists st, splice_all (splicer_from_str doc) ops = Ok st /\ safe_inv doc sps st (zones_in ops) /\
    length (sp_content st) <= length doc + text_size ops.
Proof.
  destruct marks_ordered as (Os & Hel & Bs). induction ops as [|[sp t] ops IH] using rev_ind; intros Hop Hf.
  - exists (splicer_from_str doc). split; [reflexivity|]. split; [|cbn; lia]. rewrite start_in. exact (safe_start doc sps Vd Os Bs).
  - unfold fits in *. rewrite text_size_app in *.
    assert (Ez : text_size [(sp, t)] = length t) by (unfold text_size; cbn; lia).
    destruct IH as (st & E & I & L).
    + intros op Hi. apply Hop. apply in_or_app. left. exact Hi.
    + lia.
    + destruct (Hop (sp, t)) as [Hs Vt]; [apply in_or_app; right; left; reflexivity|]. cbn [fst snd] in *.
      assert (Hs' : In sp sps) by (rewrite !in_app_iff in *; cbn [In]; rewrite in_app_iff; cbn [In]; tauto).
      destruct (safe_splice doc sps st (zones_in ops) sp t) as (st' & i & Hi & E' & I' & L'); try assumption; [lia|lia|].
      exists st'. rewrite (put_in ops i sp t Hi Hs) in I'. split; [|split; [exact I'|lia]].
      unfold splice_all. rewrite for_each_app. fold (splice_all (splicer_from_str doc) ops).
      rewrite E. cbn [bind for_each fst snd]. rewrite E'. reflexivity.
Qed.

Lemma edits_after ops l : z_edits (map (zone_after doc ops) l) =
  map (fun sp => (sp, text_after (slice doc (s_start sp) (s_end sp)) (texts_for sp ops))) l.
Proof.
  unfold z_edits. rewrite map_map. apply map_ext. intros sp.
  unfold zone_after, text_after, z_text. destruct (fold_left splice_again _ _) as [m r]. reflexivity.
Qed.

Theorem outer_exact ops r :
  (forall op, In op ops -> In (fst op) (before ++ inner ++ after) /\ valid_utf8 (snd op) = true) ->
  valid_utf8 r = true -> fits doc (ops ++ [(outer, r)]) ->
  let now := map (fun sp => (sp, text_after (slice doc (s_start sp) (s_end sp)) (texts_for sp ops))) in
  exists st, splice_all (splicer_from_str doc) (ops ++ [(outer, r)]) = Ok st /\ valid_utf8 (sp_content st) = true /\
    sp_content st = replaced doc 0 (now before ++ (outer, r ++ left_behind doc inner outer ops) :: now after).
Proof.
  intros Hop Vr Hf now. unfold fits in Hf. rewrite text_size_app in Hf.
  assert (Ez : text_size [(outer, r)] = length r) by (unfold text_size; cbn; lia).
  destruct (run_in ops Hop) as (st & E & I & L); [unfold fits; lia|]. destruct marks_ordered as (Os & Hel & Bs). pose proof outer_size as Hse.
  assert (Ms : forall l, map z_span (map (zone_after doc ops) l) = l).
  { intros l. rewrite map_map. erewrite map_ext; [apply map_id|]. intros x. apply zone_after_span. }
  destruct (outer_step doc before inner after s e r st (map (zone_after doc ops) before) (zone_of doc (Span s s)) (map (zone_in ops) inner)
    (Zone (Span e e) [] [] (left_behind doc inner outer ops)) (map (zone_after doc ops) after)) as (st' & Es & V & C);
    try assumption; try reflexivity; try lia; try apply Ms.
  { rewrite map_map. erewrite map_ext; [apply map_id|]. intros x. unfold zone_in. destruct (_ =? _); [reflexivity|apply zone_after_span]. }
  exists st'. split.
  { unfold splice_all. rewrite for_each_app. fold (splice_all (splicer_from_str doc) ops).
    rewrite E. cbn [bind for_each fst snd]. rewrite Es. reflexivity. }
  split; [exact V|]. rewrite C, !edits_after. reflexivity.
Qed.

(** Nothing is left of spans that end before the outer span ends. *)
Lemma left_none ops : (forall sp, In sp inner -> s_end sp < e) -> left_behind doc inner outer ops = [].
Proof.
  clear. unfold left_behind. cbn [s_end]. induction inner as [|x l IH]; intros H; [reflexivity|]. cbn [map concat].
  rewrite (proj2 (Nat.eqb_neq (s_end x) e)) by (specialize (H x ltac:(left; reflexivity)); lia). apply IH. intros sp Hs. apply H. right. exact Hs.
Qed.

Lemma left_last ops sp : In sp inner -> s_end sp = e ->
  (Forall (fun t => t <> []) (texts_for sp ops) -> left_behind doc inner outer ops = []) /\
  forall ts later, texts_for sp ops = ts ++ [] :: later -> Forall (fun t => t <> []) ts -> left_behind doc inner outer ops = concat (rev later).
Proof.
  intros Hi He. rewrite (left_one ops sp Hi He), zone_after_right.
  assert (Ho : slice doc (s_start sp) (s_end sp) <> []).
  { pose proof (nonempty sp ltac:(rewrite !in_app_iff; auto)) as Hn. pose proof (ordered_bounds _ _ _ (Span s e) (in_order_ordered _ _ _ Hout) ltac:(apply in_or_app; right; left; reflexivity)) as (_ & _ & Hel). cbn [s_end] in Hel. intros E. apply (f_equal (@length N)) in E.
    rewrite slice_length in E by lia. cbn in E. lia. }
  split.
  - intros Ht. exact (f_equal snd (proj1 (fold_kept _ _ Ho Ht))).
  - intros ts later Et Ht. rewrite Et. exact (f_equal snd (fold_deleted _ _ _ Ho Ht)).
Qed.
End Outer.
