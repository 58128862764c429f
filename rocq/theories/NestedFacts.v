(** Splicing spans that lie inside one another: proofs. *)

From Verif Require Import Bytes BytesFacts Result Ast Peg Splicer SpecSplice SplicerFacts SpecNested.
Local Open Scope nat_scope.

Lemma inside_out_snoc ops op : inside_out (ops ++ [op]) ->
  inside_out ops /\ forall op', In op' ops ->
    inside (fst op') (fst op) \/ s_end (fst op') <= s_start (fst op) \/ s_end (fst op) <= s_start (fst op').
Proof.
  intros H. split.
  - intros o1 x o2 y E Hi. apply (H o1 x (o2 ++ [op])); [rewrite E, <- app_assoc; reflexivity|].
    apply in_or_app. left. exact Hi.
  - intros x Hi. apply in_split in Hi. destruct Hi as (o1 & o2 & ->). apply (H o1 x (o2 ++ [op])).
    + rewrite <- app_assoc. reflexivity.
    + apply in_or_app. right. left. reflexivity.
Qed.

Lemma laid_snoc ops op : laid (ops ++ [op]) = lay op (laid ops).
Proof. unfold laid. rewrite fold_left_app. reflexivity. Qed.

(** The span of [op] against edits that are in order *)
Definition fit_in (op : span) (edits : list edit) : Prop :=
  forall e, In e edits -> inside (fst e) op \/ s_end (fst e) <= s_start op \/ s_end op <= s_start (fst e).

Lemma lay_in op edits e : In e (lay op edits) -> e = op \/ In e edits.
Proof.
  induction edits as [|x edits IH]; cbn [lay]; [intros [<-|[]]; auto|].
  destruct (_ <=? _); [intros [<-|H]; [right; left; reflexivity|apply IH in H as [->|H]; [left|right; right]; auto]|].
  destruct (_ <=? _); [intros [<-|H]; [left; reflexivity|right; exact H]|].
  intros H. apply IH in H as [->|H]; [left|right; right]; auto.
Qed.

Lemma laid_in ops e : In e (laid ops) -> In e ops.
Proof.
  induction ops as [|op ops IH] using rev_ind; [intros []|]. rewrite laid_snoc. intros H.
  apply lay_in in H as [->|H]; apply in_or_app; [right; left; reflexivity|left; auto].
Qed.

Lemma in_order_behind p q len sps : in_order p len sps -> (forall sp, In sp sps -> q <= s_start sp) -> in_order q len sps.
Proof.
  destruct sps as [|s sps]; intros H K; [exact I|]. cbn [in_order] in *. destruct H as (H1 & H2 & H3 & H4).
  repeat split; try assumption. apply K. left. reflexivity.
Qed.

(** [lay] keeps what is before and what is behind *)
Lemma lay_filter op edits p len : in_order p len (map fst edits) -> s_start (fst op) < s_end (fst op) -> fit_in (fst op) edits ->
  lay op edits = filter (fun e => s_end (fst e) <=? s_start (fst op)) edits ++ op ::
                 filter (fun e => s_end (fst op) <=? s_start (fst e)) edits.
Proof.
  revert p. induction edits as [|x edits IH]; intros p Ho Hs Hf; [reflexivity|].
  cbn [map in_order] in Ho. destruct Ho as (H1 & H2 & H3 & H4). cbn [lay filter].
  assert (Hf' : fit_in (fst op) edits) by (intros e Hi; apply Hf; right; exact Hi).
  destruct (s_end (fst x) <=? s_start (fst op)) eqn:E1.
  - apply Nat.leb_le in E1. rewrite (proj2 (Nat.leb_gt _ _)) by lia. cbn [app]. f_equal. apply (IH _ H4 Hs Hf').
  - apply Nat.leb_gt in E1. destruct (s_end (fst op) <=? s_start (fst x)) eqn:E2.
    + apply Nat.leb_le in E2.
      assert (Hb : forall e, In e edits -> s_end (fst x) <= s_start (fst e) /\ s_start (fst e) < s_end (fst e)).
      { intros e Hi. destruct (in_order_bounds _ _ _ (fst e) H4) as (K1 & K2 & K3); [apply in_map; exact Hi|]. lia. }
      replace (filter (fun e => s_end (fst e) <=? s_start (fst op)) edits) with (@nil edit).
      2: { symmetry. clear -Hb E2 H2 Hs. induction edits as [|e edits IHe]; [reflexivity|]. cbn [filter].
           destruct (Hb e (or_introl eq_refl)). rewrite (proj2 (Nat.leb_gt _ _)) by lia.
           apply IHe. intros e' Hi. apply Hb. right. exact Hi. }
      replace (filter (fun e => s_end (fst op) <=? s_start (fst e)) edits) with edits; [reflexivity|].
      clear -Hb E2 H2. induction edits as [|e edits IHe]; [reflexivity|]. cbn [filter].
      destruct (Hb e (or_introl eq_refl)). rewrite (proj2 (Nat.leb_le _ _)) by lia. f_equal.
      apply IHe. intros e' Hi. apply Hb. right. exact Hi.
    + apply (IH _ H4 Hs Hf').
Qed.

Lemma in_order_filter p len (g : edit -> bool) edits : in_order p len (map fst edits) -> in_order p len (map fst (filter g edits)).
Proof.
  revert p. induction edits as [|x edits IH]; intros p H; [exact I|]. cbn [map in_order] in H. destruct H as (H1 & H2 & H3 & H4).
  cbn [filter]. destruct (g x).
  - cbn [map in_order]. repeat split; try assumption. apply IH. exact H4.
  - apply IH. apply (in_order_behind _ _ _ _ H4). intros sp Hi. destruct (in_order_bounds _ _ _ _ H4 Hi). lia.
Qed.

Lemma in_order_join p len a sp b : in_order p len a -> (forall s, In s a -> s_end s <= s_start sp) -> p <= s_start sp ->
  s_start sp < s_end sp -> s_end sp <= len -> in_order (s_end sp) len b -> in_order p len (a ++ sp :: b).
Proof.
  revert p. induction a as [|s a IH]; intros p H K Hp H1 H2 H3; cbn [app in_order] in *; [auto|].
  destruct H as (K1 & K2 & K3 & K4). repeat split; try assumption. apply IH; try assumption.
  - intros s' Hi. apply K. right. exact Hi.
  - apply K. left. reflexivity.
Qed.

Definition proper (len : nat) (ops : list edit) : Prop :=
  forall op, In op ops -> s_start (fst op) < s_end (fst op) /\ s_end (fst op) <= len.

Lemma laid_fits ops (op : edit) : (forall op', In op' ops ->
    inside (fst op') (fst op) \/ s_end (fst op') <= s_start (fst op) \/ s_end (fst op) <= s_start (fst op')) ->
  fit_in (fst op) (laid ops).
Proof. intros H e Hi. apply H, laid_in, Hi. Qed.

Lemma laid_in_order len ops : proper len ops -> inside_out ops -> in_order 0 len (map fst (laid ops)).
Proof.
  induction ops as [|op ops IH] using rev_ind; intros Hp Hio; [exact I|].
  apply inside_out_snoc in Hio as [Hio Hc].
  assert (Ho : in_order 0 len (map fst (laid ops))).
  { apply IH; [|exact Hio]. intros x Hi. apply Hp. apply in_or_app. left. exact Hi. }
  destruct (Hp op) as [P1 P2]; [apply in_or_app; right; left; reflexivity|].
  rewrite laid_snoc, (lay_filter op (laid ops) 0 len Ho P1 (laid_fits _ _ Hc)).
  rewrite map_app. cbn [map]. apply in_order_join; try assumption; try lia.
  - apply in_order_filter. exact Ho.
  - intros s Hi. apply in_map_iff in Hi. destruct Hi as (e & <- & Hi). apply filter_In in Hi. apply Nat.leb_le. apply Hi.
  - apply (in_order_behind 0); [apply in_order_filter; exact Ho|].
    intros s Hi. apply in_map_iff in Hi. destruct Hi as (e & <- & Hi). apply filter_In in Hi. apply Nat.leb_le. apply Hi.
Qed.

(** The edits laid down are those that no later edit contains. *)
Lemma laid_outermost len ops e : proper len ops -> inside_out ops ->
  (In e (laid ops) <-> exists ops1 ops2, ops = ops1 ++ e :: ops2 /\ forall op, In op ops2 -> ~ inside (fst e) (fst op)).
Proof.
  induction ops as [|op ops IH] using rev_ind; intros Hp Hio.
  - cbn. split; [intros []|]. intros (o1 & o2 & K & _). destruct o1; discriminate.
  - pose proof Hio as Hio'. apply inside_out_snoc in Hio as [Hio Hc].
    assert (Hp' : proper len ops) by (intros x Hi; apply Hp, in_or_app; left; exact Hi).
    destruct (Hp op) as [P1 P2]; [apply in_or_app; right; left; reflexivity|].
    specialize (IH Hp' Hio).
    rewrite laid_snoc, (lay_filter op (laid ops) 0 len (laid_in_order _ _ Hp' Hio) P1 (laid_fits _ _ Hc)).
    rewrite in_app_iff. cbn [In]. rewrite !filter_In, IH, !Nat.leb_le. split.
    + intros [[(o1 & o2 & -> & K) K2]|[<-|[(o1 & o2 & -> & K) K2]]].
      * exists o1, (o2 ++ [op]). split; [rewrite <- app_assoc; reflexivity|].
        intros x Hi. apply in_app_or in Hi as [Hi|[<-|[]]]; [apply K; exact Hi|]. unfold inside.
        destruct (Hp' e) as [Q1 Q2]; [apply in_or_app; right; left; reflexivity|]. lia.
      * exists ops, []. split; [reflexivity|]. intros x [].
      * exists o1, (o2 ++ [op]). split; [rewrite <- app_assoc; reflexivity|].
        intros x Hi. apply in_app_or in Hi as [Hi|[<-|[]]]; [apply K; exact Hi|]. unfold inside.
        destruct (Hp' e) as [Q1 Q2]; [apply in_or_app; right; left; reflexivity|]. lia.
    + intros (o1 & o2 & E & K). destruct o2 as [|z o2 _] using rev_ind.
      * apply app_inj_tail in E as [<- <-]. right. left. reflexivity.
      * rewrite app_comm_cons, app_assoc in E. apply app_inj_tail in E as [-> <-].
        assert (Hi : In e (o1 ++ e :: o2)) by (apply in_or_app; right; left; reflexivity).
        assert (L : exists a b, o1 ++ e :: o2 = a ++ e :: b /\ forall op0, In op0 b -> ~ inside (fst e) (fst op0)).
        { exists o1, o2. split; [reflexivity|]. intros x Hx. apply K. apply in_or_app. left. exact Hx. }
        destruct (Hc e Hi) as [C|[C|C]]; [|left; split; assumption|right; right; split; assumption].
        exfalso. apply (K op); [apply in_or_app; right; left; reflexivity|exact C].
Qed.

(** ** The text, if no target of a splice is empty *)

Definition between (x y : nat) (edits : list edit) : list edit :=
  filter (fun e => inside_b (fst e) (Span x y)) edits.

Lemma inside_b_spec a b : inside_b a b = true <-> inside a b.
Proof. unfold inside_b, inside. rewrite Bool.andb_true_iff, !Nat.leb_le. reflexivity. Qed.

Lemma between_in x y edits e : In e (between x y edits) <-> In e edits /\ x <= s_start (fst e) /\ s_end (fst e) <= y.
Proof. unfold between. rewrite filter_In, inside_b_spec. unfold inside. cbn [s_start s_end]. reflexivity. Qed.

Lemma filter_ext_in' {A} (g h : A -> bool) l : (forall a, In a l -> g a = h a) -> filter g l = filter h l.
Proof.
  induction l as [|a l IH]; intros H; [reflexivity|]. cbn [filter]. rewrite (H a (or_introl eq_refl)).
  destruct (h a); [f_equal|]; apply IH; intros b Hi; apply H; right; exact Hi.
Qed.

Lemma filter_filter {A} (g h : A -> bool) l : filter g (filter h l) = filter (fun a => (h a && g a)%bool) l.
Proof.
  induction l as [|a l IH]; [reflexivity|]. cbn [filter]. destruct (h a); cbn [filter andb]; [|exact IH].
  destruct (g a); [f_equal|]; exact IH.
Qed.

Lemma leb_b a b c d : (a <= b <-> c <= d) -> (a <=? b) = (c <=? d).
Proof. intros H. destruct (a <=? b) eqn:E, (c <=? d) eqn:F; try reflexivity; rewrite ?Nat.leb_le, ?Nat.leb_gt in *; lia. Qed.

Ltac bools := apply Bool.eq_true_iff_eq; rewrite ?Bool.andb_true_iff, ?inside_b_spec, ?Nat.leb_le; unfold inside; cbn [s_start s_end fst].

(** The edits between [x] and [y] after one more *)
Lemma between_lay op edits len x y : in_order 0 len (map fst edits) -> s_start (fst op) < s_end (fst op) -> fit_in (fst op) edits ->
  (forall e, In e edits -> (x <= s_start (fst e) \/ s_end (fst e) <= x) /\ (y <= s_start (fst e) \/ s_end (fst e) <= y)) -> x <= y ->
  (y <= s_start (fst op) \/ s_end (fst op) <= x -> between x y (lay op edits) = between x y edits) /\
  (x <= s_start (fst op) -> s_end (fst op) <= y ->
   between x y (lay op edits) = between x (s_start (fst op)) edits ++ op :: between (s_end (fst op)) y edits).
Proof.
  intros Ho Hs Hf Hc Hxy. rewrite (lay_filter op edits 0 len Ho Hs Hf).
  assert (Hb : forall e, In e edits -> s_start (fst e) < s_end (fst e)).
  { intros e Hi. apply (in_order_bounds _ _ _ (fst e) Ho). apply in_map. exact Hi. }
  unfold between at 1 3. rewrite filter_app. cbn [filter]. rewrite !filter_filter. split.
  - intros Hd. replace (inside_b (fst op) (Span x y)) with false.
    2: { symmetry. apply Bool.not_true_is_false. rewrite inside_b_spec. unfold inside. cbn [s_start s_end]. lia. }
    unfold between. destruct Hd as [Hd|Hd].
    + replace (filter _ edits) with (filter (fun e => inside_b (fst e) (Span x y)) edits).
      2: { apply filter_ext_in'. intros e Hi. pose proof (Hb e Hi). bools. lia. }
      rewrite <- (app_nil_r (filter (fun e => inside_b (fst e) (Span x y)) edits)) at 2. f_equal.
      rewrite (filter_ext_in' _ (fun _ => false)); [clear; induction edits; [reflexivity|assumption]|].
      intros e Hi. pose proof (Hb e Hi). apply Bool.not_true_is_false.
      rewrite Bool.andb_true_iff, inside_b_spec, Nat.leb_le. unfold inside. cbn [s_start s_end]. lia.
    + rewrite (filter_ext_in' _ (fun _ => false)).
      2: { intros e Hi. pose proof (Hb e Hi). apply Bool.not_true_is_false.
           rewrite Bool.andb_true_iff, inside_b_spec, Nat.leb_le. unfold inside. cbn [s_start s_end]. lia. }
      replace (filter (fun _ => false) edits) with (@nil edit) by (clear; induction edits; [reflexivity|assumption]).
      cbn [app]. apply filter_ext_in'. intros e Hi. pose proof (Hb e Hi). bools. lia.
  - intros Hx Hy. replace (inside_b (fst op) (Span x y)) with true.
    2: { symmetry. apply inside_b_spec. split; assumption. }
    f_equal; [|f_equal].
    + unfold between. apply filter_ext_in'. intros e Hi. pose proof (Hb e Hi). bools. lia.
    + unfold between. apply filter_ext_in'. intros e Hi. pose proof (Hb e Hi). bools. lia.
Qed.

Lemma slice_firstn doc a b c : b <= c -> slice (firstn c doc) a b = slice doc a b.
Proof.
  intros H. unfold slice. rewrite skipn_firstn_comm, firstn_firstn. f_equal. lia.
Qed.

(** An edit in the middle *)
Lemma replaced_middle doc A a b r B x y : b <= y -> (forall e, In e A -> s_end (fst e) <= a /\ s_start (fst e) <= s_end (fst e)) ->
  a <= b ->
  replaced (firstn y doc) x (A ++ (Span a b, r) :: B) = replaced (firstn a doc) x A ++ r ++ replaced (firstn y doc) b B.
Proof.
  intros Hy HA Hab. revert x. induction A as [|[sp t] A IH]; intros x.
  - cbn [app replaced s_start s_end]. f_equal. rewrite slice_firstn by lia. unfold slice. rewrite skipn_firstn_comm. reflexivity.
  - cbn [app replaced]. destruct (HA (sp, t) (or_introl eq_refl)) as [K1 K2]. cbn [fst] in K1, K2.
    rewrite IH by (intros e Hi; apply HA; right; exact Hi). rewrite !slice_firstn by lia. rewrite <- !app_assoc. reflexivity.
Qed.

Lemma compat_snoc ops op x : compat (ops ++ [op]) x -> compat ops x /\ (x <= s_start (fst op) \/ s_end (fst op) <= x).
Proof.
  intros C. split; [intros o Hi; apply C; apply in_or_app; left; exact Hi|]. apply C. apply in_or_app. right. left. reflexivity.
Qed.

Lemma part_laid doc ops x y : proper (length doc) ops -> inside_out ops -> compat ops x -> compat ops y -> x <= y -> y <= length doc ->
  part (fold_left put ops (cells0 doc)) x y = replaced (firstn y doc) x (between x y (laid ops)).
Proof.
  revert x y. induction ops as [|op ops IH] using rev_ind; intros x y Hp Hio Cx Cy Hxy Hy.
  - cbn [fold_left laid between filter replaced]. rewrite part_cells0. unfold slice. rewrite skipn_firstn_comm. reflexivity.
  - apply inside_out_snoc in Hio as [Hio Hc]. apply compat_snoc in Cx as [Cx Dx]. apply compat_snoc in Cy as [Cy Dy].
    assert (Hp' : proper (length doc) ops) by (intros e Hi; apply Hp, in_or_app; left; exact Hi).
    destruct (Hp op) as [P1 P2]; [apply in_or_app; right; left; reflexivity|].
    assert (HL : length (fold_left put ops (cells0 doc)) = length doc) by (apply length_fold_put; exact Hp').
    destruct (between_lay op (laid ops) (length doc) x y (laid_in_order _ _ Hp' Hio) P1 (laid_fits _ _ Hc)) as [B1 B2].
    { intros e Hi. apply laid_in in Hi. split; [apply Cx|apply Cy]; exact Hi. }
    { exact Hxy. }
    rewrite fold_left_app, laid_snoc. cbn [fold_left]. destruct op as [[a b] r]. cbn [fst s_start s_end] in *.
    assert (Ca : compat ops a).
    { intros o Hi. destruct (Hp' o Hi), (Hc o Hi) as [[K1 K2]|[K|K]]; cbn [s_start s_end] in *; lia. }
    assert (Cb : compat ops b).
    { intros o Hi. destruct (Hp' o Hi), (Hc o Hi) as [[K1 K2]|[K|K]]; cbn [s_start s_end] in *; lia. }
    destruct Dx as [Dx|Dx], Dy as [Dy|Dy].
    + rewrite part_put_before by lia. rewrite B1 by lia. apply IH; assumption.
    + rewrite part_put_around by lia. rewrite B2 by lia. rewrite !IH by (assumption || lia).
      rewrite replaced_middle; [reflexivity|lia| |lia].
      intros e Hi. apply between_in in Hi as (Hi & K1 & K2). split; [lia|]. apply laid_in in Hi. apply Hp' in Hi. lia.
    + lia.
    + rewrite part_put_after by lia. rewrite B1 by lia. apply IH; assumption.
Qed.

Lemma nested_good doc ops : proper (length doc) ops -> inside_out ops ->
  (forall op, In op ops -> on_boundaries doc (fst op) /\ valid_utf8 (snd op) = true) -> never_emptied doc ops -> good_history doc ops.
Proof.
  induction ops as [|op ops IH] using rev_ind; intros Hp Hio Hv Hne; [constructor|].
  apply inside_out_snoc in Hio as [Hio Hc].
  assert (Hp' : proper (length doc) ops) by (intros e Hi; apply Hp, in_or_app; left; exact Hi).
  destruct (Hp op) as [P1 P2]; [apply in_or_app; right; left; reflexivity|].
  destruct (Hv op) as [[V1 V2] V3]; [apply in_or_app; right; left; reflexivity|].
  assert (G : good_history doc ops).
  { apply IH; try assumption.
    - intros e Hi. apply Hv, in_or_app. left. exact Hi.
    - intros o1 sp r o2 E Hr. apply (Hne o1 sp r (o2 ++ [op])); [rewrite E, <- app_assoc; reflexivity|exact Hr]. }
  destruct op as [[a b] r]. cbn [fst snd s_start s_end] in *.
  assert (Ca : compat ops a).
  { intros o Hi. destruct (Hp' o Hi), (Hc o Hi) as [[K1 K2]|[K|K]]; cbn [s_start s_end] in *; lia. }
  assert (Cb : compat ops b).
  { intros o Hi. destruct (Hp' o Hi), (Hc o Hi) as [[K1 K2]|[K|K]]; cbn [s_start s_end] in *; lia. }
  constructor; try assumption.
  destruct r as [|c r]; [right; reflexivity|left].
  rewrite part_laid by (assumption || lia). apply (Hne ops (Span a b) (c :: r) []); [reflexivity|discriminate].
Qed.

Lemma splice_nested doc ops : valid_utf8 doc = true -> proper (length doc) ops -> inside_out ops ->
  (forall op, In op ops -> on_boundaries doc (fst op) /\ valid_utf8 (snd op) = true) -> never_emptied doc ops -> fits doc ops ->
  exists st, splice_all (splicer_from_str doc) ops = Ok st /\ sp_content st = replaced doc 0 (laid ops).
Proof.
  intros Hv Hp Hio Hb Hne Hf. pose proof (nested_good doc ops Hp Hio Hb Hne) as G.
  destruct (good_run doc ops Hv G Hf) as (st & E & I & _). exists st. split; [exact E|].
  rewrite (inv_content _ _ _ _ I). rewrite <- (firstn_all doc) at 2.
  replace (laid ops) with (between 0 (length doc) (laid ops)).
  - rewrite <- part_laid; try assumption; try lia.
    + rewrite <- (inv_len _ _ _ _ I), part_end. reflexivity.
    + apply compat_0.
    + apply compat_end. intros op Hi. apply Hp. exact Hi.
  - unfold between. transitivity (filter (fun _ => true) (laid ops)).
    + apply filter_ext_in'. intros e Hi. apply laid_in in Hi. apply Hp in Hi. apply inside_b_spec. unfold inside. cbn [s_start s_end]. lia.
    + clear. induction (laid ops) as [|e l IH]; [reflexivity|]. cbn [filter]. f_equal. exact IH.
Qed.

(** ** Any such history *)

Definition covered (ops : list edit) (i : nat) : Prop := exists op, In op ops /\ s_start (fst op) <= i < s_end (fst op).

Lemma covered_dec ops i : covered ops i \/ ~ covered ops i.
Proof.
  induction ops as [|op ops IH]; [right; intros (op & [] & _)|].
  destruct IH as [(o & H1 & H2)|IH]; [left; exists o; split; [right; exact H1|exact H2]|].
  destruct (le_lt_dec (s_start (fst op)) i) as [H|H]; [destruct (le_lt_dec (s_end (fst op)) i) as [K|K]|].
  - right. intros (o & [<-|H1] & H2); [lia|]. apply IH. exists o. auto.
  - left. exists op. split; [left; reflexivity|lia].
  - right. intros (o & [<-|H1] & H2); [lia|]. apply IH. exists o. auto.
Qed.

(** The bytes before [a] that were spliced, back to one that was not *)
Lemma back_to ops a : exists lo, lo <= a /\ (forall i, lo <= i < a -> covered ops i) /\ (lo = 0 \/ exists j, lo = S j /\ ~ covered ops j).
Proof.
  induction a as [|a IH].
  - exists 0. split; [lia|]. split; [intros; lia|auto].
  - destruct (covered_dec ops a) as [C|C].
    + destruct IH as (lo & H1 & H2 & H3). exists lo. split; [lia|]. split; [|exact H3].
      intros i Hi. destruct (Nat.eq_dec i a) as [->|]; [exact C|apply H2; lia].
    + exists (S a). split; [lia|]. split; [intros; lia|]. right. exists a. auto.
Qed.

Lemma on_to ops b len : b <= len -> exists hi, b <= hi /\ hi <= len /\ (forall i, b <= i < hi -> covered ops i) /\ (hi = len \/ ~ covered ops hi).
Proof.
  intros Hb. remember (len - b) as n eqn:En. revert b Hb En. induction n as [|n IH]; intros b Hb En.
  - exists b. split; [lia|]. split; [lia|]. split; [intros; lia|]. left. lia.
  - destruct (covered_dec ops b) as [C|C].
    + destruct (IH (S b)) as (hi & H1 & H2 & H3 & H4); [lia|lia|]. exists hi. split; [lia|]. split; [lia|]. split; [|exact H4].
      intros i Hi. destruct (Nat.eq_dec i b) as [->|]; [exact C|apply H3; lia].
    + exists b. split; [lia|]. split; [lia|]. split; [intros; lia|]. right. exact C.
Qed.

Record loose (doc : bytes) (ops : list edit) (st : splicer) (cs : cell_list) (f : nat -> nat) : Prop := {
  lo_len : length cs = length doc;
  lo_content : sp_content st = concat cs;
  lo_size : length (concat cs) <= length doc + text_size ops;
  lo_adjust : forall x y, x <= y -> y <= length doc -> compat ops x -> compat ops y ->
    fold_left adjust_step (sp_offsets st) (Z.of_nat x, Z.of_nat y) = (Z.of_nat (f x), Z.of_nat (f y));
  lo_in : forall x, x <= length doc -> compat ops x -> f x <= length (concat cs);
  lo_mono : forall x y, x <= y -> y <= length doc -> compat ops x -> compat ops y -> f x <= f y;
  lo_utf8 : forall x, x <= length doc -> compat ops x -> is_boundary doc x = true ->
    valid_utf8 (firstn (f x) (concat cs)) = true /\ valid_utf8 (skipn (f x) (concat cs)) = true;
  lo_kept : forall i, i < length doc -> ~ covered ops i -> part cs i (S i) = slice doc i (S i);
  lo_before : forall i x, x <= length doc -> compat ops x -> ~ covered ops i -> i < x -> pos cs (S i) <= f x;
  lo_behind : forall i x, i < length doc -> compat ops x -> ~ covered ops i -> x <= i -> f x <= pos cs i
}.

Lemma loose_start doc : valid_utf8 doc = true -> loose doc [] (splicer_from_str doc) (cells0 doc) (fun x => x).
Proof.
  intros Hv. split.
  - apply length_cells0.
  - symmetry. apply concat_cells0.
  - rewrite concat_cells0. lia.
  - reflexivity.
  - intros x H _. rewrite concat_cells0. exact H.
  - intros x y H _ _ _. exact H.
  - intros x Hx _ B. rewrite concat_cells0. apply valid_boundary; assumption.
  - intros i Hi _. apply part_cells0.
  - intros i x Hx _ _ Hi. rewrite pos_cells0 by lia. lia.
  - intros i x Hi _ _ Hx. rewrite pos_cells0 by lia. lia.
Qed.

Lemma slice_prefix (s : bytes) x y : x <= y -> firstn y s = firstn x s ++ slice s x y.
Proof. intros H. unfold slice. apply firstn_skipn_app. exact H. Qed.

Lemma slice_suffix (s : bytes) x y : x <= y -> skipn x s = slice s x y ++ skipn y s.
Proof.
  intros H. unfold slice. replace (skipn y s) with (skipn (y - x) (skipn x s)) by (rewrite skipn_skipn; f_equal; lia).
  symmetry. apply firstn_skipn.
Qed.

Lemma firstn_pos cs x : firstn (pos cs x) (concat cs) = concat (firstn x cs).
Proof. unfold pos. rewrite <- (firstn_skipn x cs) at 2. rewrite concat_app, firstn_app_exact. reflexivity. Qed.
Lemma skipn_pos cs x : skipn (pos cs x) (concat cs) = concat (skipn x cs).
Proof. unfold pos. rewrite <- (firstn_skipn x cs) at 2. rewrite concat_app, skipn_app_exact. reflexivity. Qed.

Lemma cut_app (u v : bytes) n : n = length u -> firstn n (u ++ v) = u /\ skipn n (u ++ v) = v.
Proof. intros ->. split; [apply firstn_app_exact|apply skipn_app_exact]. Qed.

Lemma loose_splice doc ops st cs f a b r : loose doc ops st cs f -> a < b -> b <= length doc -> compat ops a -> compat ops b ->
  is_boundary doc a = true -> is_boundary doc b = true -> valid_utf8 r = true -> fits doc (ops ++ [(Span a b, r)]) ->
  exists st' cs' f', splice st (Span a b) r = Ok st' /\ loose doc (ops ++ [(Span a b, r)]) st' cs' f'.
Proof.
  intros L Hab Hb Ca Cb Ba Bb Vr Hf. unfold fits in Hf. rewrite text_size_app in Hf.
  assert (Ez : text_size [(Span a b, r)] = length r) by (unfold text_size; cbn; lia). rewrite Ez in Hf.
  pose proof (lo_len _ _ _ _ _ L) as HL. pose proof (lo_size _ _ _ _ _ L) as HS.
  pose proof (lo_in _ _ _ _ _ L a ltac:(lia) Ca) as Ia. pose proof (lo_in _ _ _ _ _ L b Hb Cb) as Ib.
  pose proof (lo_mono _ _ _ _ _ L a b ltac:(lia) Hb Ca Cb) as Mab.
  destruct (lo_utf8 _ _ _ _ _ L a ltac:(lia) Ca Ba) as [Va1 Va2]. destruct (lo_utf8 _ _ _ _ _ L b Hb Cb Bb) as [Vb1 Vb2].
  set (s := concat cs) in *.
  (* the splice *)
  assert (E : splice st (Span a b) r = Ok (Splicer (firstn (f a) s ++ r ++ skipn (f b) s)
    (sp_offsets st ++ [SpliceOffset (f a) (Z.of_nat (length r) - Z.of_nat (f b - f a))]))).
  { unfold splice, adjust_offsets. cbn [s_start s_end]. rewrite !as_isize_small by (unfold two63 in *; lia).
    rewrite (lo_adjust _ _ _ _ _ L a b) by (assumption || lia). unfold try_usize.
    rewrite !(proj2 (Z.ltb_ge _ 0)) by lia. rewrite !Nat2Z.id. cbn [s_start s_end].
    rewrite (proj2 (Nat.ltb_ge _ _)) by lia. rewrite (lo_content _ _ _ _ _ L). fold s.
    unfold split_at at 1. rewrite (proj2 (Nat.leb_le _ _)) by lia.
    assert (Ba' : is_boundary s (f a) = true).
    { rewrite <- (firstn_skipn (f a) s) at 1. replace (f a) with (length (firstn (f a) s)) at 3 by (rewrite firstn_length; lia).
      apply boundary_of_app. exact Va2. }
    rewrite Ba'. cbn [andb bind]. unfold split_at. rewrite skipn_length. rewrite (proj2 (Nat.leb_le _ _)) by lia.
    assert (Bb' : is_boundary (skipn (f a) s) (f b - f a) = true).
    { rewrite (slice_suffix s (f a) (f b)) by lia. rewrite <- (slice_length s (f a) (f b)) by lia. apply boundary_of_app. exact Vb2. }
    rewrite Bb'. cbn [andb bind]. rewrite skipn_skipn. replace (f a + (f b - f a)) with (f b) by lia.
    unfold new_string. rewrite (proj2 (Z.ltb_lt _ _)); [reflexivity|].
    rewrite !app_length, firstn_length, skipn_length. lia. }
  destruct (back_to ops a) as (lo & Hlo & Clo & Elo). destruct (on_to ops b (length doc) Hb) as (hi & Hhi & Hhi2 & Chi & Ehi).
  assert (Plo : pos cs lo <= f a).
  { destruct Elo as [->|(j & -> & Nj)]; [unfold pos; cbn; lia|]. apply (lo_before _ _ _ _ _ L); try assumption; lia. }
  assert (Phi : f b <= pos cs hi).
  { destruct Ehi as [->|Nh]; [rewrite pos_all by lia; exact Ib|].
    destruct (Nat.eq_dec hi (length doc)) as [->|]; [rewrite pos_all by lia; exact Ib|]. apply (lo_behind _ _ _ _ _ L); try assumption; lia. }
  assert (Phl : pos cs hi <= length s) by (unfold s; rewrite <- (pos_all cs (length cs)) by lia; apply pos_mono; lia).
  set (blob := slice s (pos cs lo) (f a) ++ r ++ slice s (f b) (pos cs hi)).
  assert (Lb : length blob + (pos cs lo + f b) = f a + length r + pos cs hi).
  { unfold blob. rewrite !app_length, !slice_length by lia. lia. }
  set (cs' := put cs (Span lo hi, blob)).
  assert (Es : concat cs' = firstn (f a) s ++ r ++ skipn (f b) s).
  { unfold cs'. rewrite concat_put. unfold blob. rewrite <- (firstn_pos cs lo), <- (skipn_pos cs hi). fold s.
    rewrite (slice_prefix s (pos cs lo) (f a)) by lia. rewrite (slice_suffix s (f b) (pos cs hi)) by lia.
    rewrite <- !app_assoc. reflexivity. }
  assert (Ls : length (concat cs') + f b = length s + f a + length r).
  { rewrite Es, !app_length, firstn_length, skipn_length. lia. }
  set (f' := fun x => if f a <? f x then f x + length r - (f b - f a) else f x).
  eexists _, cs', f'. split; [exact E|].
  assert (Hcomp : forall x, x <= length doc -> compat (ops ++ [(Span a b, r)]) x ->
    compat ops x /\ ((x <= a /\ f x <= f a /\ f' x = f x) \/
      (b <= x /\ f b <= f x /\ ((f a < f x /\ f' x + f b = f x + f a + length r) \/ (f x = f a /\ f b = f a /\ f' x = f a))))).
  { intros x Hx C. apply compat_snoc in C as [C D]. cbn [fst s_start s_end] in D. split; [exact C|]. unfold f'. destruct D as [D|D].
    - left. pose proof (lo_mono _ _ _ _ _ L x a D ltac:(lia) C Ca). rewrite (proj2 (Nat.ltb_ge _ _)) by lia. auto.
    - right. pose proof (lo_mono _ _ _ _ _ L b x D Hx Cb C). split; [exact D|]. split; [lia|].
      destruct (f a <? f x) eqn:Q; [apply Nat.ltb_lt in Q; left; lia|apply Nat.ltb_ge in Q; right; lia]. }
  assert (Hcov : forall i, ~ covered (ops ++ [(Span a b, r)]) i -> ~ covered ops i /\ (i < lo \/ hi <= i)).
  { intros i N. assert (N1 : ~ covered ops i).
    { intros (o & K1 & K2). apply N. exists o. split; [apply in_or_app; left; exact K1|exact K2]. }
    split; [exact N1|]. destruct (le_lt_dec a i) as [K|K].
    - right. destruct (le_lt_dec b i) as [K2|K2].
      + destruct (le_lt_dec hi i); [assumption|]. exfalso. apply N1, Chi. lia.
      + exfalso. apply N. exists (Span a b, r). split; [apply in_or_app; right; left; reflexivity|cbn; lia].
    - left. destruct (le_lt_dec lo i); [|assumption]. exfalso. apply N1, Clo. lia. }
  assert (Plt : forall i, i < lo -> pos cs' i = pos cs i /\ pos cs' (S i) = pos cs (S i)).
  { intros i Hi. unfold cs'. split; apply pos_put_le; lia. }
  assert (Pge : forall i, hi <= i -> pos cs' i + f b = pos cs i + f a + length r).
  { intros i Hi. assert (K : pos cs' i + (pos cs hi - pos cs lo) = pos cs i + length blob) by (apply pos_put_ge; lia).
    pose proof (pos_mono cs lo hi ltac:(lia)). lia. }
  split; cbn [sp_content sp_offsets].
  - unfold cs'. rewrite length_put by lia. exact HL.
  - symmetry. exact Es.
  - rewrite text_size_app, Ez. lia.
  - intros x y Hxy Hy Cx Cy. rewrite fold_left_app.
    destruct (Hcomp x ltac:(lia) Cx) as [Cx' Dx]. destruct (Hcomp y Hy Cy) as [Cy' Dy].
    rewrite (lo_adjust _ _ _ _ _ L x y) by assumption. cbn [fold_left adjust_step so_position so_offset].
    pose proof (lo_in _ _ _ _ _ L x ltac:(lia) Cx') as Ix. pose proof (lo_in _ _ _ _ _ L y Hy Cy') as Iy. fold s in Ix, Iy.
    pose proof (lo_mono _ _ _ _ _ L x y Hxy Hy Cx' Cy') as Mxy.
    rewrite !as_usize_small by lia.
    destruct (Z.of_nat (f a) <? Z.of_nat (f x))%Z eqn:Qx; [apply Z.ltb_lt in Qx|apply Z.ltb_ge in Qx].
    + destruct Dx as [Dx|(? & ? & [Dx|Dx])]; [lia| |lia]. destruct Dy as [Dy|(? & ? & [Dy|Dy])]; [lia| |lia].
      f_equal; rewrite as_isize_small; lia.
    + assert (Fx : f' x = f x) by (unfold f'; rewrite (proj2 (Nat.ltb_ge _ _)) by lia; reflexivity). rewrite Fx.
      destruct (Z.of_nat (f a) <? Z.of_nat (f y))%Z eqn:Qy; [apply Z.ltb_lt in Qy|apply Z.ltb_ge in Qy].
      * destruct Dy as [Dy|(? & ? & [Dy|Dy])]; [lia| |lia]. f_equal. rewrite as_isize_small; lia.
      * f_equal. unfold f'. rewrite (proj2 (Nat.ltb_ge _ _)) by lia. reflexivity.
  - intros x Hx Cx. destruct (Hcomp x Hx Cx) as [Cx' Dx]. pose proof (lo_in _ _ _ _ _ L x Hx Cx'). fold s in H.
    destruct Dx as [Dx|(? & ? & [Dx|Dx])]; lia.
  - intros x y Hxy Hy Cx Cy. destruct (Hcomp x ltac:(lia) Cx) as [Cx' Dx]. destruct (Hcomp y Hy Cy) as [Cy' Dy].
    pose proof (lo_mono _ _ _ _ _ L x y Hxy Hy Cx' Cy'). lia.
  - intros x Hx Cx Bx. destruct (Hcomp x Hx Cx) as [Cx' Dx]. destruct (lo_utf8 _ _ _ _ _ L x Hx Cx' Bx) as [Vx1 Vx2]. fold s in Vx1, Vx2.
    pose proof (lo_in _ _ _ _ _ L x Hx Cx') as Ix. fold s in Ix. rewrite Es.
    assert (Vrest : valid_utf8 (r ++ skipn (f b) s) = true) by (rewrite valid_utf8_app; assumption).
    assert (Lfa : length (firstn (f a) s) = f a) by (rewrite firstn_length; lia).
    destruct Dx as [(D1 & D2 & ->)|(D1 & D2 & [(D3 & D4)|(D3 & D4 & ->)])].
    + rewrite (slice_prefix s (f x) (f a)) by lia.
      assert (Lfx : length (firstn (f x) s) = f x) by (rewrite firstn_length; lia).
      rewrite <- !app_assoc. destruct (cut_app (firstn (f x) s) (slice s (f x) (f a) ++ r ++ skipn (f b) s) (f x) (eq_sym Lfx)) as [-> ->].
      split; [exact Vx1|].
      rewrite valid_utf8_app; [exact Vrest|]. rewrite (slice_prefix s (f x) (f a)) in Va1 by lia. rewrite valid_utf8_app in Va1 by exact Vx1. exact Va1.
    + assert (Vm : valid_utf8 (slice s (f b) (f x)) = true).
      { rewrite (slice_prefix s (f b) (f x)) in Vx1 by lia. rewrite valid_utf8_app in Vx1 by exact Vb1. exact Vx1. }
      replace (f' x) with (length (firstn (f a) s ++ r ++ slice s (f b) (f x))).
      2: { rewrite !app_length, Lfa, slice_length by lia. lia. }
      rewrite (slice_suffix s (f b) (f x)) by lia. rewrite !app_assoc, firstn_app_exact, skipn_app_exact, <- !app_assoc.
      split; [|exact Vx2]. rewrite valid_utf8_app by exact Va1. rewrite valid_utf8_app by exact Vr. exact Vm.
    + destruct (cut_app (firstn (f a) s) (r ++ skipn (f b) s) (f a) (eq_sym Lfa)) as [-> ->]. split; assumption.
  - intros i Hi N. destruct (Hcov i N) as [N1 D]. rewrite <- (lo_kept _ _ _ _ _ L i Hi N1). unfold cs'. destruct D as [D|D].
    + apply part_put_before; lia.
    + apply part_put_after; lia.
  - intros i x Hx Cx N Hix. destruct (Hcomp x Hx Cx) as [Cx' Dx]. destruct (Hcov i N) as [N1 D].
    pose proof (lo_before _ _ _ _ _ L i x Hx Cx' N1 Hix) as K. destruct D as [D|D].
    + rewrite (proj2 (Plt i D)). destruct Dx as [Dx|(? & ? & [Dx|Dx])]; [lia| |lia].
      pose proof (lo_before _ _ _ _ _ L i a ltac:(lia) Ca N1 ltac:(lia)). lia.
    + assert (Hi : i < length doc) by lia.
      pose proof (Pge (S i) ltac:(lia)). pose proof (lo_behind _ _ _ _ _ L i b Hi Cb N1 ltac:(lia)).
      pose proof (pos_diff cs i (S i) ltac:(lia)) as Pd. rewrite (lo_kept _ _ _ _ _ L i Hi N1), slice_length in Pd by lia.
      destruct Dx as [Dx|(? & ? & [Dx|Dx])]; lia.
  - intros i x Hi Cx N Hxi. destruct (Hcomp x ltac:(lia) Cx) as [Cx' Dx]. destruct (Hcov i N) as [N1 D].
    pose proof (lo_behind _ _ _ _ _ L i x Hi Cx' N1 Hxi) as K. destruct D as [D|D].
    + rewrite (proj1 (Plt i D)). destruct Dx as [Dx|(? & ? & [Dx|Dx])]; lia.
    + pose proof (Pge i D). pose proof (lo_behind _ _ _ _ _ L i b Hi Cb N1 ltac:(lia)).
      destruct Dx as [Dx|(? & ? & [Dx|Dx])]; lia.
Qed.

Lemma nested_compat ops (op : edit) len : proper len ops -> (forall op', In op' ops ->
    inside (fst op') (fst op) \/ s_end (fst op') <= s_start (fst op) \/ s_end (fst op) <= s_start (fst op')) ->
  s_start (fst op) < s_end (fst op) -> compat ops (s_start (fst op)) /\ compat ops (s_end (fst op)).
Proof.
  intros Hp Hc Hs. split; intros o Hi; destruct (Hp o Hi), (Hc o Hi) as [[K1 K2]|[K|K]]; lia.
Qed.

Lemma loose_run doc ops : valid_utf8 doc = true -> proper (length doc) ops -> inside_out ops ->
  (forall op, In op ops -> on_boundaries doc (fst op) /\ valid_utf8 (snd op) = true) -> fits doc ops ->
  exists st cs f, splice_all (splicer_from_str doc) ops = Ok st /\ loose doc ops st cs f.
Proof.
  intros Hv. induction ops as [|op ops IH] using rev_ind; intros Hp Hio Hb Hf.
  - exists (splicer_from_str doc), (cells0 doc), (fun x => x). split; [reflexivity|]. apply loose_start. exact Hv.
  - apply inside_out_snoc in Hio as [Hio Hc].
    assert (Hp' : proper (length doc) ops) by (intros e Hi; apply Hp, in_or_app; left; exact Hi).
    destruct (Hp op) as [P1 P2]; [apply in_or_app; right; left; reflexivity|].
    destruct (Hb op) as [[V1 V2] V3]; [apply in_or_app; right; left; reflexivity|].
    destruct IH as (st & cs & f & E & L); try assumption.
    { intros e Hi. apply Hb, in_or_app. left. exact Hi. }
    { unfold fits in *. rewrite text_size_app in Hf. lia. }
    destruct (nested_compat ops op (length doc) Hp' Hc P1) as [Ca Cb]. destruct op as [[a b] r]. cbn [fst snd s_start s_end] in *.
    destruct (loose_splice doc ops st cs f a b r L) as (st' & cs' & f' & E' & L'); try assumption.
    exists st', cs', f'. split; [|exact L']. unfold splice_all. rewrite for_each_app. fold (splice_all (splicer_from_str doc) ops).
    rewrite E. cbn [bind for_each fst snd]. rewrite E'. reflexivity.
Qed.

(** What was spliced is what the edits laid down cover. *)
Lemma laid_covers len ops i : proper len ops -> inside_out ops -> covered ops i -> covered (laid ops) i.
Proof.
  induction ops as [|op ops IH] using rev_ind; intros Hp Hio (o & Hi & Ho); [destruct Hi|].
  apply inside_out_snoc in Hio as [Hio Hc].
  assert (Hp' : proper len ops) by (intros e He; apply Hp, in_or_app; left; exact He).
  destruct (Hp op) as [P1 P2]; [apply in_or_app; right; left; reflexivity|].
  rewrite laid_snoc, (lay_filter op (laid ops) 0 len (laid_in_order _ _ Hp' Hio) P1 (laid_fits _ _ Hc)).
  apply in_app_or in Hi. destruct Hi as [Hi|[<-|[]]].
  - destruct (IH Hp' Hio) as (e & K1 & K2); [exists o; auto|].
    destruct (laid_fits ops op Hc e K1) as [C|[C|C]].
    + exists op. split; [apply in_or_app; right; left; reflexivity|]. destruct C. lia.
    + exists e. split; [|exact K2]. apply in_or_app. left. apply filter_In. split; [exact K1|]. apply Nat.leb_le. exact C.
    + exists e. split; [|exact K2]. apply in_or_app. right. right. apply filter_In. split; [exact K1|]. apply Nat.leb_le. exact C.
  - exists op. split; [apply in_or_app; right; left; reflexivity|exact Ho].
Qed.

Lemma part_kept doc cs x y : x <= y -> y <= length doc -> (forall i, x <= i < y -> part cs i (S i) = slice doc i (S i)) ->
  part cs x y = slice doc x y.
Proof.
  intros Hxy Hy H. remember (y - x) as n eqn:En. revert x Hxy H En. induction n as [|n IH]; intros x Hxy H En.
  - assert (x = y) by lia. subst y. unfold part, slice. rewrite Nat.sub_diag. reflexivity.
  - rewrite (part_app cs x (S x) y), (slice_split doc x (S x) y) by lia. f_equal; [apply H; lia|]. apply IH; [lia| |lia].
    intros i Hi. apply H. lia.
Qed.

Lemma cells_replaced doc cs edits p : length cs = length doc -> in_order p (length doc) (map fst edits) -> p <= length doc ->
  (forall i, p <= i < length doc -> ~ covered edits i -> part cs i (S i) = slice doc i (S i)) ->
  part cs p (length doc) = replaced doc p (map (fun e => (fst e, part cs (s_start (fst e)) (s_end (fst e)))) edits).
Proof.
  intros HL. revert p. induction edits as [|[[a b] t] edits IH]; intros p Ho Hp H.
  - cbn [map replaced]. rewrite (part_kept doc cs p (length doc) Hp (le_n _)).
    2: { intros i Hi. apply H; [exact Hi|]. intros (o & [] & _). }
    unfold slice. apply firstn_all2. rewrite skipn_length. lia.
  - cbn [map fst in_order s_start s_end] in Ho. destruct Ho as (H1 & H2 & H3 & H4). cbn [map replaced fst s_start s_end].
    assert (Hb : forall e, In e edits -> b <= s_start (fst e)).
    { intros e Hi. apply (in_order_bounds _ _ _ (fst e) H4). apply in_map. exact Hi. }
    rewrite (part_app cs p a), (part_app cs a b) by lia. f_equal; [|f_equal].
    + apply part_kept; [lia|lia|]. intros i Hi. apply H; [lia|]. intros (o & [<-|K] & K2); [cbn in K2; lia|]. apply Hb in K. lia.
    + apply IH; [exact H4|lia|]. intros i Hi N. apply H; [lia|]. intros (o & [<-|K] & K2); [cbn in K2; lia|]. apply N. exists o. auto.
Qed.

Lemma splice_nested_any doc ops : valid_utf8 doc = true -> proper (length doc) ops -> inside_out ops ->
  (forall op, In op ops -> on_boundaries doc (fst op) /\ valid_utf8 (snd op) = true) -> fits doc ops ->
  exists st edits, splice_all (splicer_from_str doc) ops = Ok st /\ valid_utf8 (sp_content st) = true /\
    map fst edits = map fst (laid ops) /\ sp_content st = replaced doc 0 edits.
Proof.
  intros Hv Hp Hio Hb Hf. destruct (loose_run doc ops Hv Hp Hio Hb Hf) as (st & cs & f & E & L).
  exists st, (map (fun e => (fst e, part cs (s_start (fst e)) (s_end (fst e)))) (laid ops)). split; [exact E|].
  split; [|split; [rewrite map_map; reflexivity|]].
  - rewrite (lo_content _ _ _ _ _ L). destruct (lo_utf8 _ _ _ _ _ L 0) as [V1 V2]; [lia|apply compat_0|reflexivity|].
    rewrite <- (firstn_skipn (f 0) (concat cs)), valid_utf8_app; assumption.
  - rewrite (lo_content _ _ _ _ _ L). rewrite <- cells_replaced.
    + rewrite <- (lo_len _ _ _ _ _ L), part_end. reflexivity.
    + apply (lo_len _ _ _ _ _ L).
    + apply laid_in_order; assumption.
    + lia.
    + intros i Hi N. apply (lo_kept _ _ _ _ _ L); [lia|]. intros C. apply N. apply (laid_covers (length doc)); assumption.
Qed.
