(** Selections of parts of a parse result are in order. *)

From Verif Require Import Bytes BytesFacts Ast Splicer SpecSplice SplicerFacts SpecParts.
Local Open Scope nat_scope.

(** In all parts the sub-parts are in order. *)
Definition ordered (x : part) : Prop :=
  forall y, In y (within x) -> in_order (s_start (part_span y)) (s_end (part_span y)) (map part_span (part_sub y)).

Lemma within_self x : In x (within x).
Proof. destruct x. left. reflexivity. Qed.

Lemma within_sub x y z : In y (part_sub x) -> In z (within y) -> In z (within x).
Proof. destruct x as [s c l]. cbn [part_sub within]. intros H1 H2. right. apply in_flat_map. eauto. Qed.

Lemma ordered_sub x y : ordered x -> In y (part_sub x) -> ordered y.
Proof. intros H Hy z Hz. apply H. eapply within_sub; eassumption. Qed.

Lemma in_order_weaken p q len sps : q <= p -> in_order p len sps -> in_order q len sps.
Proof. intros H. destruct sps as [|s sps]; cbn [in_order]; [auto|]. intuition lia. Qed.

Lemma in_order_join p q len a b : p <= q -> q <= len -> in_order p q a -> in_order q len b -> in_order p len (a ++ b).
Proof.
  revert p; induction a as [|s a IH]; intros p H1 H2 Ha Hb; cbn [app].
  - apply (in_order_weaken q); assumption.
  - cbn [in_order] in *. destruct Ha as (A1 & A2 & A3 & A4). repeat split; try lia. apply IH; try assumption; lia.
Qed.

Lemma selection_in_order l sps : selection l sps -> forall p len, Forall ordered l -> in_order p len (map part_span l) ->
  in_order p len sps.
Proof.
  induction 1 as [|x l sps H IH|x l sps H IH|x l s1 s2 H1 IH1 H2 IH2]; intros p len Ho Hl.
  - exact I.
  - cbn [map in_order] in Hl. destruct Hl as (L1 & L2 & L3 & L4). inversion Ho; subst.
    apply (in_order_weaken (s_end (part_span x))); [lia|]. apply IH; assumption.
  - cbn [map in_order] in Hl. destruct Hl as (L1 & L2 & L3 & L4). inversion Ho; subst.
    cbn [in_order]. repeat split; try assumption. apply IH; assumption.
  - cbn [map in_order] in Hl. destruct Hl as (L1 & L2 & L3 & L4). inversion Ho as [|? ? O1 O2]; subst.
    apply (in_order_join _ (s_end (part_span x))); [lia|assumption| |apply IH2; assumption].
    apply (in_order_weaken (s_start (part_span x))); [assumption|]. apply IH1.
    + apply Forall_forall. intros y Hy. eapply ordered_sub; eassumption.
    + apply O1. apply within_self.
Qed.

Lemma selection_in l sps sp : selection l sps -> In sp sps -> exists x y, In x l /\ In y (within x) /\ sp = part_span y.
Proof.
  induction 1 as [|x l sps H IH|x l sps H IH|x l s1 s2 H1 IH1 H2 IH2]; intros Hi.
  - destruct Hi.
  - destruct (IH Hi) as (a & b & K1 & K2 & K3). exists a, b. split; [right; exact K1|]. auto.
  - destruct Hi as [<-|Hi].
    + exists x, x. split; [left; reflexivity|]. split; [apply within_self|reflexivity].
    + destruct (IH Hi) as (a & b & K1 & K2 & K3). exists a, b. split; [right; exact K1|]. auto.
  - apply in_app_or in Hi. destruct Hi as [Hi|Hi].
    + destruct (IH1 Hi) as (a & b & K1 & K2 & K3). exists x, b. split; [left; reflexivity|]. split; [|exact K3].
      eapply within_sub; eassumption.
    + destruct (IH2 Hi) as (a & b & K1 & K2 & K3). exists a, b. split; [right; exact K1|]. auto.
Qed.

Definition laminar (a b : span) : Prop := inside a b \/ inside b a \/ disjoint a b.

Lemma laminar_sym a b : laminar a b -> laminar b a.
Proof. unfold laminar, disjoint. tauto. Qed.

Lemma inside_trans a b c : inside a b -> inside b c -> inside a c.
Proof. unfold inside. lia. Qed.

(** Induction over a part and its sub-parts *)
Lemma part_induction (P : part -> Prop) :
  (forall s c l, (forall x, In x l -> P x) -> P (Part s c l)) -> forall x, P x.
Proof.
  intros H. fix IH 1. intros [s c l]. apply H. induction l as [|y l IHl]; intros x Hx; [destruct Hx|].
  destruct Hx as [<-|Hx]; [apply IH|apply IHl; exact Hx].
Qed.

Lemma within_inside x : ordered x -> forall y, In y (within x) -> inside (part_span y) (part_span x).
Proof.
  induction x as [s c l IH] using part_induction. intros O y Hy. cbn [within] in Hy.
  destruct Hy as [<-|Hy]; [unfold inside; lia|].
  pose proof (O _ (within_self _)) as Ho. cbn [part_span part_sub] in *.
  apply in_flat_map in Hy. destruct Hy as (z & Hz & Hy).
  pose proof (IH z Hz (ordered_sub _ _ O Hz) y Hy) as K.
  destruct (in_order_bounds _ _ _ _ Ho (in_map part_span _ _ Hz)) as (B1 & B2 & B3). unfold inside in *. lia.
Qed.

Lemma list_laminar l p len : (forall x, In x l -> forall y z, In y (within x) -> In z (within x) -> laminar (part_span y) (part_span z)) ->
  Forall ordered l -> in_order p len (map part_span l) ->
  forall y z, In y (flat_map within l) -> In z (flat_map within l) -> laminar (part_span y) (part_span z).
Proof.
  intros H Ho Hl y z Hy Hz. apply in_flat_map in Hy, Hz. destruct Hy as (a & Ha & Hy), Hz as (b & Hb & Hz).
  rewrite Forall_forall in Ho.
  pose proof (within_inside a (Ho a Ha) y Hy) as Ka. pose proof (within_inside b (Ho b Hb) z Hz) as Kb.
  apply In_nth_error in Ha. apply In_nth_error in Hb. destruct Ha as [i Ha], Hb as [j Hb].
  assert (Far : forall l p i j a b, in_order p len (map part_span l) -> i < j -> nth_error l i = Some a -> nth_error l j = Some b ->
    s_end (part_span a) <= s_start (part_span b)).
  { clear. induction l as [|x l IH]; intros p i j a b Hl L Ha Hb; [destruct i; discriminate|].
    cbn [map in_order] in Hl. destruct Hl as (L1 & L2 & L3 & L4). destruct j as [|j]; [lia|]. cbn [nth_error] in Hb.
    destruct i as [|i]; cbn [nth_error] in Ha.
    - injection Ha as <-. apply (in_order_bounds _ _ _ _ L4 (in_map part_span _ _ (nth_error_In _ _ Hb))).
    - eapply IH; [exact L4| |exact Ha|exact Hb]. lia. }
  destruct (lt_eq_lt_dec i j) as [[L|L]|L].
  - right. right. left. pose proof (Far l p i j a b Hl L Ha Hb). unfold inside in *. lia.
  - subst j. rewrite Ha in Hb. injection Hb as <-. apply (H a); try assumption. eapply nth_error_In. exact Ha.
  - right. right. right. pose proof (Far l p j i b a Hl L Hb Ha). unfold inside in *. lia.
Qed.

Lemma within_laminar x : ordered x -> forall y z, In y (within x) -> In z (within x) -> laminar (part_span y) (part_span z).
Proof.
  induction x as [s c l IH] using part_induction. intros O y z Hy Hz. pose proof Hy as Hy'. pose proof Hz as Hz'.
  cbn [within] in Hy, Hz.
  destruct Hy as [<-|Hy]; [right; left; apply within_inside; assumption|].
  destruct Hz as [<-|Hz]; [left; apply within_inside; assumption|].
  pose proof (O _ (within_self _)) as Ho. cbn [part_span part_sub] in *.
  apply (list_laminar l (s_start s) (s_end s)); try assumption.
  - intros x Hx. apply IH; [exact Hx|]. exact (ordered_sub _ _ O Hx).
  - apply Forall_forall. intros x Hx. exact (ordered_sub _ _ O Hx).
Qed.
