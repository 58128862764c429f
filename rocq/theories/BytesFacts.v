(** Lemmas about byte lists and UTF-8. *)

From Verif Require Import Bytes.
Local Open Scope nat_scope.

Lemma beqb_eq a b : beqb a b = true <-> a = b.
Proof.
  revert b; induction a as [|x a IH]; destruct b as [|y b]; cbn [beqb]; split; intros H; try congruence.
  - apply andb_true_iff in H. destruct H as [H1 H2]. apply N.eqb_eq in H1. apply IH in H2. congruence.
  - injection H as -> ->. rewrite N.eqb_refl. apply IH. reflexivity.
Qed.

Lemma beqb_refl a : beqb a a = true.
Proof. apply beqb_eq; reflexivity. Qed.

Lemma beqb_neq a b : beqb a b = false <-> a <> b.
Proof.
  split; intros H.
  - intros ->. rewrite beqb_refl in H. discriminate.
  - destruct (beqb a b) eqn:E; [apply beqb_eq in E; contradiction | reflexivity].
Qed.

Lemma bytes_eq_dec (a b : bytes) : {a = b} + {a <> b}.
Proof. apply list_eq_dec, N.eq_dec. Qed.

(** ** firstn, skipn, slice *)

Lemma firstn_app_exact {A} (a b : list A) : firstn (length a) (a ++ b) = a.
Proof. rewrite firstn_app, Nat.sub_diag, firstn_all. cbn [firstn]. apply app_nil_r. Qed.

Lemma skipn_app_exact {A} (a b : list A) : skipn (length a) (a ++ b) = b.
Proof. rewrite skipn_app, Nat.sub_diag, skipn_all. reflexivity. Qed.

Lemma skipn_skipn {A} (i j : nat) (l : list A) : skipn i (skipn j l) = skipn (j + i) l.
Proof.
  revert l; induction j as [|j IH]; intros l; cbn [Nat.add]; [reflexivity|].
  destruct l as [|x l]; [rewrite !skipn_nil; reflexivity|]. cbn [skipn]. apply IH.
Qed.

Lemma firstn_skipn_app {A} (i j : nat) (l : list A) :
  i <= j -> firstn j l = firstn i l ++ firstn (j - i) (skipn i l).
Proof.
  revert j l; induction i as [|i IH]; intros j l H.
  - rewrite Nat.sub_0_r. reflexivity.
  - destruct j as [|j]; [lia|]. destruct l as [|x l]; [rewrite skipn_nil, !firstn_nil; reflexivity|].
    cbn [firstn skipn Nat.sub app]. f_equal. apply IH. lia.
Qed.

Lemma slice_full (s : bytes) : slice s 0 (length s) = s.
Proof. unfold slice. rewrite Nat.sub_0_r. cbn [skipn]. apply firstn_all. Qed.

Lemma slice_app (u w v : bytes) : slice (u ++ w ++ v) (length u) (length u + length w) = w.
Proof.
  unfold slice. rewrite skipn_app_exact.
  replace (length u + length w - length u) with (length w) by lia.
  apply firstn_app_exact.
Qed.

Lemma slice_length (s : bytes) a b : a <= b -> b <= length s -> length (slice s a b) = b - a.
Proof. intros H1 H2. unfold slice. rewrite firstn_length, skipn_length. lia. Qed.

Lemma slice_split (s : bytes) a b c : a <= b -> b <= c -> slice s a c = slice s a b ++ slice s b c.
Proof.
  intros H1 H2. unfold slice.
  rewrite (firstn_skipn_app (b - a) (c - a) (skipn a s)) by lia.
  rewrite skipn_skipn. do 2 f_equal; [lia|]. f_equal. lia.
Qed.

Lemma slice_slice (s : bytes) a b i j :
  a <= b -> i <= j -> j <= b - a -> slice (slice s a b) i j = slice s (a + i) (a + j).
Proof.
  intros H1 H2 H3. unfold slice.
  rewrite skipn_firstn_comm, skipn_skipn, firstn_firstn. f_equal. lia.
Qed.

Lemma split_around (s : bytes) a b : a <= b -> b <= length s ->
  s = firstn a s ++ slice s a b ++ skipn b s.
Proof.
  intros H1 H2. unfold slice.
  rewrite <- (firstn_skipn a s) at 1. f_equal.
  rewrite <- (firstn_skipn (b - a) (skipn a s)) at 1. f_equal.
  rewrite skipn_skipn. f_equal. lia.
Qed.

Lemma skipn_decompose {A} (s w t : list A) p :
  skipn p s = w ++ t -> p <= length s -> skipn (p + length w) s = t.
Proof. intros H Hp. rewrite <- skipn_skipn, H. apply skipn_app_exact. Qed.

Lemma slice_of_skipn (s w t : bytes) p :
  skipn p s = w ++ t -> slice s p (p + length w) = w.
Proof.
  intros H. unfold slice. rewrite H. replace (p + length w - p) with (length w) by lia.
  apply firstn_app_exact.
Qed.

(** ** UTF-8 *)

Definition ascii_all (s : bytes) : bool := forallb (fun c => (c <? 128)%N) s.

Lemma valid_utf8_cons_ascii a t : (a < 128)%N -> valid_utf8 (a :: t) = valid_utf8 t.
Proof. intros H. cbn [valid_utf8]. apply N.ltb_lt in H. rewrite H. reflexivity. Qed.

Lemma valid_utf8_ascii_app s t : ascii_all s = true -> valid_utf8 (s ++ t) = valid_utf8 t.
Proof.
  induction s as [|a s IH]; intros H; [reflexivity|].
  cbn [ascii_all forallb] in H. apply andb_true_iff in H. destruct H as [H1 H2].
  apply N.ltb_lt in H1. cbn [app]. rewrite valid_utf8_cons_ascii by assumption. apply IH. exact H2.
Qed.

Lemma in_range_spec lo hi c : in_range lo hi c = true <-> (lo <= c <= hi)%N.
Proof. unfold in_range. rewrite andb_true_iff, !N.leb_le. tauto. Qed.

(** A valid text is empty, or a character of its first byte's width followed by a
    valid text. *)
Inductive utf8_char : bytes -> Prop :=
| utf8_1 a : (a < 128)%N -> utf8_char [a]
| utf8_2 a b : (194 <= a <= 223)%N -> is_cont b = true -> utf8_char [a; b]
| utf8_3 a b c : (224 <= a <= 239)%N -> is_cont b = true -> is_cont c = true ->
    (a = 224 -> 160 <= b)%N -> (a = 237 -> b <= 159)%N -> utf8_char [a; b; c]
| utf8_4 a b c d : (240 <= a <= 244)%N -> is_cont b = true -> is_cont c = true -> is_cont d = true ->
    (a = 240 -> 144 <= b)%N -> (a = 244 -> b <= 143)%N -> utf8_char [a; b; c; d].

Ltac bool_hyps :=
  repeat match goal with
  | H : (_ && _)%bool = true |- _ => apply andb_true_iff in H; destruct H
  | H : (_ || _)%bool = true |- _ => apply orb_true_iff in H
  | H : (_ || _)%bool = false |- _ => apply orb_false_iff in H; destruct H
  | H : (_ <? _)%N = true |- _ => apply N.ltb_lt in H
  | H : (_ <? _)%N = false |- _ => apply N.ltb_ge in H
  | H : (_ =? _)%N = true |- _ => apply N.eqb_eq in H
  | H : (_ =? _)%N = false |- _ => apply N.eqb_neq in H
  | H : in_range _ _ _ = true |- _ => apply in_range_spec in H
  | H : (_ <? _)%nat = true |- _ => apply Nat.ltb_lt in H
  | H : (_ <? _)%nat = false |- _ => apply Nat.ltb_ge in H
  | H : (_ =? _)%nat = true |- _ => apply Nat.eqb_eq in H
  | H : (_ =? _)%nat = false |- _ => apply Nat.eqb_neq in H
  | H : (_ <=? _)%nat = true |- _ => apply Nat.leb_le in H
  | H : (_ <=? _)%nat = false |- _ => apply Nat.leb_gt in H
  | H : negb _ = true |- _ => apply negb_true_iff in H
  | H : negb _ = false |- _ => apply negb_false_iff in H
  end.

Lemma is_cont_range c : is_cont c = true <-> (128 <= c <= 191)%N.
Proof. apply in_range_spec. Qed.

Lemma valid_utf8_cases s : valid_utf8 s = true ->
  s = [] \/ exists ch t, s = ch ++ t /\ utf8_char ch /\ valid_utf8 t = true.
Proof.
  destruct s as [|a t]; [auto|]. intros H. right. cbn [valid_utf8] in H.
  destruct (a <? 128)%N eqn:E1.
  { bool_hyps. exists [a], t. split; [reflexivity|]. split; [constructor; assumption | assumption]. }
  destruct t as [|b t1]; [discriminate|].
  destruct (in_range 194 223 a) eqn:E2.
  { bool_hyps. exists [a; b], t1. split; [reflexivity|]. split; [constructor; assumption | assumption]. }
  destruct t1 as [|c t2]; [discriminate|].
  destruct (a =? 224)%N eqn:E3.
  { bool_hyps. exists [a; b; c], t2. split; [reflexivity|]. split; [|assumption].
    constructor; try apply is_cont_range; try lia. apply is_cont_range. assumption. }
  destruct (in_range 225 236 a || in_range 238 239 a)%bool eqn:E4.
  { bool_hyps. exists [a; b; c], t2. split; [reflexivity|]. split; [|assumption].
    destruct E4 as [E4|E4]; bool_hyps; constructor; try assumption; lia. }
  destruct (a =? 237)%N eqn:E5.
  { bool_hyps. exists [a; b; c], t2. split; [reflexivity|]. split; [|assumption].
    constructor; try assumption; try lia; try (apply is_cont_range; lia). }
  destruct t2 as [|d t3]; [discriminate|].
  exists [a; b; c; d], t3. split; [reflexivity|].
  destruct (a =? 240)%N eqn:E6.
  { bool_hyps. split; [|assumption]. constructor; try assumption; try lia; try (apply is_cont_range; lia). }
  destruct (in_range 241 243 a) eqn:E7.
  { bool_hyps. split; [|assumption]. constructor; try assumption; try lia. }
  destruct (a =? 244)%N eqn:E8; [|discriminate].
  bool_hyps. split; [|assumption]. constructor; try assumption; try lia; try (apply is_cont_range; lia).
Qed.

Lemma ltb_false_ge (a b : N) : (b <= a)%N -> (a <? b)%N = false.
Proof. apply N.ltb_ge. Qed.

Lemma in_range_false lo hi c : (c < lo \/ hi < c)%N -> in_range lo hi c = false.
Proof.
  intros H. destruct (in_range lo hi c) eqn:E; [|reflexivity].
  apply in_range_spec in E. lia.
Qed.

Lemma valid_utf8_char_app ch t : utf8_char ch -> valid_utf8 (ch ++ t) = valid_utf8 t.
Proof.
  intros H. destruct H as [a Ha | a b Ha Hb | a b c Ha Hb Hc H1 H2 | a b c d Ha Hb Hc Hd H1 H2];
    cbn [app valid_utf8].
  - apply N.ltb_lt in Ha. rewrite Ha. reflexivity.
  - rewrite ltb_false_ge by lia. rewrite (proj2 (in_range_spec 194 223 a)) by lia. rewrite Hb. reflexivity.
  - rewrite ltb_false_ge by lia. rewrite (in_range_false 194 223) by lia.
    apply is_cont_range in Hb as Hb'. rewrite Hc.
    destruct (a =? 224)%N eqn:E3.
    { bool_hyps. rewrite (proj2 (in_range_spec 160 191 b)) by lia. reflexivity. }
    destruct (in_range 225 236 a || in_range 238 239 a)%bool eqn:E4; [rewrite Hb; reflexivity|].
    destruct (a =? 237)%N eqn:E5.
    { bool_hyps. rewrite (proj2 (in_range_spec 128 159 b)) by lia. reflexivity. }
    exfalso. apply orb_false_iff in E4. destruct E4 as [E4 E4'].
    bool_hyps.
    assert (~ (225 <= a <= 236)%N) by (rewrite <- in_range_spec; congruence).
    assert (~ (238 <= a <= 239)%N) by (rewrite <- in_range_spec; congruence). lia.
  - rewrite ltb_false_ge by lia. rewrite (in_range_false 194 223) by lia.
    destruct (a =? 224)%N eqn:E3; [bool_hyps; lia|].
    rewrite (in_range_false 225 236) by lia. rewrite (in_range_false 238 239) by lia. cbn [orb].
    destruct (a =? 237)%N eqn:E5; [bool_hyps; lia|].
    apply is_cont_range in Hb as Hb'. rewrite Hc, Hd.
    destruct (a =? 240)%N eqn:E6.
    { bool_hyps. rewrite (proj2 (in_range_spec 144 191 b)) by lia. reflexivity. }
    destruct (in_range 241 243 a) eqn:E7; [rewrite Hb; reflexivity|].
    destruct (a =? 244)%N eqn:E8.
    { bool_hyps. rewrite (proj2 (in_range_spec 128 143 b)) by lia. reflexivity. }
    exfalso. bool_hyps.
    assert (~ (241 <= a <= 243)%N) by (rewrite <- in_range_spec; congruence). lia.
Qed.

Lemma utf8_char_width ch a : utf8_char ch -> hd_error ch = Some a -> utf8_width a = length ch.
Proof.
  intros H E. unfold utf8_width.
  destruct H; cbn [hd_error] in E; injection E as <-; cbn [length].
  - apply N.ltb_lt in H. rewrite H. reflexivity.
  - rewrite ltb_false_ge by lia. rewrite (proj2 (N.ltb_lt _ _)) by lia. reflexivity.
  - rewrite !ltb_false_ge by lia. rewrite (proj2 (N.ltb_lt _ _)) by lia. reflexivity.
  - rewrite !ltb_false_ge by lia. reflexivity.
Qed.

Lemma utf8_char_nonempty ch : utf8_char ch -> exists a t, ch = a :: t /\ is_cont a = false.
Proof.
  intros H. destruct H; eexists; eexists; (split; [reflexivity|]);
    unfold is_cont; apply in_range_false; lia.
Qed.

(** Induction on the characters of a valid text. *)
Lemma valid_utf8_ind (P : bytes -> Prop) :
  P [] -> (forall ch t, utf8_char ch -> valid_utf8 t = true -> P t -> P (ch ++ t)) ->
  forall s, valid_utf8 s = true -> P s.
Proof.
  intros H0 HS s. remember (length s) as n eqn:En. revert s En.
  induction n as [n IH] using lt_wf_ind. intros s En H.
  destruct (valid_utf8_cases s H) as [->|(ch & t & -> & Hch & Ht)]; [exact H0|].
  apply HS; [assumption|assumption|]. apply (IH (length t)); [|reflexivity|assumption].
  subst n. rewrite app_length. destruct (utf8_char_nonempty ch Hch) as (a & u & -> & _). cbn [length]. lia.
Qed.

Lemma valid_utf8_app a b : valid_utf8 a = true -> valid_utf8 (a ++ b) = valid_utf8 b.
Proof.
  revert a. apply valid_utf8_ind; [reflexivity|]. intros ch t Hch Ht IH.
  rewrite <- app_assoc, valid_utf8_char_app by assumption. exact IH.
Qed.

Lemma utf8_char_app_inv ch b x t : utf8_char ch -> ch ++ t = b ++ x ->
  (exists b', b = ch ++ b' /\ t = b' ++ x) \/ b = [] \/
  (exists c x', x = c :: x' /\ is_cont c = true /\ b <> []).
Proof.
  intros H E.
  destruct b as [|b0 b]; [right; left; reflexivity|].
  destruct H as [a Ha | a b' Ha Hb | a b' c Ha Hb Hc H1 H2 | a b' c d Ha Hb Hc Hd H1 H2];
  cbn [app] in E; injection E as <- E.
  - left. exists b. split; [reflexivity|assumption].
  - destruct b as [|b1 b]; cbn [app] in E.
    + right; right. exists b', t. repeat split; [congruence|assumption|congruence].
    + injection E as <- E. left. exists b. split; [reflexivity|assumption].
  - destruct b as [|b1 b]; cbn [app] in E.
    + right; right. exists b', (c :: t). repeat split; [congruence|assumption|congruence].
    + injection E as <- E. destruct b as [|b2 b]; cbn [app] in E.
      * right; right. exists c, t. repeat split; [congruence|assumption|congruence].
      * injection E as <- E. left. exists b. split; [reflexivity|assumption].
  - destruct b as [|b1 b]; cbn [app] in E.
    + right; right. exists b', (c :: d :: t). repeat split; [congruence|assumption|congruence].
    + injection E as <- E. destruct b as [|b2 b]; cbn [app] in E.
      * right; right. exists c, (d :: t). repeat split; [congruence|assumption|congruence].
      * injection E as <- E. destruct b as [|b3 b]; cbn [app] in E.
        -- right; right. exists d, t. repeat split; [congruence|assumption|congruence].
        -- injection E as <- E. left. exists b. split; [reflexivity|assumption].
Qed.

(** If a valid text is cut where the rest does not begin with a continuation byte,
    both parts are valid. *)
Lemma valid_utf8_cut s : valid_utf8 s = true -> forall a b, s = a ++ b ->
  (match b with [] => True | c :: _ => is_cont c = false end) ->
  valid_utf8 a = true /\ valid_utf8 b = true.
Proof.
  revert s. apply (valid_utf8_ind (fun s => forall a b, s = a ++ b ->
    (match b with [] => True | c :: _ => is_cont c = false end) ->
    valid_utf8 a = true /\ valid_utf8 b = true));
    [intros a b E Hb | intros ch t Hch Ht IH a b E Hb].
  - symmetry in E. apply app_eq_nil in E. destruct E as [-> ->]. split; reflexivity.
  - destruct (utf8_char_app_inv ch a b t Hch E) as [(a' & -> & ->)|[->|(c & x' & -> & Hc & _)]].
    + destruct (IH a' b eq_refl Hb) as [I1 I2]. split; [|assumption].
      rewrite valid_utf8_char_app by assumption. exact I1.
    + cbn [app] in E. subst b. split; [reflexivity|]. rewrite valid_utf8_char_app by assumption. exact Ht.
    + congruence.
Qed.

Lemma valid_utf8_head s : valid_utf8 s = true ->
  match s with [] => True | c :: _ => is_cont c = false end.
Proof.
  intros H. destruct (valid_utf8_cases s H) as [->|(ch & t & -> & Hch & _)]; [exact I|].
  destruct (utf8_char_nonempty ch Hch) as (a & u & -> & Ha). exact Ha.
Qed.

Lemma valid_utf8_app_l a b : valid_utf8 (a ++ b) = true -> valid_utf8 b = true -> valid_utf8 a = true.
Proof.
  intros H Hb. apply (valid_utf8_cut (a ++ b) H a b eq_refl). apply valid_utf8_head. exact Hb.
Qed.

Lemma is_boundary_spec s i : i <= length s ->
  is_boundary s i = true <->
  (i = 0 \/ match skipn i s with [] => True | c :: _ => is_cont c = false end).
Proof.
  intros Hi. destruct i as [|i]; [cbn; tauto|].
  unfold is_boundary.
  assert (E : nth_error s (S i) = hd_error (skipn (S i) s)).
  { clear Hi. generalize (S i) as k. intros k. revert s. induction k as [|k IH]; intros [|x s]; cbn [skipn nth_error hd_error]; try reflexivity.
    apply IH. }
  rewrite E. destruct (skipn (S i) s) as [|c t] eqn:Es; cbn [hd_error].
  - split; [auto|]. intros _. apply Nat.eqb_eq.
    assert (L : length (skipn (S i) s) = 0) by (rewrite Es; reflexivity).
    rewrite skipn_length in L. lia.
  - rewrite negb_true_iff. split; [auto|]. intros [H|H]; [lia|assumption].
Qed.

(** At a boundary a valid text falls into two valid texts, and conversely. *)
Lemma valid_boundary s i : valid_utf8 s = true -> i <= length s ->
  is_boundary s i = true <-> (valid_utf8 (firstn i s) = true /\ valid_utf8 (skipn i s) = true).
Proof.
  intros H Hi. rewrite is_boundary_spec by assumption. split.
  - intros [->|Hc]; [split; [reflexivity|exact H]|].
    apply (valid_utf8_cut s H); [symmetry; apply firstn_skipn | exact Hc].
  - intros [_ H2]. right. apply valid_utf8_head. exact H2.
Qed.

Lemma boundary_of_app a b : valid_utf8 b = true -> is_boundary (a ++ b) (length a) = true.
Proof.
  intros H. apply is_boundary_spec; [rewrite app_length; lia|]. right.
  rewrite skipn_app_exact. apply valid_utf8_head. exact H.
Qed.

(** A slice of a valid text between two boundaries is valid. *)
Lemma valid_slice s a b : valid_utf8 s = true -> a <= b -> b <= length s ->
  is_boundary s a = true -> is_boundary s b = true -> valid_utf8 (slice s a b) = true.
Proof.
  intros H Hab Hb Ba Bb.
  apply valid_boundary in Ba; [|assumption|lia]. apply valid_boundary in Bb; [|assumption|lia].
  apply (valid_utf8_app_l _ (skipn b s)); [|apply Bb].
  replace (slice s a b ++ skipn b s) with (skipn a s); [apply Ba|].
  unfold slice. rewrite <- (firstn_skipn (b - a) (skipn a s)) at 1. f_equal.
  rewrite skipn_skipn. f_equal. lia.
Qed.
