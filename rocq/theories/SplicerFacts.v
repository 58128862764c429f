(** Splicing: proofs.  The document is seen as one cell of text per byte of the
    original; a splice of [a,b) puts the new text in cell a and empties the others. *)

From Coq Require Import Permutation.
From Verif Require Import Bytes BytesFacts Result Ast Peg Splicer SpecSplice.
Local Open Scope nat_scope.

Notation cell_list := (list bytes) (only parsing).
Definition cells0 (doc : bytes) : cell_list := map (fun c => [c]) doc.
Definition put (cs : cell_list) (op : edit) : cell_list :=
  let '(Span a b, r) := op in
  firstn a cs ++ (r :: repeat [] (b - a - 1)) ++ skipn b cs.

(** Bytes in the first [x] cells *)
Definition pos (cs : cell_list) (x : nat) : nat := length (concat (firstn x cs)).
(** Text of the cells from x to y *)
Definition part (cs : cell_list) (x y : nat) : bytes := concat (firstn (y - x) (skipn x cs)).

Lemma concat_cells0 doc : concat (cells0 doc) = doc.
Proof. induction doc as [|c doc IH]; [reflexivity|]. cbn. f_equal. exact IH. Qed.

Lemma length_cells0 doc : length (cells0 doc) = length doc.
Proof. apply map_length. Qed.

Lemma firstn_cells0 x doc : firstn x (cells0 doc) = cells0 (firstn x doc).
Proof. apply firstn_map. Qed.
Lemma skipn_cells0 x doc : skipn x (cells0 doc) = cells0 (skipn x doc).
Proof. apply skipn_map. Qed.

Lemma pos_cells0 doc x : x <= length doc -> pos (cells0 doc) x = x.
Proof. intros H. unfold pos. rewrite firstn_cells0, concat_cells0, firstn_length. lia. Qed.

Lemma part_cells0 doc x y : part (cells0 doc) x y = slice doc x y.
Proof. unfold part, slice. rewrite skipn_cells0, firstn_cells0, concat_cells0. reflexivity. Qed.

Lemma concat_repeat_nil {A} n : concat (repeat (@nil A) n) = [].
Proof. induction n; [reflexivity|exact IHn]. Qed.

Lemma length_put cs a b r : a < b -> b <= length cs -> length (put cs (Span a b, r)) = length cs.
Proof.
  intros H1 H2. cbn [put]. rewrite !app_length. cbn [length].
  rewrite repeat_length, firstn_length, skipn_length. lia.
Qed.

Lemma concat_put cs a b r :
  concat (put cs (Span a b, r)) = concat (firstn a cs) ++ r ++ concat (skipn b cs).
Proof. cbn [put]. rewrite !concat_app. cbn [concat]. rewrite concat_repeat_nil, app_nil_r. reflexivity. Qed.

Lemma firstn_put_le cs a b r x : a <= length cs -> x <= a -> firstn x (put cs (Span a b, r)) = firstn x cs.
Proof.
  intros Ha H. cbn [put]. rewrite firstn_app, firstn_firstn, firstn_length.
  replace (Nat.min x a) with x by lia. replace (x - Nat.min a (length cs)) with 0 by lia.
  cbn [firstn]. apply app_nil_r.
Qed.

Lemma firstn_put_ge cs a b r x : a < b -> b <= length cs -> b <= x ->
  firstn x (put cs (Span a b, r)) =
  firstn a cs ++ (r :: repeat [] (b - a - 1)) ++ firstn (x - b) (skipn b cs).
Proof.
  intros H1 H2 H3. cbn [put].
  rewrite firstn_app, firstn_firstn, firstn_length.
  replace (Nat.min x a) with a by lia. replace (Nat.min a (length cs)) with a by lia. f_equal.
  rewrite firstn_app. cbn [length]. rewrite repeat_length. f_equal.
  - apply firstn_all2. cbn [length]. rewrite repeat_length. lia.
  - f_equal. lia.
Qed.

Lemma skipn_put_ge cs a b r x : a < b -> b <= length cs -> b <= x ->
  skipn x (put cs (Span a b, r)) = skipn x cs.
Proof.
  intros H1 H2 H3. cbn [put].
  rewrite skipn_app, firstn_length, skipn_all2 by (rewrite firstn_length; lia). rewrite app_nil_l.
  rewrite skipn_app. cbn [length]. rewrite repeat_length.
  rewrite skipn_all2 by (cbn [length]; rewrite repeat_length; lia). rewrite app_nil_l.
  rewrite skipn_skipn. f_equal. lia.
Qed.

Lemma pos_put_le cs a b r x : a <= length cs -> x <= a -> pos (put cs (Span a b, r)) x = pos cs x.
Proof. intros Ha H. unfold pos. rewrite firstn_put_le by assumption. reflexivity. Qed.

Lemma pos_mono cs x y : x <= y -> pos cs x <= pos cs y.
Proof.
  intros H. unfold pos. rewrite (firstn_skipn_app x y cs H), concat_app, app_length. lia.
Qed.

Lemma pos_diff cs x y : x <= y -> pos cs y = pos cs x + length (part cs x y).
Proof.
  intros H. unfold pos, part. rewrite (firstn_skipn_app x y cs H), concat_app, app_length. reflexivity.
Qed.

Lemma pos_put_ge cs a b r x : a < b -> b <= length cs -> b <= x ->
  pos (put cs (Span a b, r)) x + (pos cs b - pos cs a) = pos cs x + length r.
Proof.
  intros H1 H2 H3. unfold pos at 1. rewrite firstn_put_ge by assumption.
  rewrite !concat_app. cbn [concat]. rewrite concat_repeat_nil, app_nil_r, !app_length.
  fold (pos cs a). rewrite (pos_diff cs b x H3). unfold part.
  pose proof (pos_mono cs a b). lia.
Qed.

Lemma pos_all cs x : length cs <= x -> pos cs x = length (concat cs).
Proof. intros H. unfold pos. rewrite firstn_all2 by assumption. reflexivity. Qed.

Lemma part_put_before cs a b r x y : a < b -> b <= length cs -> y <= a ->
  part (put cs (Span a b, r)) x y = part cs x y.
Proof.
  intros H1 H2 H3. unfold part. rewrite <- !skipn_firstn_comm.
  destruct (le_lt_dec x y) as [Hxy|Hxy].
  - replace (x + (y - x)) with y by lia. rewrite firstn_put_le by lia. reflexivity.
  - replace (x + (y - x)) with x by lia. rewrite !skipn_all2; [reflexivity| |]; rewrite firstn_length; lia.
Qed.

Lemma part_put_after cs a b r x y : a < b -> b <= length cs -> b <= x ->
  part (put cs (Span a b, r)) x y = part cs x y.
Proof. intros H1 H2 H3. unfold part. rewrite skipn_put_ge by lia. reflexivity. Qed.

Lemma part_put_around cs a b r x y : a < b -> b <= length cs -> x <= a -> b <= y ->
  part (put cs (Span a b, r)) x y = part cs x a ++ r ++ part cs b y.
Proof.
  intros H1 H2 H3 H4. unfold part. rewrite <- !skipn_firstn_comm.
  replace (x + (y - x)) with y by lia. replace (x + (a - x)) with a by lia. replace (b + (y - b)) with y by lia.
  rewrite firstn_put_ge by lia.
  rewrite skipn_app. rewrite firstn_length. replace (x - Nat.min a (length cs)) with 0 by lia.
  cbn [skipn app]. rewrite concat_app. cbn [concat]. rewrite concat_app, concat_repeat_nil. cbn [app].
  rewrite !skipn_firstn_comm. reflexivity.
Qed.

(** ** The invariant *)

(** [x] is not strictly inside a span that was spliced *)
Definition compat (ops : list edit) (x : nat) : Prop :=
  forall op, In op ops -> x <= s_start (fst op) \/ s_end (fst op) <= x.

Record inv (doc : bytes) (ops : list edit) (st : splicer) (cs : cell_list) : Prop := {
  inv_len : length cs = length doc;
  inv_content : sp_content st = concat cs;
  inv_size : (Z.of_nat (length (concat cs)) < two63)%Z;
  inv_adjust : forall x y, x <= y -> y <= length doc -> compat ops x -> compat ops y ->
    fold_left adjust_step (sp_offsets st) (Z.of_nat x, Z.of_nat y) =
    (Z.of_nat (pos cs x), Z.of_nat (pos cs y));
  inv_utf8 : forall x y, x <= y -> y <= length doc -> compat ops x -> compat ops y ->
    is_boundary doc x = true -> is_boundary doc y = true -> valid_utf8 (part cs x y) = true
}.

Lemma as_isize_small z : (0 <= z < two63)%Z -> as_isize z = z.
Proof.
  intros H. unfold as_isize, two63, two64 in *. rewrite Z.mod_small by lia. lia.
Qed.
Lemma as_usize_small z : (0 <= z < two63)%Z -> as_usize z = z.
Proof. intros H. unfold as_usize, two63, two64 in *. apply Z.mod_small. lia. Qed.

Lemma inv_start doc : valid_utf8 doc = true -> (Z.of_nat (length doc) < two63)%Z ->
  inv doc [] (splicer_from_str doc) (cells0 doc).
Proof.
  intros Hv Hs. split.
  - apply length_cells0.
  - cbn [splicer_from_str sp_content]. symmetry. apply concat_cells0.
  - rewrite concat_cells0. exact Hs.
  - intros x y Hxy Hy _ _. cbn [splicer_from_str sp_offsets fold_left].
    rewrite !pos_cells0 by lia. reflexivity.
  - intros x y Hxy Hy _ _ Bx By. rewrite part_cells0. apply valid_slice; assumption.
Qed.

Lemma adjusted doc ops st cs a b : inv doc ops st cs ->
  a <= b -> b <= length doc -> compat ops a -> compat ops b ->
  (Z.of_nat (length doc) < two63)%Z ->
  adjust_offsets (Span a b) (sp_offsets st) = Span (pos cs a) (pos cs b).
Proof.
  intros I Hab Hb Ca Cb Hs. unfold adjust_offsets. cbn [s_start s_end].
  rewrite !as_isize_small by lia.
  rewrite (inv_adjust _ _ _ _ I a b) by assumption.
  unfold try_usize.
  rewrite !(proj2 (Z.ltb_ge _ 0)) by lia. rewrite !Nat2Z.id. reflexivity.
Qed.

Lemma part_0 cs x : part cs 0 x = concat (firstn x cs).
Proof. unfold part. rewrite Nat.sub_0_r. reflexivity. Qed.
Lemma part_end cs x : part cs x (length cs) = concat (skipn x cs).
Proof. unfold part. rewrite firstn_all2; [reflexivity|]. rewrite skipn_length. lia. Qed.

Lemma part_app cs x y z : x <= y -> y <= z -> part cs x z = part cs x y ++ part cs y z.
Proof.
  intros H1 H2. unfold part. rewrite (firstn_skipn_app (y - x) (z - x)) by lia.
  rewrite concat_app, skipn_skipn. f_equal. f_equal. f_equal; [lia|]. f_equal. lia.
Qed.

Lemma compat_0 ops : compat ops 0.
Proof. intros op _. left. lia. Qed.

Definition ops_within (len : nat) (ops : list edit) : Prop :=
  forall op, In op ops -> s_end (fst op) <= len.

Lemma compat_end ops len : ops_within len ops -> compat ops len.
Proof. intros H op Hi. right. apply H. exact Hi. Qed.

(** The result of one splice. *)
Lemma splice_content doc ops st cs a b r : inv doc ops st cs -> ops_within (length doc) ops ->
  a < b -> b <= length doc -> compat ops a -> compat ops b ->
  is_boundary doc a = true -> is_boundary doc b = true ->
  (Z.of_nat (length doc) < two63)%Z ->
  splice st (Span a b) r =
  (if (Z.of_nat (length (concat (put cs (Span a b, r)))) <? two63)%Z
   then Ok (Splicer (concat (put cs (Span a b, r)))
       (sp_offsets st ++ [SpliceOffset (pos cs a) (Z.of_nat (length r) - Z.of_nat (pos cs b - pos cs a))]))
   else Panic).
Proof.
  intros I W Hab Hb Ca Cb Ba Bb Hs.
  unfold splice. rewrite (adjusted doc ops st cs) by (try assumption; lia). cbn [s_start s_end].
  pose proof (pos_mono cs a b ltac:(lia)) as Hm.
  rewrite (proj2 (Nat.ltb_ge _ _)) by lia.
  rewrite (inv_content _ _ _ _ I).
  pose proof (inv_len _ _ _ _ I) as HL.
  assert (B0 : is_boundary doc 0 = true) by reflexivity.
  assert (Be : is_boundary doc (length doc) = true).
  { apply is_boundary_spec; [lia|]. right. rewrite skipn_all. exact Logic.I. }
  pose proof (compat_end _ _ W) as Ce.
  (* first split *)
  assert (E1 : concat cs = part cs 0 a ++ part cs a b ++ part cs b (length cs)).
  { rewrite <- !part_app by lia. unfold part. rewrite Nat.sub_0_r. cbn [skipn]. rewrite firstn_all. reflexivity. }
  assert (V1 : valid_utf8 (part cs a b) = true) by (apply (inv_utf8 _ _ _ _ I); try assumption; lia).
  assert (V2 : valid_utf8 (part cs b (length cs)) = true).
  { rewrite HL. apply (inv_utf8 _ _ _ _ I); try assumption; lia. }
  assert (L0 : length (part cs 0 a) = pos cs a) by (rewrite part_0; reflexivity).
  assert (L1 : length (part cs a b) = pos cs b - pos cs a) by (rewrite (pos_diff cs a b) by lia; lia).
  unfold split_at at 1. rewrite E1.
  rewrite (proj2 (Nat.leb_le _ _)) by (rewrite app_length; lia).
  rewrite <- L0. rewrite boundary_of_app by (rewrite valid_utf8_app; assumption).
  cbn [andb bind]. rewrite skipn_app_exact, firstn_app_exact.
  unfold split_at. rewrite L0, <- L1.
  rewrite (proj2 (Nat.leb_le _ _)) by (rewrite app_length; lia).
  rewrite boundary_of_app by assumption. cbn [andb bind].
  rewrite skipn_app_exact. rewrite L1, <- L0, L0.
  rewrite concat_put, <- part_end, <- part_0.
  unfold new_string. destruct (_ <? two63)%Z; reflexivity.
Qed.

Lemma inv_splice doc ops st cs a b r : inv doc ops st cs -> ops_within (length doc) ops ->
  a < b -> b <= length doc -> compat ops a -> compat ops b ->
  (Z.of_nat (length doc) < two63)%Z ->
  valid_utf8 r = true ->
  (part cs a b <> [] \/ r = []) ->
  is_boundary doc a = true -> is_boundary doc b = true ->
  (Z.of_nat (length (concat (put cs (Span a b, r)))) < two63)%Z ->
  exists st', splice st (Span a b) r = Ok st' /\
    inv doc (ops ++ [(Span a b, r)]) st' (put cs (Span a b, r)).
Proof.
  intros I W Hab Hb Ca Cb Hs Vr Hne Ba Bb Hn.
  eexists. split.
  { rewrite (splice_content doc ops st cs) by assumption.
    rewrite (proj2 (Z.ltb_lt _ _)) by assumption. reflexivity. }
  pose proof (inv_len _ _ _ _ I) as HL.
  assert (Cc : forall x, compat (ops ++ [(Span a b, r)]) x -> compat ops x /\ (x <= a \/ b <= x)).
  { intros x C. split; [intros op Hi; apply C; apply in_or_app; left; exact Hi|].
    apply (C (Span a b, r)). apply in_or_app. right. left. reflexivity. }
  split; cbn [sp_content sp_offsets].
  - rewrite length_put by lia. exact HL.
  - reflexivity.
  - exact Hn.
  - intros x y Hxy Hy Cx Cy. apply Cc in Cx. apply Cc in Cy. destruct Cx as [Cx Dx], Cy as [Cy Dy].
    rewrite fold_left_app. rewrite (inv_adjust _ _ _ _ I x y) by assumption.
    cbn [fold_left adjust_step so_position so_offset].
    set (cs' := put cs (Span a b, r)) in *.
    assert (Sz : forall z, (0 <= Z.of_nat (pos cs z) < two63)%Z).
    { intros z. pose proof (inv_size _ _ _ _ I).
      assert (pos cs z <= length (concat cs)); [|lia].
      destruct (le_lt_dec z (length cs)) as [H0|H0].
      - rewrite <- (pos_all cs (length cs)) by lia. apply pos_mono. lia.
      - rewrite pos_all by lia. lia. }
    assert (Sz' : forall z, (0 <= Z.of_nat (pos cs' z) < two63)%Z).
    { intros z. assert (pos cs' z <= length (concat cs')); [|lia].
      destruct (le_lt_dec z (length cs')) as [H0|H0].
      - rewrite <- (pos_all cs' (length cs')) by lia. apply pos_mono. lia.
      - rewrite pos_all by lia. lia. }
    rewrite !as_usize_small by apply Sz.
    assert (Lo : forall z, z <= a -> pos cs' z = pos cs z) by (intros z Hz; apply pos_put_le; lia).
    assert (Hi : forall z, b <= z -> pos cs' z + (pos cs b - pos cs a) = pos cs z + length r)
      by (intros z Hz; apply pos_put_ge; lia).
    pose proof (pos_mono cs a b ltac:(lia)) as Mab.
    assert (Mlo : forall z, z <= a -> pos cs z <= pos cs a) by (intros z Hz; apply pos_mono; lia).
    assert (Mhi : forall z, b <= z -> pos cs b <= pos cs z) by (intros z Hz; apply pos_mono; lia).
    assert (Hadd : forall z, b <= z ->
      (Z.of_nat (pos cs z) + (Z.of_nat (length r) - Z.of_nat (pos cs b - pos cs a)))%Z = Z.of_nat (pos cs' z)).
    { intros z Hz. specialize (Hi z Hz). lia. }
    assert (Hpart : pos cs a < pos cs b \/ (pos cs a = pos cs b /\ length r = 0)).
    { pose proof (pos_diff cs a b ltac:(lia)) as Pd. destruct Hne as [Hne| ->].
      - left. destruct (part cs a b) as [|? ?]; [contradiction|]. cbn [length] in Pd. lia.
      - cbn [length]. destruct (Nat.eq_dec (pos cs a) (pos cs b)); lia. }
    destruct Dx as [Dx|Dx], Dy as [Dy|Dy].
    + rewrite !(proj2 (Z.ltb_ge _ _)) by (pose proof (Mlo x Dx); pose proof (Mlo y Dy); lia).
      rewrite !Lo by assumption. reflexivity.
    + rewrite (proj2 (Z.ltb_ge _ (Z.of_nat (pos cs x)))) by (pose proof (Mlo x Dx); lia).
      rewrite (Lo x Dx).
      destruct (Z.of_nat (pos cs a) <? Z.of_nat (pos cs y))%Z eqn:E.
      * rewrite Hadd by assumption. rewrite as_isize_small by apply Sz'. reflexivity.
      * apply Z.ltb_ge in E. pose proof (Mhi y Dy). f_equal. specialize (Hi y Dy). lia.
    + lia.
    + destruct (Z.of_nat (pos cs a) <? Z.of_nat (pos cs x))%Z eqn:E.
      * rewrite !Hadd by assumption. rewrite !as_isize_small by apply Sz'. reflexivity.
      * apply Z.ltb_ge in E. pose proof (Mhi x Dx).
        destruct (Z.of_nat (pos cs a) <? Z.of_nat (pos cs y))%Z eqn:E'.
        -- rewrite Hadd by assumption. rewrite as_isize_small by apply Sz'. f_equal.
           specialize (Hi x Dx). lia.
        -- apply Z.ltb_ge in E'. pose proof (Mhi y Dy). pose proof (Hi x Dx). pose proof (Hi y Dy). f_equal; lia.
  - intros x y Hxy Hy Cx Cy Bx By. apply Cc in Cx. apply Cc in Cy. destruct Cx as [Cx Dx], Cy as [Cy Dy].
    destruct Dx as [Dx|Dx], Dy as [Dy|Dy].
    + rewrite part_put_before by lia. apply (inv_utf8 _ _ _ _ I); assumption.
    + rewrite part_put_around by lia.
      rewrite valid_utf8_app by (apply (inv_utf8 _ _ _ _ I); try assumption; lia).
      rewrite valid_utf8_app by assumption. apply (inv_utf8 _ _ _ _ I); try assumption; lia.
    + lia.
    + rewrite part_put_after by lia. apply (inv_utf8 _ _ _ _ I); assumption.
Qed.

(** ** Histories *)

Inductive good_history (doc : bytes) : list edit -> Prop :=
| gh_nil : good_history doc []
| gh_snoc ops a b r : good_history doc ops ->
    a < b -> b <= length doc -> compat ops a -> compat ops b ->
    is_boundary doc a = true -> is_boundary doc b = true -> valid_utf8 r = true ->
    (part (fold_left put ops (cells0 doc)) a b <> [] \/ r = []) ->
    good_history doc (ops ++ [(Span a b, r)]).

Lemma good_within doc ops : good_history doc ops -> ops_within (length doc) ops.
Proof.
  intros H. induction H as [|ops a b r H IH Hab Hb]; intros op Hi; [destruct Hi|].
  apply in_app_or in Hi. destruct Hi as [Hi|[<-|[]]]; [apply IH; exact Hi|exact Hb].
Qed.

Lemma text_size_app a b : text_size (a ++ b) = text_size a + text_size b.
Proof. unfold text_size. rewrite map_app, list_sum_app. reflexivity. Qed.

Lemma concat_put_size cs a b r :
  a <= b -> length (concat (put cs (Span a b, r))) <= length (concat cs) + length r.
Proof.
  intros H. rewrite concat_put, !app_length.
  assert (E : length (concat cs) = length (concat (firstn a cs)) + length (concat (firstn (b - a) (skipn a cs)))
                  + length (concat (skipn b cs))).
  { rewrite <- Nat.add_assoc, <- !app_length, <- !concat_app. f_equal. f_equal.
    replace (skipn b cs) with (skipn (b - a) (skipn a cs)) by (rewrite skipn_skipn; f_equal; lia).
    rewrite !firstn_skipn. reflexivity. }
  lia.
Qed.

Lemma for_each_app {S A} (f : S -> A -> outcome S) l1 l2 st :
  for_each f (l1 ++ l2) st = (st' <- for_each f l1 st;; for_each f l2 st').
Proof.
  revert st; induction l1 as [|x l1 IH]; intros st; cbn [app for_each]; [reflexivity|].
  destruct (f st x); cbn [bind]; [apply IH|reflexivity..].
Qed.

Lemma good_run doc ops : valid_utf8 doc = true -> good_history doc ops -> fits doc ops ->
  exists st, splice_all (splicer_from_str doc) ops = Ok st /\
    inv doc ops st (fold_left put ops (cells0 doc)) /\
    length (concat (fold_left put ops (cells0 doc))) <= length doc + text_size ops.
Proof.
  intros Hv H. induction H as [|ops a b r H IH Hab Hb Ca Cb Ba Bb Vr Hne]; intros Hf.
  - exists (splicer_from_str doc). split; [reflexivity|]. split.
    + apply inv_start; [assumption|]. unfold fits, text_size in Hf. cbn in Hf. lia.
    + cbn [fold_left]. rewrite concat_cells0. lia.
  - assert (Hf' : fits doc ops).
    { unfold fits in *. rewrite text_size_app in Hf. lia. }
    destruct (IH Hf') as (st & E & I & Sz).
    assert (Ez : text_size [(Span a b, r)] = length r) by (unfold text_size; cbn; lia).
    assert (Sz' : length (concat (put (fold_left put ops (cells0 doc)) (Span a b, r)))
                  <= length doc + text_size (ops ++ [(Span a b, r)])).
    { pose proof (concat_put_size (fold_left put ops (cells0 doc)) a b r ltac:(lia)).
      rewrite text_size_app, Ez. lia. }
    destruct (inv_splice doc ops st _ a b r I (good_within _ _ H) Hab Hb Ca Cb) as (st' & E' & I').
    + unfold fits in Hf. lia.
    + assumption.
    + assumption.
    + assumption.
    + assumption.
    + unfold fits in Hf. lia.
    + exists st'. split; [|split].
      * unfold splice_all. rewrite for_each_app. fold (splice_all (splicer_from_str doc) ops).
        rewrite E. cbn [bind for_each fst snd]. rewrite E'. reflexivity.
      * rewrite fold_left_app. exact I'.
      * rewrite fold_left_app. exact Sz'.
Qed.

(** One more splice, after which no more follows: its target may be empty. *)
Lemma good_run_last doc ops a b r : valid_utf8 doc = true -> good_history doc ops ->
  a < b -> b <= length doc -> compat ops a -> compat ops b ->
  is_boundary doc a = true -> is_boundary doc b = true -> valid_utf8 r = true ->
  fits doc (ops ++ [(Span a b, r)]) ->
  exists st, splice_all (splicer_from_str doc) (ops ++ [(Span a b, r)]) = Ok st /\
    sp_content st = part (fold_left put ops (cells0 doc)) 0 a ++ r ++
                    part (fold_left put ops (cells0 doc)) b (length doc) /\
    valid_utf8 (sp_content st) = true.
Proof.
  intros Hv H Hab Hb Ca Cb Ba Bb Vr Hf.
  assert (Ez : text_size [(Span a b, r)] = length r) by (unfold text_size; cbn; lia).
  assert (Hf' : fits doc ops).
  { unfold fits in *. rewrite text_size_app in Hf. lia. }
  destruct (good_run doc ops Hv H Hf') as (st & E & I & Sz).
  assert (HL : length (fold_left put ops (cells0 doc)) = length doc) by apply (inv_len _ _ _ _ I).
  assert (Sz' : length (concat (put (fold_left put ops (cells0 doc)) (Span a b, r)))
                <= length doc + text_size (ops ++ [(Span a b, r)])).
  { pose proof (concat_put_size (fold_left put ops (cells0 doc)) a b r ltac:(lia)).
    rewrite text_size_app, Ez. lia. }
  eexists. split.
  { unfold splice_all. rewrite for_each_app. fold (splice_all (splicer_from_str doc) ops).
    rewrite E. cbn [bind for_each fst snd].
    rewrite (splice_content doc ops st (fold_left put ops (cells0 doc)))
      by (try assumption; try apply good_within; try assumption; unfold fits in Hf; lia).
    rewrite (proj2 (Z.ltb_lt _ _)) by (unfold fits in Hf; lia). reflexivity. }
  cbn [sp_content].
  assert (Ec : concat (put (fold_left put ops (cells0 doc)) (Span a b, r)) =
    part (fold_left put ops (cells0 doc)) 0 a ++ r ++ part (fold_left put ops (cells0 doc)) b (length doc)).
  { rewrite concat_put, part_0. rewrite <- HL, part_end. reflexivity. }
  split; [exact Ec|]. rewrite Ec.
  assert (Be : is_boundary doc (length doc) = true).
  { apply is_boundary_spec; [lia|]. right. rewrite skipn_all. exact Logic.I. }
  rewrite valid_utf8_app by (apply (inv_utf8 _ _ _ _ I); try assumption; try lia; try apply compat_0; reflexivity).
  rewrite valid_utf8_app by assumption.
  apply (inv_utf8 _ _ _ _ I); try assumption; try lia. apply compat_end, good_within, H.
Qed.

(** ** Histories on disjoint spans *)

Definition disjoint (s t : span) : Prop := s_end s <= s_start t \/ s_end t <= s_start s.

Lemma in_order_bounds p len sps sp : in_order p len sps -> In sp sps ->
  p <= s_start sp /\ s_start sp < s_end sp /\ s_end sp <= len.
Proof.
  revert p; induction sps as [|s sps IH]; intros p H Hi; [destruct Hi|].
  cbn [in_order] in H. destruct H as (H1 & H2 & H3 & H4).
  destruct Hi as [<-|Hi]; [auto|]. specialize (IH _ H4 Hi). lia.
Qed.

Lemma in_order_disjoint p len sps s t : in_order p len sps -> In s sps -> In t sps -> s = t \/ disjoint s t.
Proof.
  revert p; induction sps as [|x sps IH]; intros p H Hs Ht; [destruct Hs|].
  cbn [in_order] in H. destruct H as (H1 & H2 & H3 & H4). unfold disjoint.
  destruct Hs as [->|Hs], Ht as [->|Ht].
  - left. reflexivity.
  - right. left. apply (in_order_bounds _ _ _ _ H4 Ht).
  - right. right. apply (in_order_bounds _ _ _ _ H4 Hs).
  - apply (IH _ H4 Hs Ht).
Qed.

Lemma last_text_snoc ops sp sp' r :
  last_text (ops ++ [(sp', r)]) sp = if span_eq_dec sp' sp then Some r else last_text ops sp.
Proof.
  induction ops as [|[s x] ops IH]; cbn [app last_text]; [reflexivity|].
  rewrite IH. destruct (span_eq_dec sp' sp); [reflexivity|]. reflexivity.
Qed.

Lemma last_text_none ops sp : ~ In sp (map fst ops) -> last_text ops sp = None.
Proof.
  induction ops as [|[s x] ops IH]; intros H; [reflexivity|]. cbn [last_text].
  rewrite IH by (intros Hi; apply H; right; exact Hi).
  destruct (span_eq_dec s sp) as [->|]; [|reflexivity]. exfalso. apply H. left. reflexivity.
Qed.

Lemma last_text_in ops sp r : last_text ops sp = Some r -> In (sp, r) ops.
Proof.
  induction ops as [|[s x] ops IH]; cbn [last_text]; [discriminate|].
  destruct (last_text ops sp) as [y|] eqn:E.
  - intros H. injection H as ->. right. apply IH. reflexivity.
  - destruct (span_eq_dec s sp) as [->|]; [|discriminate]. intros H. injection H as ->. left. reflexivity.
Qed.

Lemma length_fold_put doc ops : (forall op, In op ops -> s_start (fst op) < s_end (fst op) /\ s_end (fst op) <= length doc) ->
  length (fold_left put ops (cells0 doc)) = length doc.
Proof.
  induction ops as [|[[a b] r] ops IH] using rev_ind; intros H; cbn [fold_left].
  - apply length_cells0.
  - rewrite fold_left_app. cbn [fold_left].
    destruct (H (Span a b, r)) as [H1 H2]; [apply in_or_app; right; left; reflexivity|]. cbn [fst s_start s_end] in *.
    rewrite length_put.
    + apply IH. intros op Hi. apply H. apply in_or_app. left. exact Hi.
    + lia.
    + eapply Nat.le_trans; [exact H2|]. apply Nat.eq_le_incl. symmetry. apply IH.
      intros op Hi. apply H. apply in_or_app. left. exact Hi.
Qed.

(** What stands in the cells from x to y if every splice was outside, or of
    exactly this range. *)
Lemma part_history doc ops x y : x <= y -> y <= length doc ->
  (forall op, In op ops -> s_start (fst op) < s_end (fst op) /\ s_end (fst op) <= length doc /\
     (fst op = Span x y \/ s_end (fst op) <= x \/ y <= s_start (fst op))) ->
  part (fold_left put ops (cells0 doc)) x y =
  match last_text ops (Span x y) with Some r => r | None => slice doc x y end.
Proof.
  intros Hxy Hy. induction ops as [|[[a b] r] ops IH] using rev_ind; intros H.
  - cbn [fold_left last_text]. apply part_cells0.
  - rewrite fold_left_app. cbn [fold_left]. rewrite last_text_snoc.
    assert (H' : forall op, In op ops -> s_start (fst op) < s_end (fst op) /\ s_end (fst op) <= length doc /\
     (fst op = Span x y \/ s_end (fst op) <= x \/ y <= s_start (fst op))).
    { intros op Hi. apply H. apply in_or_app. left. exact Hi. }
    specialize (IH H').
    assert (HL : length (fold_left put ops (cells0 doc)) = length doc).
    { apply length_fold_put. intros op Hi. destruct (H' op Hi) as (K1 & K2 & _). auto. }
    destruct (H (Span a b, r)) as (H1 & H2 & H3); [apply in_or_app; right; left; reflexivity|].
    cbn [fst s_start s_end] in *.
    destruct (span_eq_dec (Span a b) (Span x y)) as [E|E].
    + injection E as -> ->. rewrite part_put_around by lia.
      unfold part. rewrite !Nat.sub_diag. cbn [firstn concat app]. apply app_nil_r.
    + destruct H3 as [H3|[H3|H3]]; [contradiction| |].
      * rewrite part_put_after by lia. exact IH.
      * rewrite part_put_before by lia. exact IH.
Qed.

Lemma history_good doc sps ops p : in_order p (length doc) sps ->
  (forall sp, In sp sps -> on_boundaries doc sp) ->
  (forall op, In op ops -> In (fst op) sps /\ valid_utf8 (snd op) = true) ->
  no_splice_after_delete ops -> good_history doc ops.
Proof.
  intros Ho Hb. induction ops as [|[[a b] r] ops IH] using rev_ind; intros Hin Hd; [constructor|].
  assert (Hin' : forall op, In op ops -> In (fst op) sps /\ valid_utf8 (snd op) = true).
  { intros op Hi. apply Hin. apply in_or_app. left. exact Hi. }
  assert (G : good_history doc ops).
  { apply IH; [assumption|]. intros o1 sp o2 E Hi. apply (Hd o1 sp (o2 ++ [(Span a b, r)])).
    - rewrite E, <- app_assoc. reflexivity.
    - rewrite map_app. apply in_or_app. left. exact Hi. }
  destruct (Hin (Span a b, r)) as [Hs Hv]; [apply in_or_app; right; left; reflexivity|]. cbn [fst snd] in *.
  destruct (in_order_bounds _ _ _ _ Ho Hs) as (_ & Hab & Hbl). cbn [s_start s_end] in *.
  assert (Hc : forall op, In op ops -> fst op = Span a b \/ disjoint (fst op) (Span a b)).
  { intros op Hi. apply (in_order_disjoint _ _ _ _ _ Ho (proj1 (Hin' op Hi)) Hs). }
  destruct (Hb _ Hs) as [B1 B2]. cbn [s_start s_end] in *.
  constructor; try assumption.
  - intros op Hi. destruct (Hc op Hi) as [->|[D|D]]; cbn [s_start s_end] in *; [left; lia|right; lia|].
    destruct (in_order_bounds _ _ _ _ Ho (proj1 (Hin' op Hi))) as (_ & ? & _). left. lia.
  - intros op Hi. destruct (Hc op Hi) as [->|[D|D]]; cbn [s_start s_end] in *; [right; lia| |left; lia].
    right. lia.
  - left. rewrite part_history.
    + destruct (last_text ops (Span a b)) as [r'|] eqn:E.
      * intros ->. apply last_text_in in E. apply in_split in E. destruct E as (o1 & o2 & ->).
        apply (Hd o1 (Span a b) (o2 ++ [(Span a b, r)])).
        -- rewrite <- app_assoc. reflexivity.
        -- rewrite map_app. apply in_or_app. right. left. reflexivity.
      * intros E'. apply (f_equal (@length N)) in E'. rewrite slice_length in E' by lia. cbn [length] in E'. lia.
    + lia.
    + lia.
    + intros op Hi. destruct (in_order_bounds _ _ _ _ Ho (proj1 (Hin' op Hi))) as (_ & ? & ?).
      split; [assumption|]. split; [assumption|].
      destruct (Hc op Hi) as [E|[D|D]]; [left; exact E| right; left; exact D|right; right; exact D].
Qed.

(** All edits start at [p] or later. *)
Definition starts_from (p : nat) (edits : list edit) : Prop :=
  match edits with [] => True | (sp, _) :: _ => p <= s_start sp end.

Lemma replaced_split doc p q edits : p <= q -> q <= length doc -> starts_from q edits ->
  replaced doc p edits = slice doc p q ++ replaced doc q edits.
Proof.
  intros Hpq Hq. destruct edits as [|[[a b] r] edits]; cbn [starts_from replaced s_start s_end]; intros H.
  - unfold slice. replace (skipn q doc) with (skipn (q - p) (skipn p doc)) by (rewrite skipn_skipn; f_equal; lia).
    symmetry. apply firstn_skipn.
  - rewrite (slice_split doc p q a) by lia. rewrite <- app_assoc. reflexivity.
Qed.

Lemma starts_from_last_edits ops p len sps tail : in_order p len sps -> starts_from len tail -> p <= len ->
  starts_from p (last_edits sps ops ++ tail).
Proof.
  revert p; induction sps as [|sp sps IH]; intros p H Ht Hp.
  - cbn [last_edits flat_map app]. destruct tail as [|[sp r] tail]; cbn [starts_from] in *; lia.
  - cbn [in_order] in H. destruct H as (H1 & H2 & H3 & H4).
    unfold last_edits. cbn [flat_map]. destruct (last_text ops sp) as [r|]; cbn [app].
    + cbn [starts_from]. exact H1.
    + specialize (IH _ H4 Ht H3). unfold last_edits in IH.
      destruct (flat_map _ sps ++ tail) as [|[s x] l]; cbn [starts_from] in *; [exact I|lia].
Qed.

Lemma part_replaced doc ops sps p stop tail : p <= stop -> stop <= length doc ->
  in_order p stop sps -> starts_from stop tail ->
  (forall op, In op ops -> s_start (fst op) < s_end (fst op) /\ s_end (fst op) <= length doc /\
     (In (fst op) sps \/ s_end (fst op) <= p \/ stop <= s_start (fst op))) ->
  part (fold_left put ops (cells0 doc)) p stop ++ replaced doc stop tail =
  replaced doc p (last_edits sps ops ++ tail).
Proof.
  revert p; induction sps as [|sp sps IH]; intros p Hp Hstop Ho Ht Hops.
  - cbn [last_edits flat_map app]. rewrite (replaced_split doc p stop tail) by assumption. f_equal.
    rewrite part_history; [|assumption|assumption|].
    + destruct (last_text ops (Span p stop)) as [r|] eqn:E; [|reflexivity].
      apply last_text_in in E. destruct (Hops _ E) as (K1 & K2 & [[]|K3]). cbn [fst s_start s_end] in *. lia.
    + intros op Hi. destruct (Hops op Hi) as (K1 & K2 & [[]|K3]). auto.
  - cbn [in_order] in Ho. destruct Ho as (H1 & H2 & H3 & H4). destruct sp as [a b]. cbn [s_start s_end] in *.
    rewrite (part_app _ p b stop) by lia. rewrite (part_app _ p a b) by lia. rewrite <- !app_assoc.
    assert (Hno : forall op, In op ops -> fst op = Span a b \/ In (fst op) sps \/ s_end (fst op) <= p \/ stop <= s_start (fst op)).
    { intros op Hi. destruct (Hops op Hi) as (K1 & K2 & K3). cbn [In] in K3. intuition congruence. }
    assert (Hbnd : forall sp, In sp sps -> b <= s_start sp /\ s_start sp < s_end sp /\ s_end sp <= stop).
    { intros sp Hi. apply (in_order_bounds _ _ _ _ H4 Hi). }
    rewrite IH; [|assumption|assumption|assumption|assumption|].
    2: { intros op Hi. destruct (Hops op Hi) as (K1 & K2 & _). split; [assumption|]. split; [assumption|].
         destruct (Hno op Hi) as [E|[E|[E|E]]]; [rewrite E; cbn [s_end]; right; left; lia|left; exact E|right; left; lia|right; right; lia]. }
    rewrite part_history; [|assumption|lia|].
    2: { intros op Hi. destruct (Hops op Hi) as (K1 & K2 & _). split; [assumption|]. split; [assumption|].
         destruct (Hno op Hi) as [E|[E|[E|E]]].
         - rewrite E. cbn [s_start s_end]. right. right. lia.
         - right. right. apply Hbnd in E. lia.
         - right. left. lia.
         - right. right. lia. }
    assert (En : last_text ops (Span p a) = None).
    { destruct (last_text ops (Span p a)) as [r|] eqn:E; [|reflexivity]. exfalso.
      apply last_text_in in E. destruct (Hops _ E) as (K1 & K2 & _). destruct (Hno _ E) as [K|[K|[K|K]]]; cbn [fst s_start s_end] in *.
      - injection K as -> ->. lia.
      - apply Hbnd in K. cbn [s_start s_end] in K. lia.
      - lia.
      - lia. }
    rewrite En. rewrite part_history; [|lia|lia|].
    2: { intros op Hi. destruct (Hops op Hi) as (K1 & K2 & _). split; [assumption|]. split; [assumption|].
         destruct (Hno op Hi) as [E|[E|[E|E]]].
         - left. exact E.
         - right. right. apply Hbnd in E. lia.
         - right. left. lia.
         - right. right. lia. }
    unfold last_edits at 2. cbn [flat_map].
    destruct (last_text ops (Span a b)) as [r|] eqn:E.
    + cbn [app replaced s_start s_end]. reflexivity.
    + cbn [app]. fold (last_edits sps ops). rewrite app_assoc, <- slice_split by lia.
      symmetry. apply replaced_split; [lia|lia|]. apply (starts_from_last_edits ops b stop sps tail); assumption.
Qed.

(** ** The theorems *)

Lemma ops_facts (doc : bytes) sps (ops : list edit) p : in_order p (length doc) sps ->
  (forall op, In op ops -> In (fst op) sps /\ valid_utf8 (snd op) = true) ->
  forall op, In op ops -> s_start (fst op) < s_end (fst op) /\ s_end (fst op) <= length doc /\ In (fst op) sps.
Proof.
  intros Ho H op Hi. destruct (H op Hi) as [K _]. destruct (in_order_bounds _ _ _ _ Ho K) as (_ & K1 & K2). auto.
Qed.

Lemma splice_history doc sps ops :
  valid_utf8 doc = true -> in_order 0 (length doc) sps ->
  (forall sp, In sp sps -> on_boundaries doc sp) ->
  (forall op, In op ops -> In (fst op) sps /\ valid_utf8 (snd op) = true) ->
  no_splice_after_delete ops -> fits doc ops ->
  exists st, splice_all (splicer_from_str doc) ops = Ok st /\
    sp_content st = replaced doc 0 (last_edits sps ops) /\
    valid_utf8 (sp_content st) = true.
Proof.
  intros Hv Ho Hb Hin Hd Hf.
  pose proof (history_good doc sps ops 0 Ho Hb Hin Hd) as G.
  destruct (good_run doc ops Hv G Hf) as (st & E & I & _).
  exists st. split; [exact E|].
  assert (Hc : sp_content st = part (fold_left put ops (cells0 doc)) 0 (length doc)).
  { rewrite (inv_content _ _ _ _ I). rewrite <- (inv_len _ _ _ _ I). rewrite part_end. reflexivity. }
  split.
  - rewrite Hc. rewrite <- (app_nil_r (part _ _ _)).
    rewrite <- (app_nil_r (last_edits sps ops)).
    replace (@nil N) with (replaced doc (length doc) []) by (cbn [replaced]; apply skipn_all).
    apply part_replaced; [lia|lia|exact Ho|exact Logic.I|].
    intros op Hi. destruct (ops_facts doc sps ops 0 Ho Hin op Hi) as (K1 & K2 & K3). auto.
  - rewrite Hc. apply (inv_utf8 _ _ _ _ I); try lia.
    + apply compat_0.
    + apply compat_end, good_within, G.
    + reflexivity.
    + apply is_boundary_spec; [lia|]. right. rewrite skipn_all. exact Logic.I.
Qed.

Lemma in_order_app p len a b : in_order p len (a ++ b) ->
  in_order p len a /\ forall sp, In sp b -> forall sp', In sp' a -> s_end sp' <= s_start sp.
Proof.
  revert p; induction a as [|s a IH]; intros p H; cbn [app] in H.
  - split; [exact I|]. intros sp _ sp' [].
  - cbn [in_order] in H. destruct H as (H1 & H2 & H3 & H4). destruct (IH _ H4) as [I1 I2].
    split; [cbn [in_order]; auto|]. intros sp Hi sp' [<-|Hi']; [|apply I2; assumption].
    apply (in_order_bounds _ _ _ _ H4). apply in_or_app. right. exact Hi.
Qed.

Lemma in_order_weaken_stop p len stop a : in_order p len a -> (forall sp, In sp a -> s_end sp <= stop) ->
  in_order p stop a.
Proof.
  revert p; induction a as [|s a IH]; intros p H K; [exact I|].
  cbn [in_order] in *. destruct H as (H1 & H2 & H3 & H4). repeat split; try assumption.
  - apply K. left. reflexivity.
  - apply IH; [assumption|]. intros sp Hi. apply K. right. exact Hi.
Qed.

Lemma in_order_app_r p len a b q : in_order p len (a ++ b) -> (forall sp, In sp b -> q <= s_start sp) -> in_order q len b.
Proof.
  revert p; induction a as [|s a IH]; intros p H K; cbn [app] in H.
  - destruct b as [|x b]; [exact I|]. cbn [in_order] in *. destruct H as (H1 & H2 & H3 & H4).
    repeat split; try assumption. apply K. left. reflexivity.
  - cbn [in_order] in H. destruct H as (H1 & H2 & H3 & H4). apply (IH _ H4 K).
Qed.

Lemma splice_outer doc before inner after outer ops r :
  valid_utf8 doc = true ->
  in_order 0 (length doc) (before ++ inner ++ after) ->
  in_order 0 (length doc) (before ++ outer :: after) ->
  (forall sp, In sp inner -> inside sp outer) ->
  (forall sp, In sp (outer :: before ++ inner ++ after) -> on_boundaries doc sp) ->
  (forall op, In op ops -> In (fst op) (before ++ inner ++ after) /\ valid_utf8 (snd op) = true) ->
  valid_utf8 r = true ->
  no_splice_after_delete ops -> fits doc (ops ++ [(outer, r)]) ->
  exists st, splice_all (splicer_from_str doc) (ops ++ [(outer, r)]) = Ok st /\
    sp_content st = replaced doc 0 (last_edits before ops ++ (outer, r) :: last_edits after ops) /\
    valid_utf8 (sp_content st) = true.
Proof.
  intros Hv Ho Ho2 Hins Hb Hin Vr Hd Hf.
  assert (G : good_history doc ops).
  { apply (history_good doc (before ++ inner ++ after) ops 0 Ho); try assumption.
    intros sp Hi. apply Hb. right. exact Hi. }
  destruct outer as [a b].
  destruct (in_order_app _ _ _ _ Ho2) as [O1 O2].
  assert (Hout : 0 <= a /\ a < b /\ b <= length doc).
  { apply (in_order_bounds _ _ _ (Span a b) Ho2). apply in_or_app. right. left. reflexivity. }
  destruct Hout as (_ & Hab & Hbl).
  assert (Bef : forall sp, In sp before -> s_end sp <= a).
  { intros sp Hi. apply (O2 (Span a b)); [left; reflexivity|exact Hi]. }
  assert (Aft : forall sp, In sp after -> b <= s_start sp).
  { intros sp Hi. assert (O3 : in_order a (length doc) (Span a b :: after)).
    { apply (in_order_app_r 0 _ before); [exact Ho2|].
      intros sp' [<-|Hi']; [cbn [s_start]; lia|].
      apply (in_order_app_r 0 _ before _ 0) in Ho2; [|intros; lia].
      cbn [in_order] in Ho2. destruct Ho2 as (_ & _ & _ & Ho2). destruct (in_order_bounds _ _ _ _ Ho2 Hi') as (K & _). cbn [s_end] in K. lia. }
    cbn [in_order] in O3. destruct O3 as (_ & _ & _ & O3). apply (in_order_bounds _ _ _ _ O3 Hi). }
  assert (Hfacts : forall op, In op ops -> s_start (fst op) < s_end (fst op) /\ s_end (fst op) <= length doc /\
            (In (fst op) before \/ inside (fst op) (Span a b) \/ In (fst op) after)).
  { intros op Hi. destruct (ops_facts doc _ ops 0 Ho Hin op Hi) as (K1 & K2 & K3).
    split; [assumption|]. split; [assumption|].
    apply in_app_or in K3. destruct K3 as [K3|K3]; [auto|]. apply in_app_or in K3. destruct K3 as [K3|K3]; [|auto].
    right. left. apply Hins. exact K3. }
  destruct (Hb (Span a b)) as [Ba Bb]; [left; reflexivity|]. cbn [s_start s_end] in Ba, Bb.
  destruct (good_run_last doc ops a b r Hv G Hab Hbl) as (st & E & Ec & Eu); try assumption.
  - intros op Hi. destruct (Hfacts op Hi) as (K1 & K2 & [K3|[[K3 K4]|K3]]).
    + right. apply Bef. exact K3.
    + cbn [s_start s_end] in *. left. lia.
    + left. apply Aft in K3. lia.
  - intros op Hi. destruct (Hfacts op Hi) as (K1 & K2 & [K3|[[K3 K4]|K3]]).
    + right. apply Bef in K3. lia.
    + cbn [s_start s_end] in *. right. lia.
    + left. apply Aft. exact K3.
  - exists st. split; [exact E|]. split; [|exact Eu]. rewrite Ec.
    rewrite <- (part_replaced doc ops before 0 a ((Span a b, r) :: last_edits after ops)).
    + f_equal. cbn [replaced s_start s_end]. unfold slice at 1. rewrite Nat.sub_diag. cbn [firstn app]. f_equal.
      rewrite <- (app_nil_r (part _ _ _)). rewrite <- (app_nil_r (last_edits after ops)).
      replace (@nil N) with (replaced doc (length doc) []) by (cbn [replaced]; apply skipn_all).
      apply part_replaced; [lia|lia| |exact Logic.I|].
      * apply (in_order_app_r 0 (length doc) (before ++ inner)); [rewrite <- app_assoc; exact Ho|exact Aft].
      * intros op Hi. destruct (Hfacts op Hi) as (K1 & K2 & [K3|[[K3 K4]|K3]]).
        -- split; [assumption|]. split; [assumption|]. right. left. apply Bef in K3. lia.
        -- split; [assumption|]. split; [assumption|]. right. left. exact K4.
        -- auto.
    + lia.
    + lia.
    + apply (in_order_weaken_stop _ (length doc)); [exact O1|exact Bef].
    + cbn [starts_from s_start]. lia.
    + intros op Hi. destruct (Hfacts op Hi) as (K1 & K2 & [K3|[[K3 K4]|K3]]).
      * auto.
      * split; [assumption|]. split; [assumption|]. right. right. exact K3.
      * split; [assumption|]. split; [assumption|]. right. right. apply Aft in K3. lia.
Qed.

(** Disjoint edits in any order. *)
Lemma in_order_nodup p len sps : in_order p len sps -> NoDup sps.
Proof.
  revert p; induction sps as [|s sps IH]; intros p H; [constructor|].
  cbn [in_order] in H. destruct H as (H1 & H2 & H3 & H4). constructor; [|apply (IH _ H4)].
  intros Hi. apply (in_order_bounds _ _ _ _ H4) in Hi. lia.
Qed.

Lemma last_text_nodup ops sp r : NoDup (map fst ops) -> In (sp, r) ops -> last_text ops sp = Some r.
Proof.
  induction ops as [|[s x] ops IH]; intros N Hi; [destruct Hi|].
  cbn [map fst] in N. inversion N as [|? ? N1 N2]; subst. cbn [last_text]. destruct Hi as [E|Hi].
  - injection E as -> ->. rewrite last_text_none by assumption.
    destruct (span_eq_dec sp sp); [reflexivity|contradiction].
  - rewrite IH by assumption. reflexivity.
Qed.

Lemma last_edits_sorted edits ops : NoDup (map fst edits) -> Permutation edits ops ->
  last_edits (map fst edits) ops = edits.
Proof.
  intros N P.
  assert (N' : NoDup (map fst ops)) by (apply (Permutation_NoDup (Permutation_map fst P) N)).
  assert (H : forall e, In e edits -> last_text ops (fst e) = Some (snd e)).
  { intros [sp r] Hi. apply last_text_nodup; [assumption|]. apply (Permutation_in _ P Hi). }
  clear N P N'. unfold last_edits. induction edits as [|[sp r] edits IH]; [reflexivity|].
  cbn [map flat_map fst]. pose proof (H (sp, r) (or_introl eq_refl)) as H0. cbn [fst snd] in H0. rewrite H0.
  cbn [app]. f_equal. apply IH. intros e Hi. apply H. right. exact Hi.
Qed.

Lemma text_size_perm a b : Permutation a b -> text_size a = text_size b.
Proof. intros P. unfold text_size, list_sum. induction P; cbn [map fold_right] in *; lia. Qed.

Lemma splice_disjoint doc edits ops :
  valid_utf8 doc = true -> in_order 0 (length doc) (map fst edits) ->
  (forall e, In e edits -> on_boundaries doc (fst e) /\ valid_utf8 (snd e) = true) ->
  fits doc edits -> Permutation edits ops ->
  exists st, splice_all (splicer_from_str doc) ops = Ok st /\
    sp_content st = replaced doc 0 edits /\ valid_utf8 (sp_content st) = true.
Proof.
  intros Hv Ho He Hf P.
  assert (N : NoDup (map fst edits)) by (apply (in_order_nodup _ _ _ Ho)).
  assert (N' : NoDup (map fst ops)) by (apply (Permutation_NoDup (Permutation_map fst P) N)).
  destruct (splice_history doc (map fst edits) ops) as (st & E & Ec & Eu).
  - assumption.
  - assumption.
  - intros sp Hi. apply in_map_iff in Hi. destruct Hi as (e & <- & Hi). apply He. exact Hi.
  - intros op Hi. apply (Permutation_in _ (Permutation_sym P)) in Hi. split; [apply in_map; exact Hi|apply He; exact Hi].
  - intros o1 sp o2 E Hi. rewrite E in N'. rewrite map_app in N'. cbn [map fst] in N'.
    apply NoDup_remove_2 in N'. apply N'. apply in_or_app. right. exact Hi.
  - unfold fits in *. rewrite <- (text_size_perm _ _ P). exact Hf.
  - exists st. rewrite (last_edits_sorted edits ops N P) in Ec. auto.
Qed.
