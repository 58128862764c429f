(** The document loop, global arguments, readers, lines: proofs. *)

From Verif Require Import Bytes BytesFacts Grammar Peg Result Ast Splicer SplicerFacts Image Convert Dockerfile SpecDoc.
Local Open Scope nat_scope.

(** ** relative_span *)

Lemma relative_loop_spec s : forall i start lines line_start,
  i <= start -> line_start <= i ->
  exists pre mid, firstn (start - i) s = pre ++ mid /\
    (forall c, In c mid -> c <> LF) /\
    (pre = [] \/ exists p, pre = p ++ [LF]) /\
    relative_loop s i start lines line_start =
      (lines + count_lf pre, match pre with [] => line_start | _ => i + length pre end).
Proof.
  induction s as [|c s IH]; intros i start lines ls H1 H3.
  - exists [], []. split; [apply firstn_nil|].
    split; [intros c []|]. split; [left; reflexivity|]. cbn. f_equal. lia.
  - cbn [relative_loop]. destruct (i =? start) eqn:E; bool_hyps.
    + exists [], []. replace (start - i) with 0 by lia. split; [reflexivity|].
      split; [intros x []|]. split; [left; reflexivity|]. cbn. f_equal. lia.
    + replace (start - i) with (S (start - S i)) by lia. cbn [firstn].
      destruct (c =? LF)%N eqn:Ec; bool_hyps.
      * subst c. destruct (IH (S i) start (S lines) (S i)) as (pre & mid & Ef & Hm & Hp & Er); try lia.
        exists (LF :: pre), mid. rewrite Ef. split; [reflexivity|]. split; [exact Hm|]. split.
        -- right. destruct Hp as [->|(p & ->)]; [exists []; reflexivity|exists (LF :: p); reflexivity].
        -- rewrite Er. unfold count_lf. cbn [filter N.eqb Pos.eqb length]. destruct pre; cbn [length]; f_equal; lia.
      * destruct (IH (S i) start lines ls) as (pre & mid & Ef & Hm & Hp & Er); try lia.
        destruct Hp as [->|(p & ->)].
        -- exists [], (c :: mid). rewrite Ef. split; [reflexivity|]. split; [|split; [left; reflexivity|exact Er]].
           intros x [<-|Hx]; [exact Ec|apply Hm; exact Hx].
        -- exists (c :: p ++ [LF]), mid. rewrite Ef. split; [reflexivity|]. split; [exact Hm|]. split.
           ++ right. exists (c :: p). reflexivity.
           ++ rewrite Er. unfold count_lf. cbn [filter].
              rewrite (proj2 (N.eqb_neq c LF)) by exact Ec.
              destruct (p ++ [LF]) as [|y l] eqn:El; [destruct p; discriminate|]. cbn [length]. f_equal. lia.
Qed.

Lemma relative_span_spec d a b : a <= b -> b <= length (d_content d) ->
  exists pre rest, d_content d = pre ++ rest /\ whole_lines pre /\ length pre <= a /\
    (forall c, In c (slice (d_content d) (length pre) a) -> c <> LF) /\
    relative_span (Span a b) d = Ok (count_lf pre, Span (a - length pre) (b - length pre)) /\
    slice rest (a - length pre) (b - length pre) = slice (d_content d) a b.
Proof.
  intros Hab Hb. unfold relative_span. cbn [s_start s_end].
  destruct (relative_loop_spec (d_content d) 0 a 0 0) as (pre & mid & Ef & Hm & Hp & Er); try lia.
  rewrite Er. rewrite Nat.sub_0_r in Ef. cbn [Nat.add].
  assert (El : match pre with [] => 0 | _ => length pre end = length pre) by (destruct pre; reflexivity).
  rewrite El.
  assert (La : length pre + length mid = a).
  { apply (f_equal (@length N)) in Ef. rewrite firstn_length, app_length in Ef. lia. }
  rewrite (proj2 (Nat.ltb_ge _ _)) by lia. rewrite (proj2 (Nat.ltb_ge _ _)) by lia.
  assert (Ed : d_content d = pre ++ mid ++ skipn a (d_content d)).
  { rewrite app_assoc, <- Ef, firstn_skipn. reflexivity. }
  exists pre, (mid ++ skipn a (d_content d)).
  split; [exact Ed|]. split; [exact Hp|]. split; [lia|]. split; [|split].
  - intros c Hc. apply Hm. rewrite <- La in Hc. rewrite Ed in Hc. rewrite slice_app in Hc. exact Hc.
  - do 2 f_equal. f_equal. lia.
  - unfold slice. replace (a - length pre) with (length mid) by lia. rewrite skipn_app_exact. f_equal. lia.
Qed.

(** Any span whatever, also backwards or beyond the text *)
Lemma relative_span_any d a b : exists pre rest, d_content d = pre ++ rest /\ whole_lines pre /\ length pre <= a /\
  (forall c, In c (firstn (a - length pre) rest) -> c <> LF) /\
  relative_span (Span a b) d = if a <=? b then Ok (count_lf pre, Span (a - length pre) (b - length pre)) else Panic.
Proof.
  unfold relative_span. cbn [s_start s_end].
  destruct (relative_loop_spec (d_content d) 0 a 0 0) as (pre & mid & Ef & Hm & Hp & Er); try lia.
  rewrite Er. rewrite Nat.sub_0_r in Ef. cbn [Nat.add].
  assert (El : match pre with [] => 0 | _ => length pre end = length pre) by (destruct pre; reflexivity).
  rewrite El.
  assert (La : length pre + length mid <= a).
  { apply (f_equal (@length N)) in Ef. rewrite firstn_length, app_length in Ef. lia. }
  rewrite (proj2 (Nat.ltb_ge _ _)) by lia.
  assert (Ed : d_content d = pre ++ mid ++ skipn a (d_content d)).
  { rewrite app_assoc, <- Ef, firstn_skipn. reflexivity. }
  exists pre, (mid ++ skipn a (d_content d)).
  split; [exact Ed|]. split; [exact Hp|]. split; [lia|]. split.
  - intros c Hc. apply Hm. rewrite Ed, firstn_app in Ef.
    rewrite (firstn_all2 pre) in Ef by lia. apply app_inv_head in Ef. rewrite Ef in Hc. exact Hc.
  - destruct (Nat.leb_spec a b) as [L|L]; [rewrite (proj2 (Nat.ltb_ge _ _)) by lia; do 2 f_equal; f_equal; lia|].
    rewrite (proj2 (Nat.ltb_lt _ _)) by lia. reflexivity.
Qed.

(** The complete lines before a position are determined by the text. *)
Lemma whole_lines_unique pre1 pre2 rest1 rest2 : pre1 ++ rest1 = pre2 ++ rest2 ->
  whole_lines pre1 -> whole_lines pre2 -> count_lf pre1 = count_lf pre2 -> pre1 = pre2.
Proof.
  revert pre2; induction pre1 as [|c p1 IH]; intros pre2 E W1 W2 Hc.
  - destruct W2 as [->|(p & ->)]; [reflexivity|].
    unfold count_lf in Hc. rewrite filter_app, app_length in Hc. cbn in Hc. lia.
  - destruct pre2 as [|c2 p2].
    + destruct W1 as [W1|(p & E1)]; [discriminate|]. rewrite E1 in Hc.
      unfold count_lf in Hc. rewrite filter_app, app_length in Hc. cbn in Hc. lia.
    + cbn [app] in E. injection E as <- E. f_equal.
      assert (Hc' : count_lf p1 = count_lf p2) by (unfold count_lf in *; cbn [filter] in Hc; destruct (c =? LF)%N; cbn [length] in Hc; lia).
      assert (Wt : forall p, whole_lines (c :: p) -> whole_lines p).
      { intros p [W|(q & W)]; [discriminate|]. destruct q as [|x q]; cbn [app] in W; injection W as -> ->; [left; reflexivity|right; exists q; reflexivity]. }
      apply IH; [exact E|apply Wt; exact W1|apply Wt; exact W2|exact Hc'].
Qed.

(** ** The loop over the top-level tokens *)

Record loop_inv (st : doc_state) : Prop := {
  li_index : ds_from_index st = count_from (ds_instructions st);
  li_num : forall l1 f l2, ds_instructions st = l1 ++ IFrom f :: l2 -> from_index f = count_from l1;
  li_found : ds_from_found st = existsb is_from_b (ds_instructions st);
  li_args : exists pre, before_first_from (ds_instructions st) pre /\ ds_global_args st = args_among pre
}.

Lemma before_first_from_snoc l pre i : before_first_from l pre ->
  (existsb is_from_b l = true -> before_first_from (l ++ [i]) pre) /\
  (existsb is_from_b l = false -> pre = l /\
     before_first_from (l ++ [i]) (if is_from_b i then l else l ++ [i])).
Proof.
  intros (post & -> & Hp & Hq).
  assert (Hpre : existsb is_from_b pre = false).
  { clear Hq. induction Hp as [|x p Hx Hp IH]; [reflexivity|]. cbn [existsb]. rewrite Hx. exact IH. }
  split; intros H.
  - destruct post as [|x post]; [rewrite app_nil_r in H; congruence|].
    exists (x :: post ++ [i]). split; [rewrite <- app_assoc; reflexivity|]. split; [exact Hp|exact Hq].
  - rewrite existsb_app in H. apply orb_false_iff in H. destruct H as [_ H].
    destruct post as [|x post]; [|cbn [existsb] in H; rewrite Hq in H; discriminate].
    rewrite app_nil_r. split; [reflexivity|]. destruct (is_from_b i) eqn:E.
    + exists [i]. split; [reflexivity|]. split; [exact Hp|exact E].
    + exists []. split; [rewrite app_nil_r; reflexivity|]. split; [|exact I].
      apply Forall_app. split; [exact Hp|]. constructor; [exact E|constructor].
Qed.

Lemma count_from_app a b : count_from (a ++ b) = count_from a + count_from b.
Proof. unfold count_from. rewrite filter_app, app_length. reflexivity. Qed.

Lemma snoc_split {A} (l : list A) x l1 y l2 : l ++ [x] = l1 ++ y :: l2 ->
  (exists l2', l2 = l2' ++ [x] /\ l = l1 ++ y :: l2') \/ (l2 = [] /\ l1 = l /\ y = x).
Proof.
  intros E. destruct (@exists_last _ (y :: l2)) as (m & z & Em); [discriminate|].
  rewrite Em, app_assoc in E. apply app_inj_tail in E. destruct E as [E ->].
  destruct m as [|y' m]; cbn [app] in Em; injection Em as -> Em.
  - right. subst l2. rewrite app_nil_r in E. auto.
  - left. exists m. auto.
Qed.

Lemma args_among_app a b : args_among (a ++ b) = args_among a ++ args_among b.
Proof. unfold args_among. apply flat_map_app. Qed.

Lemma loop_snoc_other st i st' : loop_inv st -> is_from_b i = false ->
  ds_instructions st' = ds_instructions st ++ [i] -> ds_from_found st' = ds_from_found st ->
  ds_from_index st' = ds_from_index st ->
  ds_global_args st' = (if ds_from_found st then ds_global_args st else ds_global_args st ++ args_among [i]) ->
  loop_inv st'.
Proof.
  intros I Hi E1 E2 E3 E4. split.
  - rewrite E3, E1, count_from_app, (li_index _ I). unfold count_from at 3. cbn [filter]. rewrite Hi. cbn [length]. lia.
  - intros l1 f l2 E. rewrite E1 in E. apply snoc_split in E. destruct E as [(l2' & _ & E)|(_ & _ & E)].
    + apply (li_num _ I _ _ _ E).
    + subst i. discriminate.
  - rewrite E2, E1, existsb_app. cbn [existsb]. rewrite Hi, !orb_false_r. apply (li_found _ I).
  - destruct (li_args _ I) as (pre & Hp & Ha). rewrite E1, E4.
    destruct (before_first_from_snoc _ _ i Hp) as [K1 K2].
    pose proof (li_found _ I) as Hf. destruct (ds_from_found st).
    + exists pre. split; [apply K1; congruence|exact Ha].
    + destruct (K2 (eq_sym Hf)) as [-> K3]. rewrite Hi in K3. eexists. split; [exact K3|].
      rewrite Ha, args_among_app. reflexivity.
Qed.

Lemma doc_step_inv unq src st t st' : loop_inv st -> doc_step unq src st t = Ok st' -> loop_inv st'.
Proof.
  intros I H.
  assert (Hskip : forall x, Ok st = Ok x -> x = st' -> loop_inv st').
  { intros x E <-. injection E as <-. exact I. }
  assert (K : forall r, (instruction <- instruction_of unq src t;;
    match instruction with
    | IFrom f =>
      Ok (DocState (ds_instructions st ++ [IFrom (set_index f (ds_from_index st))])
                   (ds_global_args st) true (S (ds_from_index st)))
    | IArg a =>
      Ok (DocState (ds_instructions st ++ [IArg a])
                   (if ds_from_found st then ds_global_args st else ds_global_args st ++ [a])
                   (ds_from_found st) (ds_from_index st))
    | i =>
      Ok (DocState (ds_instructions st ++ [i])
                   (ds_global_args st) (ds_from_found st) (ds_from_index st))
    end) = Ok r -> loop_inv r).
  { intros r E. destruct (instruction_of unq src t) as [i|e| |]; cbn [bind] in E; try discriminate.
    destruct i as [f|a|a|a|a|a|a|a|a]; injection E as <-;
      try (eapply (loop_snoc_other st _ _ I); [|reflexivity|reflexivity|reflexivity|];
           [reflexivity|cbn [ds_global_args args_among flat_map app];
                        destruct (ds_from_found st); rewrite ?app_nil_r; reflexivity]).
    split; cbn [ds_instructions ds_from_found ds_from_index ds_global_args].
    - rewrite count_from_app, (li_index _ I). cbn. lia.
    - intros l1 g l2 E. apply snoc_split in E. destruct E as [(l2' & _ & E)|(_ & -> & E)].
      + apply (li_num _ I _ _ _ E).
      + injection E as ->. cbn [from_index set_index]. apply (li_index _ I).
    - rewrite existsb_app. cbn [existsb is_from_b orb]. rewrite orb_true_r. reflexivity.
    - destruct (li_args _ I) as (pre & Hp & Ha).
      destruct (before_first_from_snoc _ _ (IFrom (set_index f (ds_from_index st))) Hp) as [K1 K2].
      destruct (existsb is_from_b (ds_instructions st)) eqn:Ef.
      + exists pre. split; [apply K1; reflexivity|exact Ha].
      + destruct (K2 eq_refl) as [-> K3]. cbn [is_from_b] in K3. exists (ds_instructions st). split; [exact K3|exact Ha]. }
  unfold doc_step in H.
  destruct (t_rule t); try (apply K; exact H); injection H as <-; exact I.
Qed.

Lemma doc_loop_inv unq src l : forall st st', loop_inv st -> for_each (doc_step unq src) l st = Ok st' -> loop_inv st'.
Proof.
  induction l as [|t l IH]; intros st st' I H; cbn [for_each] in H.
  - injection H as <-. exact I.
  - destruct (doc_step unq src st t) as [st1|e| |] eqn:E; cbn [bind] in H; try discriminate.
    apply (IH st1 st' (doc_step_inv _ _ _ _ _ I E) H).
Qed.

Lemma parse_ok_inv unq input d : parse unq input = Ok d ->
  exists p s top rest st, pest_parse R_dockerfile input = Done p s (top :: rest) /\
    for_each (doc_step unq input) (t_children top) (DocState [] [] false 0) = Ok st /\
    d = Dockerfile input (ds_global_args st) (ds_instructions st) /\ loop_inv st.
Proof.
  unfold parse. destruct (pest_parse R_dockerfile input) as [p s f| |] eqn:E; try discriminate.
  destruct f as [|top rest]; [discriminate|]. intros H.
  destruct (for_each (doc_step unq input) (t_children top) (DocState [] [] false 0)) as [st|e| |] eqn:Ef;
    cbn [bind] in H; try discriminate.
  injection H as <-. exists p, s, top, rest, st. split; [reflexivity|]. split; [exact Ef|]. split; [reflexivity|].
  apply (doc_loop_inv unq input (t_children top) (DocState [] [] false 0) st); [|exact Ef].
  split; cbn; [reflexivity| |reflexivity|].
  - intros l1 f l2 K. destruct l1; discriminate.
  - exists []. split; [exists []; repeat split; constructor|reflexivity].
Qed.

Lemma parse_content unq input d : parse unq input = Ok d -> d_content d = input.
Proof. intros H. apply parse_ok_inv in H. destruct H as (p & s & top & rest & st & _ & _ & -> & _). reflexivity. Qed.

Lemma parse_from_index unq input d l1 f l2 : parse unq input = Ok d ->
  d_instructions d = l1 ++ IFrom f :: l2 -> from_index f = count_from l1.
Proof.
  intros H E. apply parse_ok_inv in H. destruct H as (p & s & top & rest & st & _ & _ & -> & I).
  apply (li_num _ I _ _ _ E).
Qed.

Lemma parse_global_args unq input d : parse unq input = Ok d ->
  exists pre, before_first_from (d_instructions d) pre /\ d_global_args d = args_among pre.
Proof.
  intros H. apply parse_ok_inv in H. destruct H as (p & s & top & rest & st & _ & _ & -> & I).
  apply (li_args _ I).
Qed.

Lemma before_first_from_fun l p1 p2 : before_first_from l p1 -> before_first_from l p2 -> p1 = p2.
Proof.
  intros (q1 & -> & H1 & K1) (q2 & E & H2 & K2). revert p2 E H2.
  induction H1 as [|x p1 Hx H1 IH]; intros p2 E H2.
  - destruct p2 as [|y p2]; [reflexivity|]. inversion H2 as [|? ? Hy H2']; subst.
    cbn [app] in E. destruct q1 as [|z q1]; [discriminate|]. injection E as -> _. congruence.
  - destruct p2 as [|y p2].
    + cbn [app] in E. destruct q2 as [|z q2]; [discriminate|]. injection E as -> _. congruence.
    + cbn [app] in E. injection E as <- E. inversion H2 as [|? ? Hy H2']; subst. f_equal. apply IH; assumption.
Qed.

(** ** get_global_arg *)

Definition has_name (name : bytes) (a : arg_instruction) : bool := beqb (ss_content (arg_name a)) name.

Lemma find_leading_arg_spec l name : forall pre post,
  l = map IArg pre ++ post -> (match post with IArg _ :: _ => False | _ => True end) ->
  find_leading_arg l name = find (has_name name) pre.
Proof.
  intros pre post -> Hp. induction pre as [|a pre IH]; cbn [map app find_leading_arg find].
  - destruct post as [|i post]; [reflexivity|]. destruct i; try reflexivity. destruct Hp.
  - unfold has_name at 1. destruct (beqb (ss_content (arg_name a)) name); [reflexivity|exact IH].
Qed.

Lemma args_among_map l : args_among (map IArg l) = l.
Proof. induction l as [|a l IH]; [reflexivity|]. cbn. f_equal. exact IH. Qed.

Lemma get_global_arg_spec d pre name : before_first_from (d_instructions d) (map IArg pre) ->
  get_global_arg d name = find (has_name name) pre.
Proof.
  intros (post & E & _ & Hp). unfold get_global_arg.
  apply (find_leading_arg_spec _ _ _ post E). destruct post as [|i post]; [exact I|]. destruct i; try discriminate; exact I.
Qed.

(** ** Readers *)

Lemma read_all_steady evs : steady evs -> forall tail buf,
  read_all (evs ++ tail) buf = read_all tail (buf ++ delivered evs).
Proof.
  intros H. induction H as [|e evs He H IH]; intros tail buf; cbn [app delivered flat_map].
  - rewrite app_nil_r. reflexivity.
  - destruct e as [[|x b]| |]; try destruct He; cbn [read_all].
    + rewrite IH. fold (delivered evs). cbn [app]. rewrite <- app_assoc. reflexivity.
    + apply IH.
Qed.

Lemma from_reader_end unq evs tail : steady evs -> (tail = [] \/ exists t, tail = Chunk [] :: t) ->
  from_reader unq (evs ++ tail) =
  if valid_utf8 (delivered evs) then parse unq (delivered evs) else Err ERead.
Proof.
  intros H Ht. unfold from_reader. rewrite read_all_steady by exact H. cbn [app].
  destruct Ht as [->|(t & ->)]; reflexivity.
Qed.

Lemma from_reader_fails unq evs tail : steady evs -> from_reader unq (evs ++ ReadFails :: tail) = Err ERead.
Proof. intros H. unfold from_reader. rewrite read_all_steady by exact H. reflexivity. Qed.
