(** Splicing parts that lie inside one another (C73).  The notions used are those of
    SpecNested.v, SpecSplice.v and SpecParts.v. *)

From Coq Require Import String.
From Verif Require Import Bytes BytesFacts Grammar Peg Result Ast Splicer Image Convert Dockerfile Enquote
  SpecSplice SpecNested SplicerFacts SplicerSafe NestedFacts SpecSyntax SpecParts PartsFacts ParseFacts SelectFacts PropsParse
  PropsSplice PropsEdit.
Local Open Scope nat_scope.

(** ** C73 *)

(** Any history in which every span is apart from those spliced before it or contains them:
    no panic, valid text, and changes only at the outermost spans. *)
Theorem C73_any_history doc ops : valid_utf8 doc = true ->
  (forall op, In op ops -> s_start (fst op) < s_end (fst op) /\ s_end (fst op) <= length doc /\
    on_boundaries doc (fst op) /\ valid_utf8 (snd op) = true) ->
  inside_out ops -> fits doc ops ->
  exists st edits, splice_all (splicer_from_str doc) ops = Ok st /\ valid_utf8 (sp_content st) = true /\
    map fst edits = map fst (laid ops) /\ sp_content st = replaced doc 0 edits.
Proof.
  intros Hv Ho Hio Hf. apply splice_nested_any; try assumption.
  - intros op Hi. destruct (Ho op Hi) as (K1 & K2 & _). auto.
  - intros op Hi. destruct (Ho op Hi) as (_ & _ & K). exact K.
Qed.

(** If no text is given for a span at which nothing was left, the text is that of the
    outermost edits. *)
Theorem C73_outermost_win doc ops : valid_utf8 doc = true ->
  (forall op, In op ops -> s_start (fst op) < s_end (fst op) /\ s_end (fst op) <= length doc /\
    on_boundaries doc (fst op) /\ valid_utf8 (snd op) = true) ->
  inside_out ops -> never_emptied doc ops -> fits doc ops ->
  exists st, splice_all (splicer_from_str doc) ops = Ok st /\ sp_content st = replaced doc 0 (laid ops).
Proof.
  intros Hv Ho Hio Hne Hf. apply splice_nested; try assumption.
  - intros op Hi. destruct (Ho op Hi) as (K1 & K2 & _). auto.
  - intros op Hi. destruct (Ho op Hi) as (_ & _ & K). exact K.
Qed.

(** These edits are in order, and they are those that no later edit contains. *)
Theorem C73_laid len ops e : (forall op, In op ops -> s_start (fst op) < s_end (fst op) /\ s_end (fst op) <= len) ->
  inside_out ops ->
  in_order 0 len (map fst (laid ops)) /\
  (In e (laid ops) <-> exists ops1 ops2, ops = ops1 ++ e :: ops2 /\ forall op, In op ops2 -> ~ inside (fst e) (fst op)).
Proof. intros Hp Hio. split; [exact (laid_in_order len ops Hp Hio)|exact (laid_outermost len ops e Hp Hio)]. Qed.

(** Of a parse result, any parts in any nesting can be spliced, as long as none is spliced
    after a part that contains it. *)
Theorem C73_parts unq input d ops : valid_utf8 input = true -> parse unq input = Ok d ->
  (forall op, In op ops -> valid_utf8 (snd op) = true /\
    exists i x, In i (d_instructions d) /\ In x (within (instruction_part i)) /\ fst op = part_span x) ->
  (forall ops1 op ops2 op', ops = ops1 ++ op :: ops2 -> In op' ops2 -> inside (fst op') (fst op) -> fst op' = fst op) ->
  fits input ops ->
  exists st edits, splice_all (splicer_from d) ops = Ok st /\ valid_utf8 (sp_content st) = true /\
    map fst edits = map fst (laid ops) /\ sp_content st = replaced input 0 edits /\
    (never_emptied input ops -> sp_content st = replaced input 0 (laid ops)).
Proof.
  intros Hv H Ho Hb Hf. unfold splicer_from. fold (splicer_from_str (d_content d)).
  pose proof (proj1 (parsed_document unq input d Hv H)) as Hd. rewrite Hd.
  assert (Hp : forall op, In op ops -> s_start (fst op) < s_end (fst op) /\ s_end (fst op) <= length input /\
    on_boundaries input (fst op) /\ valid_utf8 (snd op) = true).
  { intros op Hi. destruct (Ho op Hi) as (V & i & x & K1 & K2 & ->).
    destruct (C03_spans_sliceable unq input d i x Hv H K1 K2) as (S1 & S2 & S3). rewrite Hd in S2, S3.
    split; [exact (in_place_nonempty _ _ x (parsed_parts unq input d Hv H i x K1 K2))|]. auto. }
  assert (Hio : inside_out ops).
  { intros o1 op o2 op' E Hi.
    destruct (Ho op) as (_ & i & x & K1 & K2 & Ex); [rewrite E; apply in_or_app; right; left; reflexivity|].
    destruct (Ho op') as (_ & j & y & L1 & L2 & Ey); [rewrite E; apply in_or_app; right; right; exact Hi|].
    pose proof (C45_nested_or_apart unq input d i j x y Hv H K1 L1 K2 L2) as K. cbv zeta in K. rewrite <- Ex, <- Ey in K.
    destruct K as [K|[K|K]]; [left; exact K| |right; exact K].
    left. rewrite (Hb o1 op o2 op' E Hi K). unfold inside. lia. }
  destruct (C73_any_history input ops Hv Hp Hio Hf) as (st & edits & E1 & E2 & E3 & E4).
  exists st, edits. repeat split; try assumption. intros Hne.
  destruct (C73_outermost_win input ops Hv Hp Hio Hne Hf) as (st' & E1' & E'). rewrite E1 in E1'. injection E1' as <-. exact E'.
Qed.

(** The element of a list, then the list, then another part, then the instruction *)
Example C73_case : let input := bs "FROM a AS b" ++ [LF] ++ bs "CMD [""x"", ""y""]" in
  exists d, parse enquote_unquote input = Ok d /\
  let ops := [(Span 22 25, bs "'z'"); (Span 5 6, bs "alpine"); (Span 16 26, bs "[]"); (Span 10 11, bs "c"); (Span 12 26, bs "CMD x y"); (Span 12 26, bs "CMD w")] in
  inside_out ops /\ never_emptied input ops /\
  laid ops = [(Span 5 6, bs "alpine"); (Span 10 11, bs "c"); (Span 12 26, bs "CMD w")] /\
  exists st, splice_all (splicer_from d) ops = Ok st /\ sp_content st = bs "FROM alpine AS c" ++ [LF] ++ bs "CMD w".
Proof.
  cbv zeta. eexists. split; [vm_compute; reflexivity|]. split; [|split; [|split; [vm_compute; reflexivity|]]].
  - intros o1 op o2 op' E Hi.
    do 6 (destruct o1 as [|? o1]; [injection E as <- <-; cbn [In] in Hi; intuition (subst; unfold inside; cbn; lia)|injection E as _ E]).
    destruct o1; discriminate.
  - intros o1 sp r o2 E _.
    do 6 (destruct o1 as [|? o1]; [injection E as <- <- <-; vm_compute; discriminate|injection E as <- E]).
    destruct o1; discriminate.
  - eexists. split; [vm_compute; reflexivity|reflexivity].
Qed.

(** The other way round, a part is looked for at the same distance from the end of the part
    that contains it, whatever stands there now: before that part, if its new text is
    shorter; or nowhere, and then there is a panic. *)
Theorem C73_inner_after_outer doc outer inner r t : valid_utf8 doc = true ->
  s_end outer <= length doc -> on_boundaries doc outer -> valid_utf8 r = true ->
  inside inner outer -> s_start inner < s_end inner ->
  (Z.of_nat (length doc + length r + length t) < two63)%Z ->
  exists st, let now := firstn (s_start outer) doc ++ r ++ skipn (s_end outer) doc in
    let sp := slid outer inner (length r) in
    splice (splicer_from_str doc) outer r = Ok st /\ sp_content st = now /\
    ((s_start sp <= s_end sp /\ s_end sp <= length now /\ on_boundaries now sp /\
      exists st', splice st inner t = Ok st' /\ sp_content st' = firstn (s_start sp) now ++ t ++ skipn (s_end sp) now) \/
     (~ (s_start sp <= s_end sp /\ s_end sp <= length now /\ on_boundaries now sp) /\ splice st inner t = Panic)).
Proof.
  intros Hv Hl Hb Vr [I1 I2] Hne Hf. destruct outer as [a b], inner as [c e]. cbn [s_start s_end] in *.
  destruct (C23_first_call doc (Span a b) r Hv) as [(_ & _ & _ & st & E & Ec)|[N _]]; cbn [s_start s_end]; try lia.
  2: { exfalso. apply N. cbn [s_start s_end]. split; [lia|]. auto. }
  exists st. cbn [s_start s_end] in Ec. cbv zeta. split; [exact E|]. split; [exact Ec|].
  set (now := firstn a doc ++ r ++ skipn b doc) in *. set (sp := slid (Span a b) (Span c e) (length r)).
  assert (Vn : valid_utf8 now = true).
  { destruct Hb as [B1 B2]. cbn [s_start s_end] in *. apply valid_boundary in B1; [|exact Hv|lia]. apply valid_boundary in B2; [|exact Hv|lia].
    unfold now. rewrite valid_utf8_app by apply B1. rewrite valid_utf8_app by exact Vr. apply B2. }
  assert (Ln : length now + (b - a) = length doc + length r).
  { unfold now. rewrite !app_length, firstn_length, skipn_length. lia. }
  assert (Eo : sp_offsets st = [SpliceOffset a (Z.of_nat (length r) - Z.of_nat (b - a))]).
  { revert E. unfold splice, adjust_offsets, splicer_from_str. cbn [sp_offsets sp_content fold_left s_start s_end].
    rewrite !as_isize_small by (unfold two63 in *; lia). unfold try_usize. rewrite !(proj2 (Z.ltb_ge _ 0)) by lia. rewrite !Nat2Z.id. cbn [s_start s_end].
    destruct (b <? a); [discriminate|]. destruct (split_at doc a) as [[? rest]| | |]; cbn [bind]; try discriminate.
    destruct (split_at rest (b - a)) as [[? ?]| | |]; cbn [bind]; try discriminate.
    unfold new_string. destruct (_ <? two63)%Z; cbn [bind]; [|discriminate]. intros K. injection K as <-. reflexivity. }
  assert (Ea : adjust_offsets (Span c e) (sp_offsets st) = sp).
  { rewrite Eo. unfold adjust_offsets, sp, slid. cbn [fold_left adjust_step so_position so_offset s_start s_end].
    rewrite (as_isize_small (Z.of_nat c)), (as_isize_small (Z.of_nat e)) by (unfold two63 in *; lia).
    rewrite !as_usize_small by (unfold two63 in *; lia).
    assert (Ew : forall z, z <= length doc -> as_isize (Z.of_nat z + (Z.of_nat (length r) - Z.of_nat (b - a))) =
      (Z.of_nat z + (Z.of_nat (length r) - Z.of_nat (b - a)))%Z).
    { intros z Hz. unfold as_isize, two63, two64 in *. rewrite Z.mod_small by lia. lia. }
    assert (Et : forall z, try_usize (Z.of_nat z + (Z.of_nat (length r) - Z.of_nat (b - a))) = z + length r - (b - a)).
    { intros z. unfold try_usize. destruct (Z.ltb_spec (Z.of_nat z + (Z.of_nat (length r) - Z.of_nat (b - a))) 0); lia. }
    destruct (Nat.ltb_spec a c) as [L|L].
    - rewrite (proj2 (Z.ltb_lt _ _)) by lia. rewrite !Ew by lia. rewrite !Et. reflexivity.
    - rewrite (proj2 (Z.ltb_ge _ (Z.of_nat c))) by lia. rewrite (proj2 (Z.ltb_lt _ _)) by lia. rewrite Ew by lia. rewrite Et.
      f_equal. unfold try_usize. rewrite (proj2 (Z.ltb_ge _ _)) by lia. apply Nat2Z.id. }
  assert (Hs : s_start sp <= length doc + length r /\ s_end sp <= length doc + length r).
  { unfold sp, slid. cbn [s_start s_end]. destruct (a <? c); lia. }
  assert (Esp : splice st (Span c e) t = bind (splice (splicer_from_str now) sp t)
    (fun z => Ok (Splicer (sp_content z) (sp_offsets st ++ sp_offsets z)))).
  { unfold splice at 1. rewrite Ea, Ec. unfold splice, splicer_from_str. cbn [sp_offsets sp_content].
    replace (adjust_offsets sp []) with sp.
    2: { destruct sp as [u v]. cbn [s_start s_end] in Hs. unfold adjust_offsets. cbn [fold_left s_start s_end].
         rewrite !as_isize_small by (unfold two63 in *; lia). unfold try_usize. rewrite !(proj2 (Z.ltb_ge _ 0)) by lia. rewrite !Nat2Z.id. reflexivity. }
    destruct (s_end sp <? s_start sp); [reflexivity|]. destruct (split_at now (s_start sp)) as [[u rest]| | |]; cbn [bind]; try reflexivity.
    destruct (split_at rest (s_end sp - s_start sp)) as [[v w]| | |]; cbn [bind]; try reflexivity.
    destruct (new_string (u ++ t ++ w)); cbn [bind app sp_content sp_offsets]; reflexivity. }
  destruct (C23_first_call now sp t Vn) as [(K1 & K2 & K3 & st' & K4 & K5)|[N K]]; try lia.
  - left. split; [exact K1|]. split; [exact K2|]. split; [exact K3|]. rewrite Esp, K4. cbn [bind]. eexists. split; [reflexivity|]. exact K5.
  - right. split; [exact N|]. rewrite Esp, K. reflexivity.
Qed.

(** So an edit of a part can change the text of another instruction *)
Theorem C73_other_line_refuted : exists input d i x y r t st st',
  valid_utf8 input = true /\ parse enquote_unquote input = Ok d /\ In i (d_instructions d) /\
  x = instruction_part i /\ In y (within x) /\ valid_utf8 r = true /\ valid_utf8 t = true /\
  splice (splicer_from d) (part_span x) r = Ok st /\ splice st (part_span y) t = Ok st' /\
  firstn (s_start (part_span x)) (sp_content st') <> firstn (s_start (part_span x)) input.
Proof.
  exists (bs "FROM abc" ++ [LF] ++ bs "CMD [""x"", ""y""]"). eexists. exists (ICmd (CmdInstruction (Span 9 23)
    (Exec (StringArray (Span 13 23) [SpannedString (Span 14 17) (bs "x"); SpannedString (Span 19 22) (bs "y")])))).
  eexists. exists (Part (Span 19 22) (AString (bs "y")) []), (bs "CMD"), (bs "z"). eexists. eexists.
  split; [reflexivity|]. split; [vm_compute; reflexivity|]. split; [right; left; reflexivity|]. split; [reflexivity|].
  split; [vm_compute; auto 10|]. split; [reflexivity|]. split; [reflexivity|]. split; [vm_compute; reflexivity|].
  split; [vm_compute; reflexivity|]. vm_compute. discriminate.
Qed.

(** or panic. *)
Theorem C73_panic_refuted : exists input d i x y r t st,
  valid_utf8 input = true /\ parse enquote_unquote input = Ok d /\ In i (d_instructions d) /\
  In x (within (instruction_part i)) /\ In y (within x) /\ valid_utf8 r = true /\ valid_utf8 t = true /\
  splice (splicer_from d) (part_span x) r = Ok st /\ splice st (part_span y) t = Panic.
Proof.
  exists (bs "ENV k=val"). eexists. eexists. exists (var_part (EnvVar (Span 4 9) (SpannedString (Span 4 5) (bs "k"))
    (BreakableString (Span 6 9) [BString (SpannedString (Span 6 9) (bs "val"))]))).
  exists (Part (Span 4 5) (AString (bs "k")) []), [], (bs "z"). eexists.
  split; [reflexivity|]. split; [vm_compute; reflexivity|]. split; [left; reflexivity|].
  split; [vm_compute; auto 10|]. split; [vm_compute; auto 10|]. split; [reflexivity|]. split; [reflexivity|]. split; [vm_compute; reflexivity|].
  vm_compute. reflexivity.
Qed.

Example C73_inner_case : let doc := bs "FROM abc AS d" in
  slid (Span 5 13) (Span 12 13) 7 = Span 11 12 /\
  exists st st', splice (splicer_from_str doc) (Span 5 13) (bs "x AS yz") = Ok st /\
    splice st (Span 12 13) (bs "w") = Ok st' /\ sp_content st' = bs "FROM x AS yw".
Proof. cbv zeta. split; [reflexivity|]. do 2 eexists. split; [vm_compute; reflexivity|]. split; [vm_compute; reflexivity|reflexivity]. Qed.

Print Assumptions C73_any_history.
Print Assumptions C73_outermost_win.
Print Assumptions C73_laid.
Print Assumptions C73_parts.
Print Assumptions C73_inner_after_outer.
Print Assumptions C73_other_line_refuted.
Print Assumptions C73_panic_refuted.
