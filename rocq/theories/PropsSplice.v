(** Splicing and spans (C20 - C24).  The notions used are those of SpecSplice.v and
    SpecDoc.v. *)

From Coq Require Import Permutation String.
From Verif Require Import Bytes BytesFacts Result Ast Splicer SpecSplice SplicerFacts SplicerSafe SplicerOuter SpecDoc DocFacts.
Local Open Scope nat_scope.

(** ** C20 *)
Theorem C20_disjoint_splices_commute doc edits ops :
  valid_utf8 doc = true -> in_order 0 (length doc) (map fst edits) ->
  (forall e, In e edits -> on_boundaries doc (fst e) /\ valid_utf8 (snd e) = true) ->
  fits doc edits -> Permutation edits ops ->
  exists st, splice_all (splicer_from_str doc) ops = Ok st /\
    sp_content st = replaced doc 0 edits /\ valid_utf8 (sp_content st) = true.
Proof. exact (splice_disjoint doc edits ops). Qed.

Example C20_case :
  in_order 0 (length (bs "FROM a AS b")) [Span 5 6; Span 10 11] /\
  exists st, splice_all (splicer_from_str (bs "FROM a AS b"))
    [(Span 10 11, bs "build"); (Span 5 6, [])] = Ok st /\ sp_content st = bs "FROM  AS build".
Proof.
  split; [cbn; lia|]. eexists. split; [vm_compute; reflexivity|reflexivity].
Qed.

(** ** C21 *)
Theorem C21_last_splice_wins_partial doc sps ops :
  (* missing: histories that splice a span again after its text was deleted; for
     those the claim is false, see C21_refuted *)
  valid_utf8 doc = true -> in_order 0 (length doc) sps ->
  (forall sp, In sp sps -> on_boundaries doc sp) ->
  (forall op, In op ops -> In (fst op) sps /\ valid_utf8 (snd op) = true) ->
  no_splice_after_delete ops -> fits doc ops ->
  exists st, splice_all (splicer_from_str doc) ops = Ok st /\
    sp_content st = replaced doc 0 (last_edits sps ops) /\
    valid_utf8 (sp_content st) = true.
Proof. exact (splice_history doc sps ops). Qed.

Example C21_case :
  (forall op, In op [(Span 5 6, bs "x"); (Span 10 11, bs "yy"); (Span 5 6, bs "zzz")] ->
     In (fst op) [Span 5 6; Span 10 11]) /\
  no_splice_after_delete [(Span 5 6, bs "x"); (Span 10 11, bs "yy"); (Span 5 6, bs "zzz")] /\
  exists st, splice_all (splicer_from_str (bs "FROM a AS b"))
    [(Span 5 6, bs "x"); (Span 10 11, bs "yy"); (Span 5 6, bs "zzz")] = Ok st /\
    sp_content st = bs "FROM zzz AS yy".
Proof.
  split; [cbn; intuition; subst; auto|]. split.
  - intros l1 sp l2 E H. destruct l1 as [|a [|b [|c [|d l1]]]]; discriminate.
  - eexists. split; [vm_compute; reflexivity|reflexivity].
Qed.

(** The same statement without the condition on deletions is false. *)
Theorem C21_refuted : exists doc sps ops st,
  valid_utf8 doc = true /\ in_order 0 (length doc) sps /\
  (forall sp, In sp sps -> on_boundaries doc sp) /\
  (forall op, In op ops -> In (fst op) sps /\ valid_utf8 (snd op) = true) /\ fits doc ops /\
  splice_all (splicer_from_str doc) ops = Ok st /\
  sp_content st <> replaced doc 0 (last_edits sps ops).
Proof.
  exists (bs "abc"), [Span 1 2], [(Span 1 2, []); (Span 1 2, bs "x"); (Span 1 2, bs "y")].
  eexists. split; [reflexivity|]. split; [cbn; lia|]. split; [|split; [|split; [reflexivity|split; [vm_compute; reflexivity|discriminate]]]].
  - intros sp [<-|[]]. split; reflexivity.
  - cbn. intuition; subst; auto.
Qed.

(** What every history gives, for spans with text between them: the text at each span is
    that of [text_after], and the document is otherwise as it was. *)
Theorem C21_exact doc sps ops :
  valid_utf8 doc = true -> ordered 0 (length doc) sps -> apart sps ->
  (forall sp, In sp sps -> on_boundaries doc sp) ->
  (forall op, In op ops -> In (fst op) sps /\ valid_utf8 (snd op) = true) ->
  fits doc ops ->
  exists st, splice_all (splicer_from_str doc) ops = Ok st /\
    sp_content st = replaced doc 0
      (map (fun sp => (sp, text_after (slice doc (s_start sp) (s_end sp)) (texts_for sp ops))) sps).
Proof. exact (splice_apart doc sps ops). Qed.

(** Up to the first deletion the text given last is the one that counts; after it, every
    text is put before those given since. *)
Theorem C21_text (original : bytes) (ts : list bytes) : original <> [] -> Forall (fun t => t <> []) ts ->
  text_after original ts = last ts original /\
  forall after, text_after original (ts ++ [] :: after) = concat (rev after).
Proof. exact (text_after_spec original ts). Qed.

Example C21_exact_case :
  ordered 0 11 [Span 5 6; Span 10 11] /\ apart [Span 5 6; Span 10 11] /\
  let ops := [(Span 5 6, bs "x"); (Span 10 11, []); (Span 5 6, bs "zz"); (Span 10 11, bs "p"); (Span 10 11, bs "q")] in
  texts_for (Span 10 11) ops = [[]; bs "p"; bs "q"] /\
  text_after (bs "b") [[]; bs "p"; bs "q"] = bs "qp" /\
  exists st, splice_all (splicer_from_str (bs "FROM a AS b")) ops = Ok st /\ sp_content st = bs "FROM zz AS qp".
Proof.
  split; [cbn; lia|]. split; [cbn; lia|]. cbv zeta. split; [reflexivity|]. split; [reflexivity|].
  eexists. split; [vm_compute; reflexivity|reflexivity].
Qed.

(** The same for spans that may touch, like the name and the arguments of an instruction
    without a rule of its own: every history of splices of any spans that do not overlap. *)
Theorem C21_touching doc sps ops :
  valid_utf8 doc = true -> ordered 0 (length doc) sps -> NoDup sps ->
  (forall sp, In sp sps -> on_boundaries doc sp) ->
  (forall op, In op ops -> In (fst op) sps /\ valid_utf8 (snd op) = true) ->
  fits doc ops ->
  exists st, splice_all (splicer_from_str doc) ops = Ok st /\
    sp_content st = replaced doc 0 (map (fun x => (fst x, fst (snd x) ++ snd (snd x))) (splice_each doc sps ops)).
Proof. exact (splice_touching doc sps ops). Qed.

(** A text given for a deleted span is taken for a part of the span that touches it, and is
    lost when that one is spliced. *)
Theorem C21_touching_lost doc a b c t u :
  valid_utf8 doc = true -> a < b -> b < c -> c <= length doc ->
  on_boundaries doc (Span a b) -> on_boundaries doc (Span b c) -> valid_utf8 t = true -> valid_utf8 u = true ->
  (Z.of_nat (length doc + length t + length u) < two63)%Z ->
  exists st, splice_all (splicer_from_str doc) [(Span a b, []); (Span a b, t); (Span b c, u)] = Ok st /\
    sp_content st = firstn a doc ++ u ++ skipn c doc.
Proof.
  intros Vd H1 H2 H3 B1 B2 Vt Vu Hf.
  assert (Hn : Span a b <> Span b c) by (intros K; injection K; lia).
  assert (Hab : slice doc a b <> []) by (intros K; apply (f_equal (@length _)) in K; rewrite slice_length in K by lia; cbn in K; lia).
  assert (Hbc : slice doc b c <> []) by (intros K; apply (f_equal (@length _)) in K; rewrite slice_length in K by lia; cbn in K; lia).
  destruct (C21_touching doc [Span a b; Span b c] [(Span a b, []); (Span a b, t); (Span b c, u)]) as (st & E1 & E2); try assumption.
  - cbn. lia.
  - constructor; [intros [K|[]]; congruence|]. constructor; [intros []|constructor].
  - intros sp [<-|[<-|[]]]; assumption.
  - intros op [<-|[<-|[<-|[]]]]; (split; [cbn; auto|assumption || reflexivity]).
  - unfold fits, text_size. cbn [map snd list_sum fold_right length]. lia.
  - exists st. split; [exact E1|]. rewrite E2. unfold splice_each.
    cbn [fold_left map splice_one fst snd s_start s_end]. destruct (span_eq_dec (Span a b) (Span a b)) as [_|K]; [|congruence].
    destruct (slice doc a b) as [|x xs]; [congruence|]. cbn [splice_one fst snd].
    destruct (span_eq_dec (Span a b) (Span a b)) as [_|K]; [|congruence]. cbn [give s_end s_start]. rewrite Nat.eqb_refl.
    destruct (slice doc b c) as [|y ys]; [congruence|]. cbn [splice_one fst snd].
    destruct (span_eq_dec (Span b c) (Span a b)) as [K|_]; [congruence|]. destruct (span_eq_dec (Span b c) (Span b c)) as [_|K]; [|congruence].
    destruct (t ++ y :: ys) eqn:Et; [destruct t; discriminate|]. cbn [map fst snd app replaced s_start s_end].
    unfold slice. rewrite Nat.sub_diag, Nat.sub_0_r, app_nil_r. reflexivity.
Qed.

Example C21_touching_case :
  let doc := bs "SHELL x" in let name := Span 0 5 in let args := Span 5 7 in
  ordered 0 (length doc) [name; args] /\ NoDup [name; args] /\
  splice_each doc [name; args] [(name, []); (name, bs "USER")] = [(name, ([], [])); (args, (bs "USER x", []))] /\
  exists st, splice_all (splicer_from_str doc) [(name, []); (name, bs "USER"); (args, bs " y")] = Ok st /\ sp_content st = bs " y".
Proof.
  cbv zeta. split; [cbn; lia|]. split; [repeat constructor; intros []; [discriminate|assumption]|]. split; [vm_compute; reflexivity|].
  eexists. split; [vm_compute; reflexivity|reflexivity].
Qed.

(** ** C22 *)
Theorem C22_outer_after_inner_partial doc before inner after outer ops r :
  (* missing: histories that splice a span again after its text was deleted; for
     those the claim is false, see C22_refuted, and C22_outside says what holds *)
  valid_utf8 doc = true ->
  in_order 0 (length doc) (before ++ inner ++ after) ->
  in_order 0 (length doc) (before ++ outer :: after) ->
  (forall sp, In sp inner -> inside sp outer) ->
  (forall sp, In sp (outer :: before ++ inner ++ after) -> on_boundaries doc sp) ->
  (forall op, In op ops -> In (fst op) (before ++ inner ++ after) /\ valid_utf8 (snd op) = true) ->
  valid_utf8 r = true ->
  no_splice_after_delete ops -> fits doc (ops ++ [(outer, r)]) ->
  exists st, splice_all (splicer_from_str doc) (ops ++ [(outer, r)]) = Ok st /\
    sp_content st = replaced doc 0 (last_edits before ops ++ (outer, r) :: last_edits after ops) /\
    valid_utf8 (sp_content st) = true.
Proof. exact (splice_outer doc before inner after outer ops r). Qed.

Example C22_case :
  in_order 0 11 ([Span 0 4] ++ [Span 5 6; Span 10 11] ++ []) /\ in_order 0 11 ([Span 0 4] ++ Span 5 11 :: []) /\
  (forall sp, In sp [Span 5 6; Span 10 11] -> inside sp (Span 5 11)) /\
  exists st, splice_all (splicer_from_str (bs "FROM a AS b"))
    ([(Span 10 11, bs "yy"); (Span 0 4, bs "X"); (Span 5 6, [])] ++ [(Span 5 11, bs "z")]) = Ok st /\
    sp_content st = bs "X z".
Proof.
  split; [cbn; lia|]. split; [cbn; lia|]. split; [unfold inside; cbn; intuition; subst; cbn; lia|].
  eexists. split; [vm_compute; reflexivity|reflexivity].
Qed.

(** With any history before it the splice of the outer span does not panic and puts
    the text there.  All the original text of the outer span is gone, also between
    the inner spans, and the text outside is what it was.  Behind the new text only
    texts spliced before can be left over.  Here the spans may also be empty. *)
Theorem C22_outside doc before inner after outer ops r :
  valid_utf8 doc = true ->
  ordered 0 (length doc) (before ++ inner ++ after) ->
  ordered 0 (length doc) (before ++ outer :: after) ->
  (forall sp, In sp inner -> inside sp outer) ->
  (forall sp, In sp (outer :: before ++ inner ++ after) -> on_boundaries doc sp) ->
  (forall op, In op ops -> In (fst op) (before ++ inner ++ after) /\ valid_utf8 (snd op) = true) ->
  valid_utf8 r = true -> fits doc (ops ++ [(outer, r)]) ->
  exists st eb rest ea, splice_all (splicer_from_str doc) (ops ++ [(outer, r)]) = Ok st /\
    valid_utf8 (sp_content st) = true /\ map fst eb = before /\ map fst ea = after /\
    made_of (map snd ops) rest /\
    sp_content st = replaced doc 0 (eb ++ (outer, r ++ rest) :: ea).
Proof. exact (outer_safe doc before inner after outer ops r). Qed.

(** Exactly what any history gives, for spans with text between them: what is left behind
    the new text comes from an inner span that ends where the outer one ends.  The spans
    outside have the text they had (C21_exact). *)
Theorem C22_exact doc before inner after outer ops r :
  valid_utf8 doc = true ->
  in_order 0 (length doc) (before ++ inner ++ after) -> apart (before ++ inner ++ after) ->
  in_order 0 (length doc) (before ++ outer :: after) -> apart (before ++ outer :: after) ->
  (forall sp, In sp inner -> inside sp outer) ->
  (forall sp, In sp (outer :: before ++ inner ++ after) -> on_boundaries doc sp) ->
  (forall op, In op ops -> In (fst op) (before ++ inner ++ after) /\ valid_utf8 (snd op) = true) ->
  valid_utf8 r = true -> fits doc (ops ++ [(outer, r)]) ->
  let now := map (fun sp => (sp, text_after (slice doc (s_start sp) (s_end sp)) (texts_for sp ops))) in
  exists st, splice_all (splicer_from_str doc) (ops ++ [(outer, r)]) = Ok st /\ valid_utf8 (sp_content st) = true /\
    sp_content st = replaced doc 0 (now before ++ (outer, r ++ left_behind doc inner outer ops) :: now after).
Proof.
  intros Vd Hin Ain Hout Aout Hins Hb Hop Vr Hf. destruct outer as [s e].
  exact (outer_exact doc before inner after s e Vd Hin Hout Ain Aout Hins Hb ops r Hop Vr Hf).
Qed.

(** Nothing is left if every inner span ends before the outer one, or if the one that ends
    with it was not deleted; if it was, the texts given for it since, the last first. *)
Theorem C22_left doc before inner after outer ops :
  in_order 0 (length doc) (before ++ inner ++ after) -> apart (before ++ inner ++ after) ->
  in_order 0 (length doc) (before ++ outer :: after) ->
  ((forall sp, In sp inner -> s_end sp < s_end outer) -> left_behind doc inner outer ops = []) /\
  forall sp, In sp inner -> s_end sp = s_end outer ->
    (Forall (fun t => t <> []) (texts_for sp ops) -> left_behind doc inner outer ops = []) /\
    forall ts later, texts_for sp ops = ts ++ [] :: later -> Forall (fun t => t <> []) ts ->
      left_behind doc inner outer ops = concat (rev later).
Proof.
  intros Hin Ain Hout. destruct outer as [s e]. split; [exact (left_none doc inner s e ops)|].
  intros sp Hi He. exact (left_last doc before inner after s e Hin Hout Ain ops sp Hi He).
Qed.

(** Two inner spans are deleted and spliced again: only the text of the one that ends with
    the outer span is left. *)
Example C22_exact_case : let inner := [Span 5 6; Span 10 11] in let outer := Span 5 11 in
  let ops := [(Span 10 11, bs "c"); (Span 5 6, []); (Span 10 11, []); (Span 0 4, []); (Span 5 6, bs "x"); (Span 10 11, bs "p"); (Span 0 4, bs "F"); (Span 10 11, bs "q")] in
  in_order 0 11 ([Span 0 4] ++ inner ++ []) /\ apart ([Span 0 4] ++ inner ++ []) /\
  in_order 0 11 ([Span 0 4] ++ outer :: []) /\ apart ([Span 0 4] ++ outer :: []) /\ (forall sp, In sp inner -> inside sp outer) /\
  texts_for (Span 10 11) ops = [bs "c"] ++ [] :: [bs "p"; bs "q"] /\ left_behind (bs "FROM a AS b") inner outer ops = bs "qp" /\
  exists st, splice_all (splicer_from_str (bs "FROM a AS b")) (ops ++ [(outer, bs "z")]) = Ok st /\ sp_content st = bs "F zqp".
Proof.
  cbv zeta. split; [cbn; lia|]. split; [cbn; lia|]. split; [cbn; lia|]. split; [cbn; lia|].
  split; [unfold inside; cbn; intuition; subst; cbn; lia|]. split; [reflexivity|]. split; [reflexivity|].
  eexists. split; [vm_compute; reflexivity|reflexivity].
Qed.

(** The first claim without the condition on deletions is false: the text that was
    put where an inner span was deleted stays. *)
Theorem C22_refuted : exists doc before inner after outer ops r st,
  valid_utf8 doc = true /\
  in_order 0 (length doc) (before ++ inner ++ after) /\
  in_order 0 (length doc) (before ++ outer :: after) /\
  (forall sp, In sp inner -> inside sp outer /\ sp <> outer) /\
  (forall sp, In sp (outer :: before ++ inner ++ after) -> on_boundaries doc sp) /\
  (forall op, In op ops -> In (fst op) (before ++ inner ++ after) /\ valid_utf8 (snd op) = true) /\
  valid_utf8 r = true /\ fits doc (ops ++ [(outer, r)]) /\
  splice_all (splicer_from_str doc) (ops ++ [(outer, r)]) = Ok st /\
  sp_content st <> replaced doc 0 (last_edits before ops ++ (outer, r) :: last_edits after ops).
Proof.
  exists (bs "abc"), [], [Span 1 2], [], (Span 0 2), [(Span 1 2, []); (Span 1 2, bs "x")], (bs "r").
  eexists. split; [reflexivity|]. split; [cbn; lia|]. split; [cbn; lia|].
  split; [intros sp [<-|[]]; split; [unfold inside; cbn; lia|discriminate]|].
  split; [intros sp [<-|[<-|[]]]; split; reflexivity|].
  split; [intros op [<-|[<-|[]]]; split; try reflexivity; left; reflexivity|].
  split; [reflexivity|]. split; [reflexivity|]. split; [vm_compute; reflexivity|discriminate].
Qed.

Example C22_outside_case :
  ordered 0 3 ([] ++ [Span 1 2] ++ [Span 2 2]) /\ ordered 0 3 ([] ++ Span 0 2 :: [Span 2 2]) /\
  inside (Span 1 2) (Span 0 2) /\ made_of [[]; bs "x"] (bs "x") /\
  exists st, splice_all (splicer_from_str (bs "abc")) ([(Span 1 2, []); (Span 1 2, bs "x")] ++ [(Span 0 2, bs "r")]) = Ok st /\
    sp_content st = replaced (bs "abc") 0 ([] ++ (Span 0 2, bs "r" ++ bs "x") :: [(Span 2 2, [])]).
Proof.
  split; [cbn; lia|]. split; [cbn; lia|]. split; [unfold inside; cbn; lia|].
  split; [exists [bs "x"]; split; [reflexivity|intros t [<-|[]]; right; left; reflexivity]|].
  eexists. split; [vm_compute; reflexivity|reflexivity].
Qed.

(** ** C23: any history of splices of disjoint spans, also of spans whose text was
    deleted, and of empty spans: no panic, the content stays valid, and the text outside the spans is
    what it was. *)
Theorem C23_splice_safe doc sps ops :
  valid_utf8 doc = true -> ordered 0 (length doc) sps ->
  (forall sp, In sp sps -> on_boundaries doc sp) ->
  (forall op, In op ops -> In (fst op) sps /\ valid_utf8 (snd op) = true) ->
  fits doc ops ->
  exists st edits, splice_all (splicer_from_str doc) ops = Ok st /\
    valid_utf8 (sp_content st) = true /\
    map fst edits = sps /\ sp_content st = replaced doc 0 edits.
Proof. exact (splice_safe doc sps ops). Qed.

(** Two bytes that are one character, deleted and spliced again. *)
Example C23_case :
  valid_utf8 [97; 195; 169; 98]%N = true /\
  ordered 0 4 [Span 1 3; Span 3 4; Span 4 4] /\ on_boundaries [97; 195; 169; 98]%N (Span 1 3) /\
  ~ no_splice_after_delete [(Span 1 3, []); (Span 1 3, [195; 168]%N); (Span 3 4, bs "c")] /\
  exists st, splice_all (splicer_from_str [97; 195; 169; 98]%N)
    [(Span 1 3, []); (Span 1 3, [195; 168]%N); (Span 3 4, bs "c"); (Span 4 4, bs "d")] = Ok st /\ sp_content st = bs "acd".
Proof.
  split; [reflexivity|]. split; [cbn; lia|]. split; [split; reflexivity|]. split.
  - intros H. apply (H [] (Span 1 3) [(Span 1 3, [195; 168]%N); (Span 3 4, bs "c")] eq_refl). left. reflexivity.
  - eexists. split; [vm_compute; reflexivity|reflexivity].
Qed.

(** Whatever was spliced before and whatever the span, even one that is not from this
    document: a call that returns has exchanged one stretch of characters for the
    replacement. *)
Theorem C23_any_call st sp r st' : valid_utf8 (sp_content st) = true -> valid_utf8 r = true -> splice st sp r = Ok st' ->
  exists a m z, sp_content st = a ++ m ++ z /\ sp_content st' = a ++ r ++ z /\
    valid_utf8 a = true /\ valid_utf8 m = true /\ valid_utf8 z = true /\ valid_utf8 (sp_content st') = true.
Proof.
  intros V Vr H. unfold splice in H. set (sp' := adjust_offsets sp (sp_offsets st)) in *.
  destruct (s_end sp' <? s_start sp'); [discriminate|]. unfold split_at in H.
  destruct (s_start sp' <=? length (sp_content st)) eqn:L1; [|discriminate]. apply Nat.leb_le in L1.
  destruct (is_boundary (sp_content st) (s_start sp')) eqn:B1; [|discriminate]. cbn [andb bind] in H.
  set (rest := skipn (s_start sp') (sp_content st)) in *. set (n := s_end sp' - s_start sp') in *.
  destruct (n <=? length rest) eqn:L2; [|discriminate]. apply Nat.leb_le in L2.
  destruct (is_boundary rest n) eqn:B2; [|discriminate]. cbn [andb bind] in H.
  apply (valid_boundary _ _ V L1) in B1. destruct B1 as [Va Vrest].
  apply (valid_boundary _ _ Vrest L2) in B2. destruct B2 as [Vm Vz].
  unfold new_string in H. match type of H with context [if ?b then _ else _] => destruct b; [|discriminate] end.
  cbn [bind] in H. injection H as <-. cbn [sp_content].
  exists (firstn (s_start sp') (sp_content st)), (firstn n rest), (skipn n rest).
  rewrite (firstn_skipn n rest). unfold rest. rewrite firstn_skipn. repeat split; try assumption.
  rewrite valid_utf8_app by exact Va. rewrite valid_utf8_app by exact Vr. exact Vz.
Qed.

(** On a new splicer: exactly the spans that are slices of the text can be spliced. *)
Theorem C23_first_call doc sp r : valid_utf8 doc = true ->
  (Z.of_nat (s_start sp) < two63)%Z -> (Z.of_nat (s_end sp) < two63)%Z -> (Z.of_nat (length doc + length r) < two63)%Z ->
  (s_start sp <= s_end sp /\ s_end sp <= length doc /\ on_boundaries doc sp /\
   exists st, splice (splicer_from_str doc) sp r = Ok st /\ sp_content st = firstn (s_start sp) doc ++ r ++ skipn (s_end sp) doc) \/
  (~ (s_start sp <= s_end sp /\ s_end sp <= length doc /\ on_boundaries doc sp) /\ splice (splicer_from_str doc) sp r = Panic).
Proof.
  intros V H1 H2 H3. destruct sp as [x y]. unfold on_boundaries. cbn [s_start s_end] in *.
  unfold splice, splicer_from_str, adjust_offsets. cbn [sp_offsets sp_content fold_left s_start s_end].
  rewrite !as_isize_small by lia. unfold try_usize. rewrite !(proj2 (Z.ltb_ge _ 0)) by lia. rewrite !Nat2Z.id. cbn [s_start s_end].
  destruct (Nat.ltb_spec y x) as [L|L]; [right; split; [lia|reflexivity]|]. unfold split_at.
  destruct (Nat.leb_spec x (length doc)) as [Lx|Lx]; [|right; split; [lia|reflexivity]].
  destruct (is_boundary doc x) eqn:Bx; [|right; split; [intros (_ & _ & K & _); discriminate|reflexivity]]. cbn [andb bind].
  rewrite skipn_length.
  destruct (Nat.leb_spec (y - x) (length doc - x)) as [Ly|Ly]; [|right; split; [lia|reflexivity]].
  pose proof (proj1 (valid_boundary doc x V Lx) Bx) as [V1 V2].
  assert (E : is_boundary (skipn x doc) (y - x) = is_boundary doc y).
  { assert (Hs : skipn (y - x) (skipn x doc) = skipn y doc) by (rewrite skipn_skipn; f_equal; lia).
    assert (Hf : firstn y doc = firstn x doc ++ firstn (y - x) (skipn x doc)).
    { rewrite <- (firstn_skipn x doc) at 1. rewrite firstn_app, firstn_length, Nat.min_l by lia. f_equal.
      apply firstn_all2. rewrite firstn_length. lia. }
    pose proof (valid_boundary doc y V ltac:(lia)) as K1.
    pose proof (valid_boundary (skipn x doc) (y - x) V2 ltac:(rewrite skipn_length; lia)) as K2.
    rewrite Hs in K2. rewrite Hf, valid_utf8_app in K1 by exact V1.
    destruct (is_boundary (skipn x doc) (y - x)), (is_boundary doc y); try reflexivity; exfalso.
    - destruct K2 as [K2 _]. destruct K1 as [_ K1]. specialize (K1 (K2 eq_refl)). discriminate.
    - destruct K1 as [K1 _]. destruct K2 as [_ K2]. specialize (K2 (K1 eq_refl)). discriminate. }
  rewrite E. destruct (is_boundary doc y) eqn:By; [|right; split; [intros (_ & _ & _ & K); discriminate|reflexivity]].
  left. split; [exact L|]. split; [lia|]. split; [auto|]. cbn [andb bind].
  rewrite skipn_skipn. replace (x + (y - x)) with y by lia. unfold new_string.
  rewrite (proj2 (Z.ltb_lt _ _)); [eexists; split; reflexivity|].
  rewrite !app_length, firstn_length, skipn_length. lia.
Qed.

(** Within a character, and backwards *)
Example C23_bad_case : splice (splicer_from_str [97; 195; 169; 98]%N) (Span 1 2) (bs "x") = Panic /\
  splice (splicer_from_str (bs "abc")) (Span 2 1) (bs "x") = Panic /\ splice (splicer_from_str (bs "abc")) (Span 2 4) (bs "x") = Panic /\
  exists st, splice (splicer_from_str (bs "abc")) (Span 1 2) (bs "x") = Ok st /\ sp_content st = bs "axc".
Proof. repeat split; try (vm_compute; reflexivity). eexists. split; [vm_compute; reflexivity|reflexivity]. Qed.

(** ** C24 *)
Theorem C24_relative_span d a b : a <= b -> b <= length (d_content d) ->
  exists pre rest, d_content d = pre ++ rest /\ whole_lines pre /\ length pre <= a /\
    (forall c, In c (slice (d_content d) (length pre) a) -> c <> LF) /\
    relative_span (Span a b) d = Ok (count_lf pre, Span (a - length pre) (b - length pre)) /\
    slice rest (a - length pre) (b - length pre) = slice (d_content d) a b.
Proof. exact (relative_span_spec d a b). Qed.

(** Any span whatever: beyond the text the column is counted from the last line; only a
    span that ends before it starts makes the call panic. *)
Theorem C24_any_span d a b : exists pre rest, d_content d = pre ++ rest /\ whole_lines pre /\ length pre <= a /\
  (forall c, In c (firstn (a - length pre) rest) -> c <> LF) /\
  relative_span (Span a b) d = if a <=? b then Ok (count_lf pre, Span (a - length pre) (b - length pre)) else Panic.
Proof. exact (relative_span_any d a b). Qed.

(** The lines before a line are determined by their number, so line and column
    determine the position. *)
Theorem C24_line_unique pre1 pre2 rest1 rest2 : pre1 ++ rest1 = pre2 ++ rest2 ->
  whole_lines pre1 -> whole_lines pre2 -> count_lf pre1 = count_lf pre2 -> pre1 = pre2.
Proof. exact (whole_lines_unique pre1 pre2 rest1 rest2). Qed.

Example C24_case : relative_span (Span 9 12) (Dockerfile (bs "ab" ++ [LF; LF] ++ bs "FROM xyz") [] []) = Ok (2, Span 5 8).
Proof. vm_compute. reflexivity. Qed.
Example C24_any_case : let d := Dockerfile (bs "ab" ++ [LF] ++ bs "c") [] [] in
  relative_span (Span 9 12) d = Ok (1, Span 6 9) /\ relative_span (Span 3 2) d = Panic.
Proof. vm_compute. split; reflexivity. Qed.

Print Assumptions C20_disjoint_splices_commute.
Print Assumptions C21_last_splice_wins_partial.
Print Assumptions C21_refuted.
Print Assumptions C21_exact.
Print Assumptions C21_touching.
Print Assumptions C21_touching_lost.
Print Assumptions C21_text.
Print Assumptions C22_outer_after_inner_partial.
Print Assumptions C22_outside.
Print Assumptions C22_exact.
Print Assumptions C22_left.
Print Assumptions C22_refuted.
Print Assumptions C23_splice_safe.
Print Assumptions C23_any_call.
Print Assumptions C23_first_call.
Print Assumptions C24_relative_span.
Print Assumptions C24_any_span.
Print Assumptions C24_line_unique.
