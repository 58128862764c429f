(** Variable substitution: proofs. *)

From Coq Require Import Relation_Operators Operators_Properties.
From Verif Require Import Bytes BytesFacts Result Ast Peg Splicer SpecSplice SplicerFacts Image SpecImage ImageFacts.
Local Open Scope nat_scope.

(** A [String] of Rust: UTF-8, and at most isize::MAX bytes. *)
Definition rust_string (s : bytes) : Prop :=
  valid_utf8 s = true /\ (Z.of_nat (length s) < two63)%Z.

Definition rust_vars (vs : vars) : Prop := forall w v, vs w = Some v -> rust_string v.

(** ** Words and references *)

Lemma take_word_all s : all_word (take_word s).
Proof.
  induction s as [|c s IH]; cbn [take_word]; [constructor|].
  destruct (is_word c) eqn:E; [constructor; assumption|constructor].
Qed.

Lemma take_word_split s : s = take_word s ++ skipn (length (take_word s)) s /\
  word_ends (skipn (length (take_word s)) s).
Proof.
  induction s as [|c s [IH1 IH2]]; cbn [take_word]; [split; [reflexivity|exact I]|].
  destruct (is_word c) eqn:E; cbn [length skipn app].
  - split; [f_equal; exact IH1|exact IH2].
  - split; [reflexivity|]. cbn [word_ends]. exact E.
Qed.

Lemma take_word_app w rest : all_word w -> word_ends rest -> take_word (w ++ rest) = w.
Proof.
  induction w as [|c w IH]; intros Hw Hr; cbn [app].
  - destruct rest as [|c rest]; [reflexivity|]. cbn [take_word word_ends] in *. rewrite Hr. reflexivity.
  - inversion Hw as [|? ? Hc Hw']; subst. cbn [take_word]. rewrite Hc. f_equal. apply IH; assumption.
Qed.

Lemma is_word_lbrace : is_word LBRACE = false.
Proof. reflexivity. Qed.
Lemma is_word_rbrace : is_word RBRACE = false.
Proof. reflexivity. Qed.

Lemma match_var_sound s w n : match_var s = Some (w, n) ->
  begins_with_ref s w (skipn n s) /\ 2 <= n <= length s.
Proof.
  destruct s as [|d t]; cbn [match_var]; [discriminate|].
  destruct (negb (d =? DOLLAR)%N) eqn:Ed; [discriminate|]. bool_hyps. subst d.
  destruct (take_word_split t) as [T1 T2]. pose proof (take_word_all t) as T3.
  destruct (take_word t) as [|x tw] eqn:Et.
  - destruct t as [|b u]; [discriminate|].
    destruct (negb (b =? LBRACE)%N) eqn:Eb; [discriminate|]. bool_hyps. subst b.
    destruct (take_word_split u) as [U1 U2]. pose proof (take_word_all u) as U3.
    destruct (take_word u) as [|y uw] eqn:Eu; [discriminate|].
    set (wd := y :: uw) in *.
    destruct (nth_error u (length wd)) as [e|] eqn:En; [|discriminate].
    destruct (e =? RBRACE)%N eqn:Ee; [|discriminate]. bool_hyps. subst e.
    intros H. injection H as <- <-.
    assert (Hs : skipn (length wd) u = RBRACE :: skipn (S (length wd)) u).
    { clear - En. revert u En. induction (length wd) as [|k IH]; intros [|x u] En; cbn [nth_error] in En; try discriminate.
      - injection En as ->. reflexivity.
      - cbn [skipn]. apply IH. exact En. }
    rewrite Hs in U1. split.
    + match goal with |- begins_with_ref _ _ (skipn ?k _) =>
        replace k with (S (S (S (length wd)))) by (unfold wd; cbn [length]; lia) end.
      change (skipn (S (S (S (length wd)))) (DOLLAR :: LBRACE :: u)) with (skipn (S (length wd)) u).
      rewrite U1 at 1. apply ref_brace; [discriminate|assumption].
    + apply (f_equal (@length N)) in U1. rewrite app_length in U1. unfold wd in *. cbn [length] in *. lia.
  - intros H. injection H as <- <-. set (wd := x :: tw) in *. split.
    + match goal with |- begins_with_ref _ _ (skipn ?k _) =>
        replace k with (S (length wd)) by (unfold wd; cbn [length]; lia) end.
      change (skipn (S (length wd)) (DOLLAR :: t)) with (skipn (length wd) t).
      rewrite T1 at 1. apply ref_plain; [discriminate|assumption|assumption].
    + apply (f_equal (@length N)) in T1. rewrite app_length in T1. unfold wd in *. cbn [length] in *. lia.
Qed.

Lemma match_var_complete s w rest : begins_with_ref s w rest ->
  match_var s = Some (w, length s - length rest).
Proof.
  intros H. destruct H as [w rest Hw Ha He | w rest Hw Ha].
  - cbn [match_var]. rewrite N.eqb_refl. cbn [negb]. rewrite take_word_app by assumption.
    destruct w as [|x w]; [contradiction|]. cbn [length app]. rewrite app_length. do 2 f_equal. lia.
  - cbn [match_var]. rewrite N.eqb_refl. cbn [negb take_word]. rewrite is_word_lbrace, N.eqb_refl. cbn [negb].
    rewrite take_word_app by (try assumption; reflexivity).
    destruct w as [|x w]; [contradiction|].
    rewrite nth_error_app2, Nat.sub_diag by lia. cbn [nth_error]. rewrite N.eqb_refl.
    cbn [length app]. rewrite app_length. cbn [length]. do 2 f_equal. lia.
Qed.

Lemma begins_shorter s w rest : begins_with_ref s w rest -> length rest < length s.
Proof. intros H. destruct H; cbn [length]; rewrite app_length; cbn [length]; lia. Qed.

Lemma begins_suffix s w rest : begins_with_ref s w rest -> exists pre, s = pre ++ rest /\ pre <> [] /\ ascii_all pre = true.
Proof.
  assert (A : forall w, all_word w -> ascii_all w = true).
  { intros x Hx. unfold ascii_all. induction Hx as [|c x Hc Hx IH]; [reflexivity|]. cbn [forallb].
    rewrite IH, andb_true_r. apply N.ltb_lt. unfold is_word, is_alnum, is_alpha, is_lower, is_upper, is_digit in Hc.
    bool_hyps. destruct Hc as [Hc|Hc]; bool_hyps; [|lia].
    destruct Hc as [Hc|Hc]; bool_hyps; [|lia]. destruct Hc as [Hc|Hc]; bool_hyps; lia. }
  intros H. destruct H as [w rest Hw Ha He | w rest Hw Ha].
  - exists (DOLLAR :: w). split; [reflexivity|]. split; [discriminate|].
    unfold ascii_all. cbn [forallb]. apply (A w Ha).
  - exists (DOLLAR :: LBRACE :: w ++ [RBRACE]). split.
    + cbn [app]. rewrite <- app_assoc. reflexivity.
    + split; [discriminate|]. unfold ascii_all. cbn [forallb]. rewrite forallb_app.
      fold (ascii_all w). rewrite (A w Ha). reflexivity.
Qed.

Lemma begins_fun s w1 r1 w2 r2 : begins_with_ref s w1 r1 -> begins_with_ref s w2 r2 -> w1 = w2 /\ r1 = r2.
Proof.
  intros H1 H2.
  pose proof (match_var_complete _ _ _ H1) as E1. pose proof (match_var_complete _ _ _ H2) as E2.
  rewrite E1 in E2. injection E2 as -> Hl. split; [reflexivity|].
  pose proof (begins_shorter _ _ _ H1). pose proof (begins_shorter _ _ _ H2).
  destruct (begins_suffix _ _ _ H1) as (p1 & -> & _). destruct (begins_suffix _ _ _ H2) as (p2 & E & _).
  rewrite app_length in *.
  assert (L : length p1 = length p2).
  { apply (f_equal (@length N)) in E. rewrite !app_length in E. lia. }
  apply (f_equal (skipn (length p1))) in E. rewrite skipn_app_exact in E. rewrite L, skipn_app_exact in E. exact E.
Qed.

Lemma reads_fun s l1 : reads_as s l1 -> forall l2, reads_as s l2 -> l1 = l2.
Proof.
  intros H. induction H as [|s w rest l Hb Hr IH|c s l Hn Hr IH]; intros l2 H2.
  - inversion H2 as [E|s' w rest l Hb Hr|]; [reflexivity|]. subst. apply begins_shorter in Hb. cbn in Hb. lia.
  - inversion H2 as [E|s' w' rest' l' Hb' Hr' E1 E2|c s' l' Hn Hr' E1 E2]; subst.
    + apply begins_shorter in Hb. cbn in Hb. lia.
    + destruct (begins_fun _ _ _ _ _ Hb Hb') as [-> ->]. f_equal. apply IH. exact Hr'.
    + exfalso. apply (Hn _ _ Hb).
  - inversion H2 as [E|s' w' rest' l' Hb' Hr' E1 E2|c' s' l' Hn' Hr' E1 E2]; subst.
    + exfalso. apply (Hn _ _ Hb').
    + f_equal. apply IH. exact Hr'.
Qed.

(** ** The matches of the regex are the references *)

Inductive caps_as : nat -> bytes -> list segment -> list (nat * nat * bytes) -> Prop :=
| caps_nil p : caps_as p [] [] []
| caps_ref p s w pre rest l cs : s = pre ++ rest -> begins_with_ref s w rest ->
    caps_as (p + length pre) rest l cs ->
    caps_as p s (Ref w :: l) ((p, length pre, w) :: cs)
| caps_lit p c s l cs : (forall w rest, ~ begins_with_ref (c :: s) w rest) ->
    caps_as (S p) s l cs -> caps_as p (c :: s) (Lit c :: l) cs.

Lemma caps_reads p s l cs : caps_as p s l cs -> reads_as s l.
Proof. intros H. induction H; [constructor|econstructor; eassumption|constructor; assumption]. Qed.

Lemma captures_skip s p k : k <= length s -> captures s p k = captures (skipn k s) (p + k) 0.
Proof.
  revert p s; induction k as [|k IH]; intros p s H.
  - rewrite Nat.add_0_r. reflexivity.
  - destruct s as [|c s]; cbn [length] in H; [lia|]. cbn [captures skipn].
    rewrite IH by lia. f_equal. lia.
Qed.

Lemma captures_spec s : forall p, exists l, caps_as p s l (captures s p 0).
Proof.
  remember (length s) as n eqn:En. revert s En. induction n as [n IH] using lt_wf_ind. intros s En p.
  destruct s as [|c s]; [exists []; constructor|].
  cbn [captures]. destruct (match_var (c :: s)) as [[w k]|] eqn:Em.
  - destruct (match_var_sound _ _ _ Em) as [Hb Hk].
    destruct (begins_suffix _ _ _ Hb) as (pre & E & Hne & _).
    assert (Lp : length pre = k).
    { pose proof (f_equal (@length N) E) as L. rewrite app_length, skipn_length in L. lia. }
    destruct (IH (length (skipn k (c :: s))) ltac:(rewrite skipn_length; cbn [length] in *; lia) _ eq_refl (p + k)) as [l Hl].
    exists (Ref w :: l).
    rewrite captures_skip by (cbn [length] in Hk; lia).
    replace (skipn (k - 1) s) with (skipn k (c :: s)) by (destruct k; [lia|]; cbn [skipn]; f_equal; lia).
    replace (S p + (k - 1)) with (p + k) by lia.
    subst k. econstructor; [exact E|exact Hb|exact Hl].
  - destruct (IH (length s) ltac:(subst n; cbn [length]; lia) _ eq_refl (S p)) as [l Hl].
    exists (Lit c :: l). constructor; [|exact Hl].
    intros w rest Hb. apply match_var_complete in Hb. congruence.
Qed.

Lemma reads_total s : exists l, reads_as s l.
Proof. destruct (captures_spec s 0) as [l H]. exists l. apply (caps_reads _ _ _ _ H). Qed.

Lemma mentions_iff s l w : reads_as s l -> (mentions s w <-> In (Ref w) l).
Proof.
  intros H. split.
  - intros (l' & H' & Hi). rewrite (reads_fun _ _ H _ H'). exact Hi.
  - intros Hi. exists l. auto.
Qed.

(** ** Expansion *)

Scheme expands_mind := Induction for expands Sort Prop
  with expands_segs_mind := Induction for expands_segs Sort Prop.
Combined Scheme expands_mutind from expands_mind, expands_segs_mind.

Section Vs.
Variable vs : vars.

Lemma segs_app d l1 o1 l2 o2 : expands_segs vs d l1 o1 -> expands_segs vs d l2 o2 ->
  expands_segs vs d (l1 ++ l2) (o1 ++ o2).
Proof.
  intros H1 H2. induction H1 as [d|d c l out H IH|d w v o l out Hv He H IH]; cbn [app].
  - exact H2.
  - constructor. apply IH. exact H2.
  - rewrite <- app_assoc. econstructor; [exact Hv|exact He|apply IH; exact H2].
Qed.

Lemma expands_fun :
  (forall d s o, expands vs d s o -> forall o', expands vs d s o' -> o = o') /\
  (forall d l o, expands_segs vs d l o -> forall o', expands_segs vs d l o' -> o = o').
Proof.
  apply (expands_mutind vs (fun d s o _ => forall o', expands vs d s o' -> o = o')
                           (fun d l o _ => forall o', expands_segs vs d l o' -> o = o')).
  - intros d s l out Hr Hs IH o' H. inversion H as [d' s' l' o'' Hr' Hs']; subst.
    rewrite (reads_fun _ _ Hr' _ Hr) in Hs'. apply IH. exact Hs'.
  - intros d o' H. inversion H. reflexivity.
  - intros d c l out Hs IH o' H. inversion H as [|d' c' l' out' Hs'|]; subst. f_equal. apply IH. exact Hs'.
  - intros d w v o l out Hv He IHe Hs IHs o' H. inversion H as [| |d' w' v' o'' l' out' Hv' He' Hs']; subst.
    rewrite Hv in Hv'. injection Hv' as <-. rewrite (IHe _ He'), (IHs _ Hs'). reflexivity.
Qed.

Lemma expands_mono :
  (forall d s o, expands vs d s o -> forall d', d <= d' -> expands vs d' s o) /\
  (forall d l o, expands_segs vs d l o -> forall d', d <= d' -> expands_segs vs d' l o).
Proof.
  apply (expands_mutind vs (fun d s o _ => forall d', d <= d' -> expands vs d' s o)
                           (fun d l o _ => forall d', d <= d' -> expands_segs vs d' l o)).
  - intros d s l out Hr Hs IH d' Hd. econstructor; [exact Hr|apply IH; exact Hd].
  - intros d d' Hd. constructor.
  - intros d c l out Hs IH d' Hd. constructor. apply IH. exact Hd.
  - intros d w v o l out Hv He IHe Hs IHs d' Hd. destruct d' as [|d']; [lia|].
    econstructor; [exact Hv|apply IHe; lia|apply IHs; lia].
Qed.

(** What a successful expansion knows about each reference. *)
Lemma segs_ref_inv d l o : expands_segs vs d l o -> forall w, In (Ref w) l ->
  exists d1 v o1, d = S d1 /\ vs w = Some v /\ expands vs d1 v o1.
Proof.
  intros H. induction H as [d|d c l out H IH|d w v o l out Hv He H IH]; intros x Hi; [destruct Hi| |].
  - destruct Hi as [Hi|Hi]; [discriminate|]. apply IH. exact Hi.
  - destruct Hi as [Hi|Hi]; [|apply IH; exact Hi]. injection Hi as ->. exists d, v, o. auto.
Qed.

Lemma expands_ref_inv d s o w : expands vs d s o -> mentions s w ->
  exists d1 v o1, d = S d1 /\ vs w = Some v /\ expands vs d1 v o1.
Proof.
  intros H Hm. destruct H as [d s l out Hr Hs]. apply (mentions_iff _ _ _ Hr) in Hm.
  apply (segs_ref_inv _ _ _ Hs _ Hm).
Qed.

Lemma expands_not_stuck d s o : expands vs d s o -> ~ stuck vs d s.
Proof.
  intros H Hs. revert o H. induction Hs as [s w Hm|d s w Hm Hv|d s w v Hm Hv Hs IH]; intros o H;
    destruct (expands_ref_inv _ _ _ _ H Hm) as (d1 & v1 & o1 & E & Hv1 & He).
  - discriminate.
  - congruence.
  - injection E as <-. rewrite Hv in Hv1. injection Hv1 as <-. apply (IH _ He).
Qed.

(** Without a stuck reference there is an expansion. *)
Lemma expands_or_stuck d : forall s, (exists o, expands vs d s o) \/ stuck vs d s.
Proof.
  induction d as [|d IH]; intros s; destruct (reads_total s) as [l Hl].
  - assert (H : (exists o, expands_segs vs 0 l o) \/ exists w, In (Ref w) l).
    { clear Hl. induction l as [|[c|w] l IHl].
      - left. exists []. constructor.
      - destruct IHl as [[o H]|[w H]]; [left; exists (c :: o); constructor; exact H|right; exists w; right; exact H].
      - right. exists w. left. reflexivity. }
    destruct H as [[o H]|[w H]].
    + left. exists o. econstructor; eassumption.
    + right. apply (stuck_depth vs s w). apply (mentions_iff _ _ _ Hl). exact H.
  - assert (H : (exists o, expands_segs vs (S d) l o) \/
                exists w, In (Ref w) l /\ (vs w = None \/ exists v, vs w = Some v /\ stuck vs d v)).
    { clear Hl. induction l as [|[c|w] l IHl].
      - left. exists []. constructor.
      - destruct IHl as [[o H]|[w [H1 H2]]]; [left; exists (c :: o); constructor; exact H|right; exists w; split; [right; exact H1|exact H2]].
      - destruct IHl as [[o H]|[x [H1 H2]]]; [|right; exists x; split; [right; exact H1|exact H2]].
        destruct (vs w) as [v|] eqn:Ev.
        + destruct (IH v) as [[o1 H1]|H1].
          * left. exists (o1 ++ o). econstructor; eassumption.
          * right. exists w. split; [left; reflexivity|]. right. exists v. auto.
        + right. exists w. split; [left; reflexivity|]. left. exact Ev. }
    destruct H as [[o H]|[w [H1 [H2|(v & H2 & H3)]]]].
    + left. exists o. econstructor; eassumption.
    + right. apply (stuck_undefined vs _ s w); [apply (mentions_iff _ _ _ Hl); exact H1|exact H2].
    + right. apply (stuck_below vs _ s w v); [apply (mentions_iff _ _ _ Hl); exact H1|exact H2|exact H3].
Qed.

(** ** Reachability *)

Lemma reaches_step s x : reaches vs s x <->
  exists w, mentions s w /\ (x = w \/ exists v, vs w = Some v /\ reaches vs v x).
Proof.
  split.
  - intros (a & Hm & Hr). exists a. split; [exact Hm|].
    apply clos_rt_rt1n in Hr. destruct Hr as [|b c (v & Hv & Hb) Hr]; [left; reflexivity|].
    right. exists v. split; [exact Hv|]. exists b. split; [exact Hb|]. apply clos_rt1n_rt. exact Hr.
  - intros (w & Hm & [->|(v & Hv & b & Hb & Hr)]).
    + exists w. split; [exact Hm|apply rt_refl].
    + exists w. split; [exact Hm|]. apply rt_trans with b; [|exact Hr]. apply rt_step. exists v. auto.
Qed.

(** Every variable reached in a successful expansion has a smaller expansion. *)
Lemma reached_expands d s o w : expands vs d s o -> reaches vs s w ->
  exists d1 v o1, d1 < d /\ vs w = Some v /\ expands vs d1 v o1.
Proof.
  intros H (a & Hm & Hr). destruct (expands_ref_inv _ _ _ _ H Hm) as (d1 & v & o1 & -> & Hv & He).
  apply clos_rt_rt1n in Hr. revert d1 v o1 Hv He Hm H.
  induction Hr as [a|a b c (va & Ha & Hb) Hr IH]; intros d1 v o1 Hv He Hm H.
  - exists d1, v, o1. auto.
  - rewrite Ha in Hv. injection Hv as ->.
    destruct (expands_ref_inv _ _ _ _ He Hb) as (d2 & v2 & o2 & -> & Hv2 & He2).
    assert (H' : exists d1' v' o1', d1' < S d2 /\ vs c = Some v' /\ expands vs d1' v' o1').
    { clear - Hr Hv2 He2. revert d2 v2 o2 Hv2 He2. induction Hr as [b|b x c (vb & Hvb & Hx) Hr IH]; intros d2 v2 o2 Hv2 He2.
      - exists d2, v2, o2. auto.
      - rewrite Hvb in Hv2. injection Hv2 as ->.
        destruct (expands_ref_inv _ _ _ _ He2 Hx) as (d3 & v3 & o3 & -> & Hv3 & He3).
        destruct (IH _ _ _ Hv3 He3) as (d' & v' & o' & Hd & Hv' & He'). exists d', v', o'. split; [lia|auto]. }
    destruct H' as (d' & v' & o' & Hd & Hv' & He'). exists d', v', o'. split; [lia|auto].
Qed.

Lemma cycle_no_expansion w : clos_trans _ (refers vs) w w ->
  forall d s o, reaches vs s w -> ~ expands vs d s o.
Proof.
  intros Hc d. induction d as [d IH] using lt_wf_ind. intros s o Hr H.
  destruct (reached_expands _ _ _ _ H Hr) as (d1 & v & o1 & Hd & Hv & He).
  apply (IH d1 Hd v o1); [|exact He].
  apply clos_trans_t1n in Hc. destruct Hc as [y (v' & Hv' & Hm)|y z (v' & Hv' & Hm) Hc].
  - rewrite Hv in Hv'. injection Hv' as <-. exists y. split; [exact Hm|apply rt_refl].
  - rewrite Hv in Hv'. injection Hv' as <-. exists y. split; [exact Hm|].
    apply clos_t1n_trans in Hc. clear - Hc. induction Hc as [x y H|x y z H1 IH1 H2 IH2]; [apply rt_step; exact H|apply rt_trans with y; assumption].
Qed.

(** ** The function *)

Lemma set_mem_spec x l : set_mem x l = true <-> In x l.
Proof.
  unfold set_mem. rewrite existsb_exists. split.
  - intros (y & Hy & E). apply beqb_eq in E. subst. exact Hy.
  - intros H. exists x. split; [exact H|apply beqb_refl].
Qed.

Lemma set_insert_spec x y l : In y (set_insert x l) <-> y = x \/ In y l.
Proof.
  unfold set_insert. destruct (set_mem x l) eqn:E.
  - apply set_mem_spec in E. split; [auto|]. intros [->|H]; assumption.
  - rewrite in_app_iff. cbn [In]. split; [intros [H|[H|[]]]; auto|intros [H|H]; auto].
Qed.

Lemma set_insert_nodup x l : NoDup l -> NoDup (set_insert x l).
Proof.
  intros H. unfold set_insert. destruct (set_mem x l) eqn:E; [exact H|].
  assert (Hn : ~ In x l) by (rewrite <- set_mem_spec; congruence).
  clear E. induction H as [|y l Hy H IH]; cbn [app]; [constructor; [intros []|constructor]|].
  constructor.
  - rewrite in_app_iff. intros [K|[K|[]]]; [contradiction|]. subst. apply Hn. left. reflexivity.
  - apply IH. intros K. apply Hn. right. exact K.
Qed.

(** What a call of [substitute] at depth [d] on [s] may give. *)
Definition call_spec (d : nat) (s : bytes) (used : list bytes) (r : outcome subst_result) : Prop :=
  match r with
  | Ok (Some out, used') =>
    expands vs d s out /\ rust_string out /\
    (forall x, In x used' <-> In x used \/ reaches vs s x)
  | Ok (None, used') =>
    stuck vs d s /\ (forall x, In x used' -> In x used \/ reaches vs s x) /\
    (forall x, In x used -> In x used')
  | Panic => exists t, intermediate vs d s t /\ (two63 <= Z.of_nat (length t))%Z
  | Err _ => False
  | Diverge => False
  end.

Hypothesis Hvs : rust_vars vs.

Lemma caps_end_bound p s l cs : caps_as p s l cs -> forall q n w, In (q, n, w) cs -> p <= q /\ q + n <= p + length s.
Proof.
  intros H. induction H as [p|p s w pre rest l cs E Hb H IH|p c s l cs Hn H IH]; intros q n x Hi; [destruct Hi| |].
  - destruct Hi as [Hi|Hi].
    + injection Hi as <- <- <-. rewrite E, app_length. lia.
    + apply IH in Hi. rewrite E, app_length. lia.
  - apply IH in Hi. cbn [length]. lia.
Qed.

Lemma subst_loop_spec (s : bytes) d rec : rust_string s ->
  (forall d', d = S d' -> forall v used, rust_string v -> call_spec d' v used (rec v used)) ->
  forall p rest l cs, caps_as p rest l cs ->
  forall done l1 ops st cells used used0,
  s = done ++ rest -> length done = p -> reads_as s (l1 ++ l) ->
  inv s ops st cells -> ops_within p ops -> skipn p cells = cells0 rest ->
  expands_segs vs d l1 (part cells 0 p) ->
  (forall x, In x used <-> In x used0 \/ exists w, In (Ref w) l1 /\ (x = w \/ exists v, vs w = Some v /\ reaches vs v x)) ->
  call_spec d s used0 (subst_loop rec (d =? 0) vs cs st used).
Proof.
  intros [Hsv Hss] Hrec p rest l cs Hc.
  induction Hc as [p|p rest w pre rest' l cs E Hb Hc IH|p c rest l cs Hn Hc IH];
    intros done l1 ops st cells used used0 Es Hp Hr Hi Hw Ht Hx Hu.
  - (* end *)
    cbn [subst_loop call_spec]. rewrite !app_nil_r in *. subst done.
    assert (Ec : sp_content st = part cells 0 p).
    { rewrite (inv_content _ _ _ _ Hi). rewrite <- Hp, <- (inv_len _ _ _ _ Hi).
      unfold part. rewrite Nat.sub_0_r. cbn [skipn]. rewrite firstn_all. reflexivity. }
    split; [|split].
    + rewrite Ec. econstructor; eassumption.
    + split.
      * rewrite Ec. apply (inv_utf8 _ _ _ _ Hi); try lia; try apply compat_0; try reflexivity.
        -- intros op Ho. right. apply Hw. exact Ho.
        -- apply is_boundary_spec; [lia|]. right. rewrite skipn_all2 by lia. exact Logic.I.
      * rewrite (inv_content _ _ _ _ Hi). apply (inv_size _ _ _ _ Hi).
    + intros x. rewrite Hu. rewrite reaches_step. split; (intros [K|(w & K1 & K2)]; [left; exact K|right; exists w; split; [|exact K2]]).
      * apply (mentions_iff _ _ _ Hr). exact K1.
      * apply (mentions_iff _ _ _ Hr). exact K1.
  - (* a reference *)
    assert (Hm : mentions s w).
    { apply (mentions_iff _ _ _ Hr). apply in_or_app. right. left. reflexivity. }
    assert (Hl1 : forall x, In (Ref x) l1 -> mentions s x).
    { intros x K. apply (mentions_iff _ _ _ Hr). apply in_or_app. left. exact K. }
    assert (Hused : forall x, In x used -> In x used0 \/ reaches vs s x).
    { intros x K. apply Hu in K. destruct K as [K|(y & K1 & K2)]; [left; exact K|].
      right. apply reaches_step. exists y. split; [apply Hl1; exact K1|exact K2]. }
    assert (Hused0 : forall x, In x used0 -> In x used).
    { intros x K. apply Hu. left. exact K. }
    cbn [subst_loop]. destruct (d =? 0) eqn:Ed; bool_hyps.
    { cbn [call_spec]. split; [|split; [exact Hused|exact Hused0]]. subst d. apply (stuck_depth vs s w Hm). }
    destruct d as [|d]; [contradiction|]. clear Ed.
    destruct (vs w) as [v|] eqn:Ev.
    2: { cbn [call_spec]. split; [|split; [exact Hused|exact Hused0]]. apply (stuck_undefined vs (S d) s w Hm Ev). }
    pose proof (Hrec d eq_refl v used (Hvs _ _ Ev)) as Hcall.
    destruct (rec v used) as [[[text|] used1]|e| |] eqn:Er; cbn [bind]; cbn [call_spec] in Hcall.
    2: { cbn [call_spec]. destruct Hcall as (K1 & K2 & K3). split; [apply (stuck_below vs d s w v Hm Ev K1)|]. split.
         - intros x K. apply K2 in K. destruct K as [K|K]; [apply Hused; exact K|]. right.
           apply reaches_step. exists w. split; [exact Hm|]. right. exists v. auto.
         - intros x K. apply K3, Hused0. exact K. }
    2: contradiction.
    2: { cbn [call_spec]. destruct Hcall as (t & K1 & K2). exists t. split; [|exact K2]. apply (inter_below vs d s w v t Hm Ev K1). }
    2: contradiction.
    destruct Hcall as (Hexp & [Htv Hts] & Hu1).
    (* the splice *)
    destruct (begins_suffix _ _ _ Hb) as (pre' & Epre & Hne & Hasc).
    assert (pre' = pre) as ->.
    { rewrite E in Epre. apply app_inv_tail in Epre. auto. }
    assert (Hpre : 0 < length pre) by (destruct pre; [contradiction|cbn [length]; lia]).
    assert (Hpl : p + length pre <= length s) by (rewrite Es, E, !app_length; lia).
    assert (Vrest : valid_utf8 rest = true /\ valid_utf8 done = true).
    { destruct pre as [|c0 pre0]; [contradiction|].
      cbn [ascii_all forallb] in Hasc. apply andb_true_iff in Hasc. destruct Hasc as [Hc0 _]. apply N.ltb_lt in Hc0.
      destruct (valid_utf8_cut s Hsv done rest Es) as [K1 K2]; [|auto].
      rewrite E. cbn [app]. unfold is_cont. apply in_range_false. lia. }
    destruct Vrest as [Vrest Vdone].
    assert (Vrest' : valid_utf8 rest' = true).
    { rewrite E in Vrest. rewrite valid_utf8_ascii_app in Vrest by exact Hasc. exact Vrest. }
    assert (B1 : is_boundary s p = true).
    { rewrite Es, <- Hp. apply boundary_of_app. exact Vrest. }
    assert (B2 : is_boundary s (p + length pre) = true).
    { rewrite Es, E, <- Hp, app_assoc, <- app_length. apply boundary_of_app. exact Vrest'. }
    assert (Hw' : ops_within (length s) ops).
    { intros op K. apply Hw in K. lia. }
    assert (C1 : compat ops p) by (intros op K; right; apply Hw; exact K).
    assert (C2 : compat ops (p + length pre)) by (intros op K; right; apply Hw in K; lia).
    set (cells' := put cells (Span p (p + length pre), text)).
    assert (HL : length cells = length s) by apply (inv_len _ _ _ _ Hi).
    assert (Hwithin : ops_within (p + length pre) (ops ++ [(Span p (p + length pre), text)])).
    { intros op K. apply in_app_or in K. destruct K as [K|[<-|[]]]; [apply Hw in K; lia|]. cbn [fst s_end]. lia. }
    assert (Hpart : part cells' 0 (p + length pre) = part cells 0 p ++ text).
    { unfold cells'. rewrite part_put_around by lia. unfold part at 2. rewrite Nat.sub_diag. cbn [firstn concat]. rewrite app_nil_r. reflexivity. }
    assert (Hsegs : expands_segs vs (S d) (l1 ++ [Ref w]) (part cells' 0 (p + length pre))).
    { rewrite Hpart. apply segs_app; [exact Hx|]. rewrite <- (app_nil_r text). econstructor; [exact Ev|exact Hexp|constructor]. }
    assert (Hold : part cells p (p + length pre) <> []).
    { unfold part. rewrite Ht, E, firstn_cells0, concat_cells0.
      replace (p + length pre - p) with (length pre) by lia. rewrite firstn_app_exact. exact Hne. }
    assert (Ht' : skipn (p + length pre) cells' = cells0 rest').
    { unfold cells'. rewrite skipn_put_ge by lia. rewrite <- skipn_skipn, Ht, E, skipn_cells0, skipn_app_exact. reflexivity. }
    assert (Hr' : reads_as s ((l1 ++ [Ref w]) ++ l)) by (rewrite <- app_assoc; exact Hr).
    destruct (Z.ltb_spec (Z.of_nat (length (concat cells'))) two63) as [Hsz|Hsz].
    + destruct (inv_splice s ops st cells p (p + length pre) text) as (st' & Esp & Hi'); try assumption; try lia.
      { left. exact Hold. }
      cbv zeta. rewrite Esp. cbn [bind].
      apply (IH (done ++ pre) (l1 ++ [Ref w]) (ops ++ [(Span p (p + length pre), text)]) st' cells' (set_insert w used1) used0).
      * rewrite <- app_assoc, <- E. exact Es.
      * rewrite app_length. lia.
      * exact Hr'.
      * exact Hi'.
      * exact Hwithin.
      * exact Ht'.
      * exact Hsegs.
      * intros x. rewrite set_insert_spec, Hu1, Hu. split.
        -- intros [->|[[K|(y & K1 & K2)]|K]].
           ++ right. exists w. split; [apply in_or_app; right; left; reflexivity|]. left. reflexivity.
           ++ left. exact K.
           ++ right. exists y. split; [apply in_or_app; left; exact K1|exact K2].
           ++ right. exists w. split; [apply in_or_app; right; left; reflexivity|]. right. exists v. auto.
        -- intros [K|(y & K1 & K2)]; [right; left; left; exact K|].
           apply in_app_or in K1. destruct K1 as [K1|[K1|[]]].
           ++ right. left. right. exists y. auto.
           ++ injection K1 as <-. destruct K2 as [->|(v' & K2 & K3)]; [left; reflexivity|].
              rewrite Ev in K2. injection K2 as <-. right. right. exact K3.
    + cbv zeta. rewrite (splice_content s ops st cells) by (try assumption; lia).
      fold cells'. rewrite (proj2 (Z.ltb_ge _ _)) by lia. cbn [bind call_spec].
      exists (concat cells'). split; [|exact Hsz].
      replace (concat cells') with (part cells' 0 (p + length pre) ++ rest').
      * apply (inter_here vs (S d) s (l1 ++ [Ref w]) l rest' (done ++ pre)).
        -- rewrite <- app_assoc, <- E. exact Es.
        -- exact Hr'.
        -- apply (caps_reads _ _ _ _ Hc).
        -- exact Hsegs.
      * rewrite part_0. rewrite <- (concat_cells0 rest'), <- Ht', <- concat_app, firstn_skipn. reflexivity.
  - (* a plain byte *)
    apply (IH (done ++ [c]) (l1 ++ [Lit c]) ops st cells used used0).
    + rewrite <- app_assoc. exact Es.
    + rewrite app_length. cbn [length]. lia.
    + rewrite <- app_assoc. exact Hr.
    + exact Hi.
    + intros op K. apply Hw in K. lia.
    + replace (S p) with (p + 1) by lia. rewrite <- skipn_skipn, Ht. reflexivity.
    + assert (Epart : part cells 0 (S p) = part cells 0 p ++ [c]).
      { rewrite (part_app cells 0 p (S p)) by lia. f_equal. unfold part. rewrite Ht.
        replace (S p - p) with 1 by lia. reflexivity. }
      rewrite Epart. apply segs_app; [exact Hx|]. constructor. constructor.
    + intros x. rewrite Hu. split; (intros [K|(w & K1 & K2)]; [left; exact K|right; exists w; split; [|exact K2]]).
      * apply in_or_app. left. exact K1.
      * apply in_app_or in K1. destruct K1 as [K1|[K1|[]]]; [exact K1|discriminate].
Qed.

Lemma substitute_spec d : forall s used, rust_string s ->
  call_spec d s used (substitute s vs used d).
Proof.
  induction d as [|d IH]; intros s used Hs.
  - cbn [substitute]. destruct (captures_spec s 0) as [l Hc].
    apply (subst_loop_spec s 0 _ Hs) with (p := 0) (rest := s) (l := l) (done := []) (l1 := []) (ops := [])
      (cells := cells0 s); try reflexivity; try assumption.
    + intros d' K. discriminate.
    + apply (caps_reads _ _ _ _ Hc).
    + destruct Hs. apply inv_start; assumption.
    + intros op [].
    + unfold part. cbn [Nat.sub firstn concat]. constructor.
    + intros x. split; [auto|]. intros [K|(w & [] & _)]. exact K.
  - cbn [substitute]. destruct (captures_spec s 0) as [l Hc].
    apply (subst_loop_spec s (S d) _ Hs) with (p := 0) (rest := s) (l := l) (done := []) (l1 := []) (ops := [])
      (cells := cells0 s); try reflexivity; try assumption.
    + intros d' K v used' Hv. injection K as <-. apply IH. exact Hv.
    + apply (caps_reads _ _ _ _ Hc).
    + destruct Hs. apply inv_start; assumption.
    + intros op [].
    + unfold part. cbn [Nat.sub firstn concat]. constructor.
    + intros x. split; [auto|]. intros [K|(w & [] & _)]. exact K.
Qed.

(** Depth 0 *)
Lemma substitute_zero s used out used' :
  substitute s vs used 0 = Ok (Some out, used') <->
  (forall w, ~ mentions s w) /\ out = s /\ used' = used.
Proof.
  cbn [substitute Nat.eqb]. destruct (captures_spec s 0) as [l Hc].
  pose proof (caps_reads _ _ _ _ Hc) as Hr.
  assert (K : captures s 0 0 = [] <-> forall w, ~ mentions s w).
  { assert (K0 : captures s 0 0 = [] <-> forall w, ~ In (Ref w) l).
    { clear Hr. revert Hc. generalize (captures s 0 0) as cs. generalize 0 as p. intros p cs Hc.
      induction Hc as [p|p s w pre rest l cs E Hb H IH|p c s l cs Hn H IH].
      - split; [intros _ w []|reflexivity].
      - split; [discriminate|]. intros H'. exfalso. apply (H' w). left. reflexivity.
      - rewrite IH. split; intros H' w Hi.
        + destruct Hi as [Hi|Hi]; [discriminate|]. apply (H' w Hi).
        + apply (H' w). right. exact Hi. }
    rewrite K0. split; intros H w Hm; apply (H w); apply (mentions_iff _ _ _ Hr); exact Hm. }
  destruct (captures s 0 0) as [|[[q n] w] cs] eqn:Ec; cbn [subst_loop].
  - cbn [splicer_from_str sp_content]. split.
    + intros H. injection H as <- <-. split; [apply K; reflexivity|auto].
    + intros (_ & -> & ->). reflexivity.
  - split; [discriminate|]. intros (H & _). apply K in H. discriminate.
Qed.

(** Larger depth: the same answer. *)
Lemma subst_loop_mono rec rec' cs : forall d0 st used r,
  (forall v u x, rec v u = Ok x -> fst x <> None -> rec' v u = Ok x) ->
  subst_loop rec d0 vs cs st used = Ok r -> fst r <> None ->
  subst_loop rec' false vs cs st used = Ok r.
Proof.
  induction cs as [|[[q n] w] cs IH]; intros d0 st used r Hrec H Hn; cbn [subst_loop] in *; [exact H|].
  destruct d0; [injection H as <-; cbn [fst] in Hn; contradiction|].
  destruct (vs w) as [v|]; [|injection H as <-; cbn [fst] in Hn; contradiction].
  destruct (rec v used) as [[r1 u1]|e| |] eqn:Er; cbn [bind] in H; try discriminate.
  destruct r1 as [text|]; [|injection H as <-; cbn [fst] in Hn; contradiction].
  rewrite (Hrec v used (Some text, u1) Er) by discriminate. cbn [bind].
  destruct (splice st (Span q (q + n)) text) as [st'|e| |]; cbn [bind] in *; try discriminate.
  apply (IH false); assumption.
Qed.

Lemma substitute_mono d : forall d' s used out used', d <= d' ->
  substitute s vs used d = Ok (Some out, used') -> substitute s vs used d' = Ok (Some out, used').
Proof.
  induction d as [|d IH]; intros d' s used out used' Hd H.
  - destruct d' as [|d']; [exact H|]. cbn [substitute] in *. cbn [Nat.eqb] in *.
    destruct (captures s 0 0) as [|[[q n] w] cs]; cbn [subst_loop] in *; [exact H|discriminate].
  - destruct d' as [|d']; [lia|]. cbn [substitute] in *. cbn [Nat.eqb] in *.
    apply (subst_loop_mono (fun content used' => substitute content vs used' d) _ _ false); [|exact H|discriminate].
    intros v u [[x|] u'] Hx Hnn; [|cbn [fst] in Hnn; contradiction].
    apply IH; [lia|exact Hx].
Qed.

(** The set of used variables keeps having no repetitions. *)
Lemma substitute_nodup d : forall s used r used', NoDup used ->
  substitute s vs used d = Ok (r, used') -> NoDup used'.
Proof.
  assert (K : forall rec d0 cs st used r used',
    (forall v u x u', NoDup u -> rec v u = Ok (x, u') -> NoDup u') -> NoDup used ->
    subst_loop rec d0 vs cs st used = Ok (r, used') -> NoDup used').
  { intros rec d0 cs. induction cs as [|[[q n] w] cs IHc]; intros st used r used' Hrec Hu H; cbn [subst_loop] in H.
    - injection H as _ <-. exact Hu.
    - destruct d0; [injection H as _ <-; exact Hu|].
      destruct (vs w) as [v|]; [|injection H as _ <-; exact Hu].
      destruct (rec v used) as [[r1 u1]|e| |] eqn:Er; cbn [bind] in H; try discriminate.
      pose proof (Hrec _ _ _ _ Hu Er) as Hu1.
      destruct r1 as [text|]; [|injection H as _ <-; exact Hu1].
      destruct (splice st (Span q (q + n)) text) as [st'|e| |]; cbn [bind] in *; try discriminate.
      apply (IHc _ _ _ _ Hrec (set_insert_nodup w u1 Hu1) H). }
  induction d as [|d IH]; intros s used r used' Hu H; cbn [substitute] in H.
  - apply (K (fun _ _ => Panic) true _ _ _ _ _ ltac:(discriminate) Hu H).
  - apply (K (fun content used' => substitute content vs used' d) false _ _ _ _ _ IH Hu H).
Qed.
End Vs.

(** ** The map built from ARG instructions *)

Lemma arg_vars_spec l name v :
  arg_vars l name = Some v <->
  exists l1 a l2 x, l = l1 ++ a :: l2 /\ ss_content (arg_name a) = name /\
    arg_value a = Some x /\ ss_content x = v /\
    (forall b, In b l2 -> ss_content (arg_name b) = name -> arg_value b = None).
Proof.
  revert v; induction l as [|a l IH]; intros v; cbn [arg_vars].
  - split; [discriminate|]. intros (l1 & a & l2 & x & E & _). destruct l1; discriminate.
  - destruct (arg_vars l name) as [v'|] eqn:Ev.
    + split.
      * intros H. injection H as ->. destruct (proj1 (IH v) eq_refl) as (l1 & b & l2 & x & -> & H).
        exists (a :: l1), b, l2, x. split; [reflexivity|exact H].
      * intros (l1 & b & l2 & x & E & H1 & H2 & H3 & H4).
        destruct l1 as [|c l1]; cbn [app] in E; injection E as -> ->.
        -- exfalso. destruct (proj1 (IH v') eq_refl) as (m1 & c & m2 & y & -> & K1 & K2 & _).
           rewrite (H4 c) in K2; [discriminate|apply in_elt|exact K1].
        -- f_equal. assert (K : Some v' = Some v); [|congruence]. apply IH. exists l1, b, l2, x. auto.
    + assert (Hn : forall b, In b l -> ss_content (arg_name b) = name -> arg_value b = None).
      { clear IH. revert Ev. induction l as [|c l IHl]; cbn [arg_vars]; intros Ev b Hi Hb; [destruct Hi|].
        destruct (arg_vars l name) as [|] eqn:E'; [discriminate|].
        destruct Hi as [->|Hi]; [|apply IHl; auto].
        destruct (arg_value b) as [y|]; [|reflexivity].
        rewrite Hb, beqb_refl in Ev. discriminate. }
      split.
      * destruct (arg_value a) as [x|] eqn:Ex; [|discriminate].
        destruct (beqb (ss_content (arg_name a)) name) eqn:Eb; [|discriminate].
        intros H. injection H as <-. apply beqb_eq in Eb. exists [], a, l, x. auto.
      * intros (l1 & b & l2 & x & E & H1 & H2 & H3 & H4).
        destruct l1 as [|c l1]; cbn [app] in E; injection E as -> ->.
        -- rewrite H2. rewrite H1, beqb_refl. congruence.
        -- exfalso. rewrite (Hn b) in H2; [discriminate|apply in_elt|exact H1].
Qed.
