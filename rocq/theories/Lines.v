(** Runs of the grammar on two texts that differ only in how their line ends are
    written: they end alike and leave the same tokens, at other offsets. *)

From Coq Require Import String.
From Verif Require Import Bytes BytesFacts Grammar Peg PegFacts SpecSyntax PegRules PegTokens PegQuoted Result Convert Sound
  SpecClear Forward Forward2 DepthFacts Shift Twin SpecLines.
Local Open Scope nat_scope.

(** ** Marks *)

Definition swap_mark (x : mark) : mark := match x with Same c => Same c | Ends n m => Ends m n end.
Definition swap_marks (l : list mark) : list mark := map swap_mark l.

Lemma swap_left l : left_text (swap_marks l) = right_text l.
Proof. induction l as [|[c|n m] l IH]; cbn; [reflexivity|f_equal; exact IH|f_equal; exact IH]. Qed.
Lemma swap_right l : right_text (swap_marks l) = left_text l.
Proof. induction l as [|[c|n m] l IH]; cbn; [reflexivity|f_equal; exact IH|f_equal; exact IH]. Qed.
Lemma swap_twice l : swap_marks (swap_marks l) = l.
Proof. unfold swap_marks. rewrite map_map. rewrite <- map_id. apply map_ext. intros []; reflexivity. Qed.

Lemma swap_ok l : Forall mark_ok l -> Forall mark_ok (swap_marks l).
Proof. intros H. apply Forall_map. eapply Forall_impl; [|exact H]. intros [c|n m]; cbn; tauto. Qed.

Lemma swap_apart l : apart l -> apart (swap_marks l).
Proof.
  induction l as [|x l IH]; [auto|]. cbn [swap_marks map apart]. change (map swap_mark l) with (swap_marks l).
  rewrite swap_left, swap_right. intros (H1 & H2 & H3). destruct x; cbn [swap_mark mark_left mark_right] in *; auto.
Qed.

Lemma swap_side l : side_by_side l -> side_by_side (swap_marks l).
Proof. intros [H1 H2]. split; [apply swap_ok|apply swap_apart]; assumption. Qed.

Lemma same_lines_sym s t : same_lines s t -> same_lines t s.
Proof.
  intros (l & H & <- & <-). exists (swap_marks l). split; [apply swap_side; exact H|]. rewrite swap_left, swap_right. auto.
Qed.

Lemma left_app a b : left_text (a ++ b) = left_text a ++ left_text b.
Proof. apply flat_map_app. Qed.
Lemma right_app a b : right_text (a ++ b) = right_text a ++ right_text b.
Proof. apply flat_map_app. Qed.

Lemma newline_nonempty n : newline n -> exists c t, n = c :: t /\ is_newline_byte c = true.
Proof. intros []; eexists; eexists; split; reflexivity. Qed.

Lemma mark_nonempty x : mark_ok x -> 0 < length (mark_left x) /\ 0 < length (mark_right x).
Proof.
  destruct x as [c|n m]; cbn; [lia|]. intros [H1 H2]. apply newline_nonempty in H1, H2.
  destruct H1 as (? & ? & -> & _). destruct H2 as (? & ? & -> & _). cbn. lia.
Qed.

Lemma side_tail x l : side_by_side (x :: l) -> side_by_side l.
Proof. intros [H1 H2]. inversion H1. split; [assumption|apply H2]. Qed.
Lemma side_app a b : side_by_side (a ++ b) -> side_by_side b.
Proof. induction a as [|x a IH]; [auto|]. intros H. apply IH. eapply side_tail. exact H. Qed.

Lemma across_app a b x : Forall mark_ok a -> across (a ++ b) (length (left_text a) + x) = length (right_text a) + across b x.
Proof.
  induction a as [|m a IH]; intros H; [reflexivity|]. cbn [app across].
  change (left_text (m :: a)) with (mark_left m ++ left_text a). change (right_text (m :: a)) with (mark_right m ++ right_text a).
  rewrite !app_length. inversion H as [|? ? H1 H2]; subst. destruct (Nat.ltb_spec (length (mark_left m) + length (left_text a) + x) (length (mark_left m))) as [K|K]; [lia|].
  replace (length (mark_left m) + length (left_text a) + x - length (mark_left m)) with (length (left_text a) + x) by lia.
  rewrite IH by assumption. lia.
Qed.

Lemma across_here a b : Forall mark_ok a -> Forall mark_ok b -> across (a ++ b) (length (left_text a)) = length (right_text a).
Proof.
  intros H Hb. rewrite <- (Nat.add_0_r (length (left_text a))) at 1. rewrite across_app by exact H.
  destruct b as [|m b]; cbn [across]; [lia|]. apply Forall_inv in Hb. apply mark_nonempty in Hb.
  destruct (Nat.ltb_spec 0 (length (mark_left m))); lia.
Qed.

(** ** Cutting the marks *)

(** After bytes that are no line ends *)
Lemma cut_same w : forall l s, Forall mark_ok l -> no_newline w -> left_text l = w ++ s ->
  exists k, l = map Same w ++ k /\ left_text k = s.
Proof.
  induction w as [|c w IH]; intros l s Hl Hw H; [exists l; auto|]. inversion Hw as [|? ? Hc Hw']; subst.
  destruct l as [|x l]; [discriminate|]. inversion Hl as [|? ? Hx Hl']; subst. destruct x as [c'|n m].
  - cbn in H. injection H as -> H. destruct (IH l s Hl' Hw' H) as (k & -> & K). exists k. auto.
  - exfalso. destruct Hx as [Hn _]. apply newline_nonempty in Hn. destruct Hn as (d & t & -> & Hd). cbn in H. injection H as -> _. congruence.
Qed.

Lemma left_same w : left_text (map Same w) = w.
Proof. induction w as [|c w IH]; cbn; [reflexivity|f_equal; exact IH]. Qed.
Lemma right_same w : right_text (map Same w) = w.
Proof. induction w as [|c w IH]; cbn; [reflexivity|f_equal; exact IH]. Qed.

(** After a byte that is no line end *)
Lemma cut_after w c : forall l s, Forall mark_ok l -> is_newline_byte c = false -> left_text l = w ++ c :: s ->
  exists k1 k2, l = k1 ++ Same c :: k2 /\ left_text k1 = w /\ left_text k2 = s.
Proof.
  induction w as [w IH] using (induction_ltof1 _ (@length _)); unfold ltof in IH. intros l s Hl Hc H.
  destruct l as [|x l]; [destruct w; discriminate|]. inversion Hl as [|? ? Hx Hl']; subst. destruct x as [d|n m].
  - destruct w as [|e w]; cbn in H; injection H as -> H; [exists [], l; auto|].
    destruct (IH w ltac:(cbn; lia) l s Hl' Hc H) as (k1 & k2 & -> & <- & K). exists (Same e :: k1), k2. auto.
  - destruct Hx as [Hn Hm]. change (left_text (Ends n m :: l)) with (n ++ left_text l) in H.
    assert (K : exists w', w = n ++ w' /\ left_text l = w' ++ c :: s).
    { destruct Hn; destruct w as [|e w]; cbn in H; injection H as E H; try (subst; discriminate); subst.
      - exists w. auto.
      - destruct w as [|e w]; cbn in H; injection H as E H; try (subst; discriminate); subst. exists w. auto.
      - exists w. auto. }
    destruct K as (w' & -> & K). destruct (IH w' ltac:(rewrite app_length; destruct Hn; cbn; lia) l s Hl' Hc K) as (k1 & k2 & -> & <- & K2).
    exists (Ends n m :: k1), k2. auto.
Qed.

(** ** Which expressions do not tell line ends apart *)

Definition no_newlines (w : bytes) : bool := forallb (fun c => negb (is_newline_byte c)) w.

(** A lookahead that fails at a line end *)
Definition guards (e : expr) : bool :=
  match e with
  | NegPred (Alt a (Alt b c)) => if expr_dec (Alt a (Alt b c)) NEWLINE then true else if expr_dec a NEWLINE then true else false
  | _ => false
  end.
Definition stays (e : expr) : bool := match e with NegPred _ => true | _ => false end.

(** [safe]: the text does not begin with a line end *)
Fixpoint level (safe : bool) (e : expr) : bool :=
  match e with
  | Str pat => no_newlines pat
  | Insens pat => forallb is_alpha pat
  | Range lo hi => (13 <? lo)%N
  | AnyChar => safe
  | Soi | EndOfInput => true
  | Call r => negb (case_rule r)
  | NegPred a | Opt a => level safe a
  | Rep a => level false a
  | Seq a b => level safe a && level (guards a || safe && stays a) b
  | Alt a b => (if expr_dec e NEWLINE then true else false) || level safe a && level safe b
  end.

Definition quoted_call (r : rule) : bool :=
  match r with R_double_quoted_string | R_single_quoted_string => true | _ => false end.

Lemma level_rule r : case_rule r = false -> quoted_call r = false -> level false (snd (grammar r)) = true.
Proof. destruct r; try discriminate; intros _ _; vm_compute; reflexivity. Qed.

(** ** Runs *)

Definition at_left (l : list mark) : nat := length (left_text l).
Definition at_right (l : list mark) : nat := length (right_text l).

Lemma at_left_app a b : at_left (a ++ b) = at_left a + length (left_text b).
Proof. unfold at_left. rewrite left_app, app_length. reflexivity. Qed.
Lemma at_right_app a b : at_right (a ++ b) = at_right a + length (right_text b).
Proof. unfold at_right. rewrite right_app, app_length. reflexivity. Qed.

Definition alike (c : ctx) (e : expr) (pre l : list mark) (r : res) : Prop :=
  match r with
  | Done q s1 f => exists k l1, l = k ++ l1 /\ q = at_left (pre ++ k) /\ s1 = left_text l1 /\
      run c e (at_right pre) (right_text l) = Done (at_right (pre ++ k)) (right_text l1) (map (move_tree (across (pre ++ l))) f)
  | Fail => run c e (at_right pre) (right_text l) = Fail
  | OutOfFuel => True
  end.

Lemma alike_same c e pre w l1 : run c e (at_right pre) (w ++ right_text l1) = Done (at_right pre + length w) (right_text l1) [] ->
  alike c e pre (map Same w ++ l1) (Done (at_left pre + length w) (left_text l1) []).
Proof.
  intros H. exists (map Same w), l1. rewrite at_left_app, at_right_app, left_same, right_same, right_app, right_same. auto.
Qed.

Lemma alike_stay c e pre l : run c e (at_right pre) (right_text l) = Done (at_right pre) (right_text l) [] ->
  alike c e pre l (Done (at_left pre) (left_text l) []).
Proof. intros H. exists [], l. rewrite app_nil_r. auto. Qed.

(** The first bytes of the two texts *)
Inductive heads : list mark -> Prop :=
| heads_none : heads []
| heads_same c l : is_newline_byte c = false -> heads (Same c :: l)
| heads_ends n m l a u b v : newline n -> newline m -> n = a :: u -> m = b :: v ->
    is_newline_byte a = true -> is_newline_byte b = true -> heads (Ends n m :: l).

Lemma heads_of l : Forall mark_ok l -> heads l.
Proof.
  intros H. destruct H as [|x l Hx _]; [constructor|]. destruct x as [c|n m]; [constructor; exact Hx|]. destruct Hx as [Hn Hm].
  destruct (newline_nonempty n Hn) as (a & u & E1 & Ha). destruct (newline_nonempty m Hm) as (b & v & E2 & Hb). econstructor; eassumption.
Qed.

Lemma newline_differs c x : is_newline_byte c = false -> is_newline_byte x = true -> N.eqb c x = false.
Proof. intros H1 H2. apply N.eqb_neq. congruence. Qed.

Lemma str_marks pat l : no_newlines pat = true -> Forall mark_ok l ->
  match match_str pat (left_text l) with
  | Some s1 => exists l1, l = map Same pat ++ l1 /\ s1 = left_text l1
  | None => match_str pat (right_text l) = None
  end.
Proof.
  revert l. induction pat as [|c pat IH]; intros l Hp Hl; [exists l; auto|].
  cbn [no_newlines forallb] in Hp. apply andb_true_iff in Hp. destruct Hp as [Hc Hp]. apply negb_true_iff in Hc.
  destruct (heads_of l Hl) as [|d l Hd|n m l a u b v Hn Hm -> -> Ha Hb]; cbn; [reflexivity| |rewrite !newline_differs by assumption; reflexivity].
  destruct (N.eqb_spec c d) as [<-|]; [|reflexivity]. inversion Hl; subst. specialize (IH l Hp ltac:(assumption)).
  fold (left_text l). fold (right_text l). destruct (match_str pat (left_text l)).
  - destruct IH as (l1 & -> & ->). exists l1. auto.
  - exact IH.
Qed.

Lemma alpha_newline c : is_alpha c = true -> is_newline_byte c = false.
Proof.
  intros H. destruct (is_newline_byte c) eqn:E; [|reflexivity]. unfold is_newline_byte in E. apply orb_true_iff in E.
  destruct E as [E|E]; apply N.eqb_eq in E; subst c; discriminate.
Qed.

Lemma icase_newline c x : is_alpha c = true -> is_newline_byte x = true -> eq_icase c x = false.
Proof.
  intros Hc Hx. unfold eq_icase. apply N.eqb_neq. intros E.
  assert (K : lower_byte x = x) by (unfold is_newline_byte in Hx; apply orb_true_iff in Hx; destruct Hx as [E1|E1]; apply N.eqb_eq in E1; subst x; reflexivity).
  rewrite K in E. destruct (lower_cases c) as [(_ & E1 & K1)|[_ E1]]; rewrite E1 in E.
  - unfold is_newline_byte in Hx. apply orb_true_iff in Hx. destruct Hx as [E2|E2]; apply N.eqb_eq in E2; subst x; lia.
  - subst x. rewrite (alpha_newline c Hc) in Hx. discriminate.
Qed.

Lemma insens_marks pat l : forallb is_alpha pat = true -> Forall mark_ok l ->
  match match_insens pat (left_text l) with
  | Some s1 => exists w l1, l = map Same w ++ l1 /\ s1 = left_text l1 /\ length w = length pat /\
      match_insens pat (w ++ right_text l1) = Some (right_text l1)
  | None => match_insens pat (right_text l) = None
  end.
Proof.
  revert l. induction pat as [|c pat IH]; intros l Hp Hl; [exists [], l; auto|].
  cbn [forallb] in Hp. apply andb_true_iff in Hp. destruct Hp as [Hc Hp].
  destruct (heads_of l Hl) as [|d l Hd|n m l a u b v Hn Hm -> -> Ha Hb]; cbn; [reflexivity| |rewrite !icase_newline by assumption; reflexivity].
  destruct (eq_icase c d) eqn:Ec; [|reflexivity]. inversion Hl; subst. specialize (IH l Hp ltac:(assumption)).
  fold (left_text l). fold (right_text l). destruct (match_insens pat (left_text l)).
  - destruct IH as (w & l1 & -> & -> & E & K). exists (d :: w), l1. split; [reflexivity|]. split; [reflexivity|].
    split; [cbn; congruence|]. cbn. rewrite Ec. exact K.
  - exact IH.
Qed.

(** A whole character *)
Lemma char_no_newline ch : utf8_char ch -> (forall a t, ch = a :: t -> is_newline_byte a = false) -> no_newline ch.
Proof.
  intros H Hh. assert (K : forall c, is_cont c = true -> is_newline_byte c = false).
  { intros c Hc. apply is_cont_range in Hc. unfold is_newline_byte. apply orb_false_iff. split; apply N.eqb_neq; intros ->; discriminate (proj1 Hc) || (destruct Hc as [Hc _]; apply Hc; reflexivity). }
  destruct H; repeat constructor; try (apply K; assumption); eapply Hh; reflexivity.
Qed.

Lemma any_marks l : Forall mark_ok l -> valid_utf8 (left_text l) = true -> newline_here (left_text l) = false -> left_text l <> [] ->
  exists x u l1, l = map Same (x :: u) ++ l1 /\ utf8_width x = length (x :: u).
Proof.
  intros Hl V Hn H0. destruct (valid_utf8_cases _ V) as [E|(ch & t & E & Hch & _)]; [contradiction|].
  destruct (utf8_char_nonempty ch Hch) as (a & u & -> & _).
  assert (Kn : no_newline (a :: u)).
  { apply char_no_newline; [exact Hch|]. intros a' t' E'. injection E' as <- <-. rewrite E in Hn. exact Hn. }
  destruct (cut_same _ _ _ Hl Kn E) as (k & -> & _). exists a, u, k. split; [reflexivity|]. apply (utf8_char_width _ _ Hch). reflexivity.
Qed.

(** ** Quoted strings *)

Lemma newline_quoted q n w : newline n -> q = DQUOTE \/ q = SQUOTE -> (quoted_body q (n ++ w) <-> quoted_body q w).
Proof.
  intros Hn Hq. assert (Kl : forall c, c = LF \/ c = CR -> c <> q /\ c <> BSLASH /\ c <> 0%N /\ c <> 31%N).
  { intros c [->| ->]; destruct Hq; subst; repeat split; discriminate. }
  assert (K : forall c v, c = LF \/ c = CR -> (quoted_body q (c :: v) <-> quoted_body q v)).
  { intros c v Hc. destruct (Kl c Hc) as (K1 & K2 & K3 & K4). split.
    - intros H. inversion H; subst; [assumption|contradiction].
    - intros H. apply qb_plain; assumption. }
  destruct Hn; cbn [app]; rewrite ?K by auto; reflexivity.
Qed.

Lemma newline_escaped q n w : newline n -> q = DQUOTE \/ q = SQUOTE -> (quoted_body q (BSLASH :: n ++ w) <-> quoted_body q w).
Proof.
  intros Hn Hq. assert (Kl : forall c, c = LF \/ c = CR -> c <> q /\ c <> BSLASH /\ c <> 0%N /\ c <> 31%N).
  { intros c [->| ->]; destruct Hq; subst; repeat split; discriminate. }
  assert (Kb : forall c v, c = LF \/ c = CR -> (quoted_body q (BSLASH :: c :: v) <-> quoted_body q v)).
  { intros c v Hc. destruct (Kl c Hc) as (K1 & K2 & K3 & K4). split.
    - intros H. inversion H; subst; [contradiction|assumption].
    - intros H. apply qb_escape; assumption. }
  destruct Hn; cbn [app]; rewrite Kb by auto; try reflexivity.
  apply (newline_quoted q [LF] w); [constructor|exact Hq].
Qed.

Lemma quoted_marks q k : q = DQUOTE \/ q = SQUOTE -> Forall mark_ok k -> quoted_body q (left_text k) -> quoted_body q (right_text k).
Proof.
  intros Hq. induction k as [k IH] using (induction_ltof1 _ (@length _)); unfold ltof in IH. intros Hk H.
  destruct k as [|[c|n m] k]; [constructor|..].
  - cbn in H. fold (left_text k) in H. cbn. fold (right_text k). inversion Hk as [|? ? Hc Hk']; subst.
    destruct (N.eq_dec c BSLASH) as [->|Hb].
    + destruct k as [|[d|n m] k]; [inversion H; subst; contradiction|..].
      * cbn in H. inversion H; subst; [contradiction|]. apply qb_escape; [assumption..|]. inversion Hk'; subst. apply IH; [cbn; lia|assumption..].
      * inversion Hk' as [|? ? Hnm Hk2]; subst. destruct Hnm as [Hn Hm]. apply (newline_escaped q n (left_text k) Hn Hq) in H.
        apply (newline_escaped q m (right_text k) Hm Hq). apply IH; [cbn; lia|assumption..].
    + inversion H; subst; [|contradiction]. apply qb_plain; try assumption. apply IH; [cbn; lia|assumption..].
  - inversion Hk as [|? ? Hnm Hk']; subst. destruct Hnm as [Hn Hm]. apply (newline_quoted q n (left_text k) Hn Hq) in H.
    apply (newline_quoted q m (right_text k) Hm Hq). apply IH; [cbn; lia|assumption..].
Qed.

Lemma quoted_done_marks quo c pre l q s1 f : quo = DQUOTE \/ quo = SQUOTE -> Forall mark_ok (pre ++ l) ->
  valid_utf8 (left_text l) = true -> valid_utf8 (right_text l) = true ->
  run c (Call (quoted_rule quo)) (at_left pre) (left_text l) = Done q s1 f -> alike c (Call (quoted_rule quo)) pre l (Done q s1 f).
Proof.
  intros Hq Hl Hvs Hvt H. pose proof (quoted_tokens _ _ _ _ _ _ _ Hq H) as Ef. apply Forall_app in Hl. destruct Hl as [Hpre Hl].
  assert (Hb : begins_with quo (left_text l)).
  { destruct (left_text l) as [|x s]; [|destruct (N.eq_dec x quo) as [->|K]; [exists s; reflexivity|]];
      rewrite quoted_rule_fails in H by (try exact Hq; intros [u E]; congruence); discriminate. }
  apply quoted_rule_inv in H; [|exact Hq|exact Hvs]. destruct H as (w & E & -> & (q' & body & Hq' & -> & Hbody & _)).
  assert (q' = quo). { destruct Hb as [u Eu]. rewrite E in Eu. cbn [app] in Eu. congruence. } subst q'.
  assert (Hqn : is_newline_byte quo = false) by (destruct Hq; subst; reflexivity).
  cbn [app] in E. destruct (cut_after [] quo l _ Hl Hqn E) as (k0 & k2 & -> & E0 & E2).
  apply Forall_app in Hl. destruct Hl as [Hk0 Hl]. inversion Hl as [|? ? _ Hk2]; subst.
  assert (k0 = []).
  { destruct k0 as [|x k0]; [reflexivity|]. apply Forall_inv, mark_nonempty in Hk0. exfalso.
    change (left_text (x :: k0)) with (mark_left x ++ left_text k0) in E0. apply app_eq_nil in E0. destruct E0 as [E0 _]. rewrite E0 in Hk0. cbn in Hk0. lia. }
  subst k0. cbn [app] in *. rewrite <- app_assoc in E2. cbn [app] in E2.
  destruct (cut_after body quo k2 _ Hk2 Hqn E2) as (kb & k3 & -> & Eb & <-).
  apply Forall_app in Hk2. destruct Hk2 as [Hkb Hk3].
  assert (Hb2 : quoted_body quo (right_text kb)) by (apply quoted_marks; [exact Hq|exact Hkb|rewrite Eb; exact Hbody]).
  assert (Er : right_text (Same quo :: kb ++ Same quo :: k3) = (quo :: right_text kb ++ [quo]) ++ right_text k3).
  { cbn [app]. change (right_text (Same quo :: kb ++ Same quo :: k3)) with (quo :: right_text (kb ++ Same quo :: k3)).
    rewrite right_app, <- app_assoc. reflexivity. }
  rewrite Er in Hvt. destruct (quoted_rule_fwd quo (right_text kb) c (at_right pre) (right_text k3) Hq Hb2 Hvt) as (f2 & Ef2).
  pose proof (quoted_tokens _ _ _ _ _ _ _ Hq Ef2) as Ef3.
  set (k := Same quo :: kb ++ [Same quo]). assert (Ek : Same quo :: kb ++ Same quo :: k3 = k ++ k3) by (unfold k; cbn [app]; rewrite <- app_assoc; reflexivity).
  assert (El : left_text k = quo :: body ++ [quo]) by (unfold k; rewrite <- Eb; change (quo :: left_text (kb ++ [Same quo]) = quo :: left_text kb ++ [quo]); rewrite left_app; reflexivity).
  assert (Erk : right_text k = quo :: right_text kb ++ [quo]) by (unfold k; change (quo :: right_text (kb ++ [Same quo]) = quo :: right_text kb ++ [quo]); rewrite right_app; reflexivity).
  assert (Hk : Forall mark_ok k).
  { unfold k. constructor; [exact Hqn|]. apply Forall_app. split; [exact Hkb|]. constructor; [exact Hqn|constructor]. }
  assert (Hk3' : Forall mark_ok k3) by (inversion Hk3; assumption).
  exists k, k3. split; [exact Ek|]. split; [rewrite at_left_app, El; reflexivity|]. split; [reflexivity|].
  rewrite Er, at_right_app, Erk, Ef2. f_equal. rewrite Ef3. unfold wrap. destruct (emits c); [|reflexivity]. cbn [map move_tree].
  rewrite Ek. f_equal. f_equal.
  - symmetry. apply across_here; [exact Hpre|]. apply Forall_app. auto.
  - rewrite app_assoc. rewrite <- El. change (at_left pre + length (left_text k)) with (length (left_text pre) + length (left_text k)).
    rewrite <- app_length, <- left_app. rewrite across_here; [|apply Forall_app; auto|exact Hk3']. rewrite right_app, app_length, Erk. reflexivity.
Qed.

Lemma swap_app a b : swap_marks (a ++ b) = swap_marks a ++ swap_marks b.
Proof. apply map_app. Qed.

Lemma quoted_alike_marks quo c pre l : quo = DQUOTE \/ quo = SQUOTE -> Forall mark_ok (pre ++ l) ->
  valid_utf8 (left_text l) = true -> valid_utf8 (right_text l) = true ->
  alike c (Call (quoted_rule quo)) pre l (run c (Call (quoted_rule quo)) (at_left pre) (left_text l)).
Proof.
  intros Hq Hl Hvs Hvt. destruct (run c (Call (quoted_rule quo)) (at_left pre) (left_text l)) as [q s1 f| |] eqn:E.
  - apply quoted_done_marks; assumption.
  - cbn [alike]. destruct (run c (Call (quoted_rule quo)) (at_right pre) (right_text l)) as [q t1 f| |] eqn:E2; [|reflexivity|].
    + exfalso. assert (K : alike c (Call (quoted_rule quo)) (swap_marks pre) (swap_marks l) (Done q t1 f)).
      { apply quoted_done_marks; [exact Hq|rewrite <- swap_app; apply swap_ok; exact Hl|rewrite swap_left; exact Hvt|rewrite swap_right; exact Hvs|].
        unfold at_left. rewrite !swap_left. exact E2. }
      destruct K as (k & l1 & _ & _ & _ & K). unfold at_right in K at 1. rewrite !swap_right in K. unfold at_left in E. congruence.
    + exfalso. apply (run_total c (Call (quoted_rule quo)) (at_right pre) (right_text l)); [apply good_call|exact E2].
  - exact I.
Qed.

Lemma known_marks n c e pre l : good e = true -> alike c e pre l (run c e (at_left pre) (left_text l)) ->
  alike c e pre l (eval n c e (at_left pre) (left_text l)).
Proof.
  intros Hg H. destruct (eval n c e (at_left pre) (left_text l)) as [q s1 f| |] eqn:E; [| |exact I].
  - rewrite (done_run _ _ _ _ _ _ _ _ Hg E) in H. exact H.
  - rewrite (fail_run _ _ _ _ _ Hg E) in H. exact H.
Qed.

(** ** Line ends *)
Lemma newline_marks c pre l : side_by_side l -> alike c NEWLINE pre l (run c NEWLINE (at_left pre) (left_text l)).
Proof.
  intros [Hl Ha]. destruct (heads_of l Hl) as [|d l Hd|n m l a u b v Hn Hm En Em Hna Hmb].
  - rewrite run_newline. cbn [left_text flat_map strip_newline alike]. rewrite run_newline. reflexivity.
  - rewrite run_newline. assert (K : forall s, strip_newline (d :: s) = None) by (intros s; apply strip_newline_none; exact Hd).
    change (left_text (Same d :: l)) with (d :: left_text l). rewrite K. cbn [alike]. rewrite run_newline.
    change (right_text (Same d :: l)) with (d :: right_text l). rewrite K. reflexivity.
  - change (left_text (Ends n m :: l)) with (n ++ left_text l). cbn [apart mark_left mark_right] in Ha. destruct Ha as (H1 & H2 & _).
    rewrite newline_fwd; [|exact Hn|intros E [t Et]; exact (H1 E t Et)].
    exists [Ends n m], l. split; [reflexivity|]. split; [rewrite at_left_app; cbn; rewrite app_nil_r; reflexivity|]. split; [reflexivity|].
    change (right_text (Ends n m :: l)) with (m ++ right_text l).
    rewrite newline_fwd; [|exact Hm|intros E [t Et]; exact (H2 E t Et)]. rewrite at_right_app. cbn. rewrite app_nil_r. reflexivity.
Qed.

(** ** All expressions *)

Lemma at_left_zero l : Forall mark_ok l -> (at_left l =? 0) = (at_right l =? 0).
Proof.
  intros H. destruct H as [|x l Hx _]; [reflexivity|]. unfold at_left, at_right.
  change (left_text (x :: l)) with (mark_left x ++ left_text l). change (right_text (x :: l)) with (mark_right x ++ right_text l).
  rewrite !app_length. apply mark_nonempty in Hx. destruct (Nat.eqb_spec (length (mark_left x) + length (left_text l)) 0); [lia|].
  destruct (Nat.eqb_spec (length (mark_right x) + length (right_text l)) 0); [lia|reflexivity].
Qed.

Lemma guards_line e pre l n c q s1 f : guards e = true -> good e = true -> side_by_side l ->
  eval n c e (at_left pre) (left_text l) = Done q s1 f -> q = at_left pre /\ s1 = left_text l /\ newline_here (left_text l) = false.
Proof.
  intros He Hg Hl H. apply done_run in H; [|exact Hg].
  destruct e as [pat|pat|lo hi| | | |r|e1|e1 e2|e1 e2|e1|e1]; try discriminate.
  assert (K : newline_here (left_text l) = false).
  { destruct (newline_here (left_text l)) eqn:E; [exfalso|reflexivity].
    assert (Kn : forall c p, exists q s f, run c NEWLINE p (left_text l) = Done q s f).
    { intros c' p. rewrite run_newline. destruct (strip_newline (left_text l)) as [[k t]|] eqn:Es; [eauto|].
      apply strip_newline_none in Es. congruence. }
    rewrite run_not in H by exact Hg. destruct e1 as [pat|pat|lo hi| | | |r|e1|e1 e2|e1 e2|e1|e1]; try discriminate.
    destruct e2 as [pat|pat|lo hi| | | |r|e2|e2 e3|e2 e3|e2|e2]; try discriminate.
    unfold guards in He. pose proof (good_sub _ Hg) as Hg1. cbn beta iota in Hg1. destruct (expr_dec (Alt e1 (Alt e2 e3)) NEWLINE) as [Ee|].
    - rewrite Ee in H. destruct (Kn {| atom := atom c; look := true |} (at_left pre)) as (q' & s' & f' & Er). rewrite Er in H. discriminate.
    - destruct (expr_dec e1 NEWLINE) as [->|]; [|discriminate]. rewrite run_alt in H by exact Hg1.
      destruct (Kn {| atom := atom c; look := true |} (at_left pre)) as (q' & s' & f' & Er). rewrite Er in H. discriminate. }
  rewrite run_not in H by exact Hg. destruct (run _ e1 _ _); try discriminate; injection H as <- <- <-; auto.
Qed.

Lemma stays_here e n c p s q s1 f : stays e = true -> eval n c e p s = Done q s1 f -> q = p /\ s1 = s.
Proof.
  destruct e; try discriminate. intros _ H. destruct n as [|n]; [discriminate|]. rewrite eval_S in H.
  destruct (eval n _ e p s); try discriminate. injection H as <- <- <-. auto.
Qed.

Theorem eval_lines n : forall safe c e pre l, good e = true -> ascii_expr e = true -> level safe e = true ->
  valid_utf8 (left_text l) = true -> valid_utf8 (right_text l) = true -> side_by_side (pre ++ l) ->
  (safe = true -> newline_here (left_text l) = false) ->
  alike c e pre l (eval n c e (at_left pre) (left_text l)).
Proof.
  induction n as [|n IH]; intros safe c e pre l Hg Ha Hb Hs Ht H Hsafe; [exact I|].
  pose proof (proj1 H) as Hok. apply Forall_app in Hok. destruct Hok as [Hpre Hl]. pose proof (side_app _ _ H) as Hside.
  assert (Here : across (pre ++ l) (at_left pre) = at_right pre) by (apply across_here; assumption).
  destruct e as [pat|pat|lo hi| | | |r|e1|e1 e2|e1 e2|e1|e1]; cbn [level ascii_expr] in Hb, Ha;
    try (pose proof (good_sub _ Hg) as Hg'; cbn beta iota in Hg').
  - rewrite eval_S. pose proof (str_marks pat l Hb Hl) as K. destruct (match_str pat (left_text l)) as [s1|].
    + destruct K as (l1 & -> & ->). apply alike_same. rewrite run_str. assert (E : match_str pat (pat ++ right_text l1) = Some (right_text l1)).
      { clear. induction pat as [|x pat IH]; [reflexivity|]. cbn. rewrite N.eqb_refl. exact IH. }
      rewrite E. reflexivity.
    + cbn [alike]. rewrite run_str, K. reflexivity.
  - rewrite eval_S. pose proof (insens_marks pat l Hb Hl) as K. destruct (match_insens pat (left_text l)) as [s1|].
    + destruct K as (w & l1 & -> & -> & E & K). rewrite <- E. apply alike_same. rewrite run_insens, K, E. reflexivity.
    + cbn [alike]. rewrite run_insens, K. reflexivity.
  - rewrite eval_S. assert (Kn : forall x, is_newline_byte x = true -> in_range lo hi x = false).
    { intros x Hx. apply in_range_false. left. apply N.ltb_lt in Hb. unfold is_newline_byte in Hx. apply orb_true_iff in Hx.
      destruct Hx as [E|E]; apply N.eqb_eq in E; subst x; lia. }
    destruct (heads_of l Hl) as [|d l Hd|x m l a u b v Hn Hm -> -> Hna Hnb].
    + cbn [left_text flat_map alike]. rewrite run_range. reflexivity.
    + change (left_text (Same d :: l)) with (d :: left_text l). cbn iota. destruct (in_range lo hi d) eqn:E.
      * rewrite <- Nat.add_1_r. apply (alike_same _ _ pre [d] l). cbn [app]. rewrite run_range, E. cbn [length]. rewrite Nat.add_1_r. reflexivity.
      * cbn [alike]. change (right_text (Same d :: l)) with (d :: right_text l). rewrite run_range, E. reflexivity.
    + change (left_text (Ends (a :: u) (b :: v) :: l)) with (a :: u ++ left_text l). cbn iota. rewrite (Kn a Hna). cbn [alike].
      change (right_text (Ends (a :: u) (b :: v) :: l)) with (b :: v ++ right_text l). rewrite run_range, (Kn b Hnb). reflexivity.
  - rewrite eval_S. destruct (left_text l) as [|x s] eqn:E.
    + assert (l = []).
      { destruct l as [|m l]; [reflexivity|]. exfalso. inversion Hl as [|? ? Hm _]; subst. apply mark_nonempty in Hm.
        change (left_text (m :: l)) with (mark_left m ++ left_text l) in E. apply app_eq_nil in E. destruct E as [E _]. rewrite E in Hm. cbn in Hm. lia. }
      subst l. cbn [alike]. rewrite run_any. reflexivity.
    + rewrite <- E in *. destruct (any_marks l Hl Hs (Hsafe Hb) ltac:(congruence)) as (y & u & l1 & -> & Hw).
      rewrite left_app, left_same in *. cbn [app] in E. injection E as <- _.
      assert (Kf : forall t, firstn (utf8_width y) ((y :: u) ++ t) = y :: u).
      { intros t. rewrite Hw, firstn_app, Nat.sub_diag, firstn_O, app_nil_r. apply firstn_all. }
      assert (Ks : forall t, skipn (utf8_width y) ((y :: u) ++ t) = t).
      { intros t. rewrite Hw, skipn_app, Nat.sub_diag, skipn_all2 by lia. reflexivity. }
      change ((y :: u) ++ left_text l1) with (y :: u ++ left_text l1) at 1. cbn iota.
      change (y :: u ++ left_text l1) with ((y :: u) ++ left_text l1). rewrite Kf, Ks.
      apply alike_same. rewrite run_any. change ((y :: u) ++ right_text l1) with (y :: u ++ right_text l1) at 1. cbn iota.
      change (y :: u ++ right_text l1) with ((y :: u) ++ right_text l1). rewrite Kf, Ks. reflexivity.
  - rewrite eval_S. rewrite (at_left_zero pre Hpre). destruct (at_right pre =? 0) eqn:E.
    + apply alike_stay. rewrite run_soi, E. reflexivity.
    + cbn [alike]. rewrite run_soi, E. reflexivity.
  - rewrite eval_S. destruct (heads_of l Hl) as [|d l Hd|x m l a u b v Hn Hm -> -> Hna Hnb].
    + apply alike_stay. rewrite run_eoi. reflexivity.
    + cbn [left_text flat_map mark_left app alike]. rewrite run_eoi. reflexivity.
    + cbn [left_text flat_map mark_left app alike]. rewrite run_eoi. reflexivity.
  - apply negb_true_iff in Hb. destruct (quoted_call r) eqn:Hw.
    + apply known_marks; [apply good_call|]. destruct r; try discriminate.
      * apply (quoted_alike_marks DQUOTE); auto. apply H.
      * apply (quoted_alike_marks SQUOTE); auto. apply H.
    + rewrite eval_S. pose proof (IH false (rule_inner (fst (grammar r)) c) (snd (grammar r)) pre l (good_rule r) (ascii_rule r) (level_rule r Hb Hw) Hs Ht H ltac:(discriminate)) as K.
      destruct (eval n _ (snd (grammar r)) (at_left pre) (left_text l)) as [q s1 f| |]; cbn [alike] in *; [| |exact I].
      * destruct K as (k & l1 & El & -> & -> & K). exists k, l1. split; [exact El|]. split; [reflexivity|]. split; [reflexivity|].
        rewrite run_call, K. f_equal. rewrite move_rule_tokens, Here. f_equal. subst l. rewrite app_assoc. symmetry. apply across_here.
        -- apply Forall_app in Hl. apply Forall_app. tauto.
        -- apply Forall_app in Hl. tauto.
      * rewrite run_call, K. reflexivity.
  - rewrite eval_S. pose proof (IH safe {| atom := atom c; look := true |} e1 pre l Hg' Ha Hb Hs Ht H Hsafe) as K.
    destruct (eval n _ e1 (at_left pre) (left_text l)) as [q s1 f| |]; [| |exact I].
    + destruct K as (k & l1 & El & -> & -> & K). cbn [alike]. rewrite run_not by exact Hg. rewrite K. reflexivity.
    + cbn [alike] in K. apply alike_stay. rewrite run_not by exact Hg. rewrite K. reflexivity.
  - apply andb_true_iff in Hb, Ha. destruct Hb as [Hb1 Hb2]. destruct Ha as [Ha1 Ha2]. destruct Hg' as [Hg1 Hg2].
    rewrite eval_S. pose proof (IH safe c e1 pre l Hg1 Ha1 Hb1 Hs Ht H Hsafe) as K.
    destruct (eval n c e1 (at_left pre) (left_text l)) as [q s1 f| |] eqn:E; [| |exact I].
    + assert (Hsafe2 : guards e1 || safe && stays e1 = true -> newline_here s1 = false).
      { intros Hc. apply orb_true_iff in Hc. destruct Hc as [Hc|Hc].
        - destruct (guards_line e1 pre l n c q s1 f Hc Hg1 Hside E) as (_ & -> & K1). exact K1.
        - apply andb_true_iff in Hc. destruct Hc as [-> Hc]. destruct (stays_here _ _ _ _ _ _ _ _ Hc E) as [_ ->]. apply Hsafe. reflexivity. }
      destruct K as (k & l1 & El & -> & -> & K).
      pose proof (eval_valid _ _ _ _ _ _ _ _ Ha1 Hs E) as Hs1. pose proof (run_valid _ _ _ _ _ _ _ K Ht Ha1) as Ht1.
      assert (H1 : side_by_side ((pre ++ k) ++ l1)) by (rewrite <- app_assoc, <- El; exact H).
      pose proof (IH _ c e2 (pre ++ k) l1 Hg2 Ha2 Hb2 Hs1 Ht1 H1 Hsafe2) as K2.
      destruct (eval n c e2 (at_left (pre ++ k)) (left_text l1)) as [q2 s2 f2| |]; [| |exact I].
      * destruct K2 as (k2 & l2 & El2 & -> & -> & K2). exists (k ++ k2), l2. split; [subst l l1; rewrite <- app_assoc; reflexivity|].
        split; [rewrite app_assoc; reflexivity|]. split; [reflexivity|]. rewrite run_seq by exact Hg. rewrite K.
        assert (Ee : (pre ++ k) ++ l1 = pre ++ l) by (rewrite El, app_assoc; reflexivity). rewrite Ee in K2. rewrite K2, map_app, (app_assoc pre k k2). reflexivity.
      * cbn [alike] in *. rewrite run_seq by exact Hg. rewrite K, K2. reflexivity.
    + cbn [alike] in *. rewrite run_seq by exact Hg. rewrite K. reflexivity.
  - destruct (expr_dec (Alt e1 e2) NEWLINE) as [->|_].
    + apply known_marks; [reflexivity|]. apply newline_marks. exact Hside.
    + cbn [orb] in Hb. apply andb_true_iff in Hb, Ha. destruct Hb as [Hb1 Hb2]. destruct Ha as [Ha1 Ha2]. destruct Hg' as [Hg1 Hg2].
      rewrite eval_S. pose proof (IH safe c e1 pre l Hg1 Ha1 Hb1 Hs Ht H Hsafe) as K.
      destruct (eval n c e1 (at_left pre) (left_text l)) as [q s1 f| |] eqn:E; [| |exact I].
      * destruct K as (k & l1 & El & -> & -> & K). exists k, l1. repeat (split; [first [exact El|reflexivity]|]).
        rewrite run_alt by exact Hg. rewrite K. reflexivity.
      * cbn [alike] in K. pose proof (IH safe c e2 pre l Hg2 Ha2 Hb2 Hs Ht H Hsafe) as K2.
        destruct (eval n c e2 (at_left pre) (left_text l)) as [q2 s2 f2| |]; [| |exact I].
        -- destruct K2 as (k & l1 & El & -> & -> & K2). exists k, l1. repeat (split; [first [exact El|reflexivity]|]).
           rewrite run_alt by exact Hg. rewrite K. exact K2.
        -- cbn [alike] in *. rewrite run_alt by exact Hg. rewrite K. exact K2.
  - rewrite eval_S. pose proof (IH safe c e1 pre l Hg' Ha Hb Hs Ht H Hsafe) as K.
    destruct (eval n c e1 (at_left pre) (left_text l)) as [q s1 f| |]; [| |exact I].
    + destruct K as (k & l1 & El & -> & -> & K). exists k, l1. repeat (split; [first [exact El|reflexivity]|]).
      rewrite run_opt by exact Hg. rewrite K. reflexivity.
    + cbn [alike] in K. apply alike_stay. rewrite run_opt by exact Hg. rewrite K. reflexivity.
  - destruct Hg' as [Hg1 _]. rewrite eval_S. pose proof (IH false c e1 pre l Hg1 Ha Hb Hs Ht H ltac:(discriminate)) as K.
    destruct (eval n c e1 (at_left pre) (left_text l)) as [q s1 f| |] eqn:E; [| |exact I].
    + destruct K as (k & l1 & El & -> & -> & K).
      pose proof (eval_valid _ _ _ _ _ _ _ _ Ha Hs E) as Hs1. pose proof (run_valid _ _ _ _ _ _ _ K Ht Ha) as Ht1.
      assert (H1 : side_by_side ((pre ++ k) ++ l1)) by (rewrite <- app_assoc, <- El; exact H).
      pose proof (IH false c (Rep e1) (pre ++ k) l1 Hg Ha Hb Hs1 Ht1 H1 ltac:(discriminate)) as K2.
      destruct (eval n c (Rep e1) (at_left (pre ++ k)) (left_text l1)) as [q2 s2 f2| |]; [| |exact I].
      * destruct K2 as (k2 & l2 & El2 & -> & -> & K2). exists (k ++ k2), l2. split; [subst l l1; rewrite <- app_assoc; reflexivity|].
        split; [rewrite app_assoc; reflexivity|]. split; [reflexivity|]. rewrite run_rep by exact Hg. rewrite K.
        assert (Ee : (pre ++ k) ++ l1 = pre ++ l) by (rewrite El, app_assoc; reflexivity). rewrite Ee in K2. rewrite K2, map_app, (app_assoc pre k k2). reflexivity.
      * cbn [alike] in *. rewrite run_rep by exact Hg. rewrite K, K2. reflexivity.
    + cbn [alike] in K. apply alike_stay. rewrite run_rep by exact Hg. rewrite K. reflexivity.
Qed.

Theorem run_lines c r l : case_rule r = false -> valid_utf8 (left_text l) = true -> valid_utf8 (right_text l) = true -> side_by_side l ->
  alike c (Call r) [] l (run c (Call r) 0 (left_text l)).
Proof.
  intros Hr Hs Ht H. apply (eval_lines _ false c (Call r) [] l); try assumption; try discriminate;
    first [apply good_call|cbn [level]; rewrite Hr; reflexivity|reflexivity].
Qed.
