(** Two texts that differ only in a word behind an equals sign are read alike.

    The texts are [A ++ X ++ B] and [A ++ Y ++ B], where [A] ends in [=].  A run of the
    grammar on both stays in step as long as it is in [A] or in [B]; the lemmas say
    which expressions cannot tell [X] from [Y]. *)

From Coq Require Import String.
From Verif Require Import Bytes BytesFacts Grammar Peg PegFacts SpecSyntax SpecClear SpecMove SpecReword PegRules PegTokens PegQuoted Shift.
From Verif Require Swap.
Local Open Scope nat_scope.

(** A position in [A]: before its end, or at it *)
Inductive zone : Type := ZI | ZE.
Record zset : Type := ZSet { hasI : bool; hasE : bool }.
Definition zmem (z : zone) (s : zset) : bool := match z with ZI => hasI s | ZE => hasE s end.
Definition zempty : zset := ZSet false false.
Definition zone1 (z : zone) : zset := match z with ZI => ZSet true false | ZE => ZSet false true end.
Definition zunion (a b : zset) : zset := ZSet (hasI a || hasI b) (hasE a || hasE b).
Definition zsub (a b : zset) : bool := implb (hasI a) (hasI b) && implb (hasE a) (hasE b).

Lemma zsub_mem a b z : zsub a b = true -> zmem z a = true -> zmem z b = true.
Proof. destruct a as [[] []], b as [[] []]; cbn; try discriminate; destruct z; cbn; auto. Qed.
Lemma zunion_l a b : zsub a (zunion a b) = true.
Proof. destruct a as [[] []], b as [[] []]; reflexivity. Qed.
Lemma zunion_r a b : zsub b (zunion a b) = true.
Proof. destruct a as [[] []], b as [[] []]; reflexivity. Qed.
Lemma zone1_self z : zmem z (zone1 z) = true.
Proof. destruct z; reflexivity. Qed.
Lemma zsub_trans a b c : zsub a b = true -> zsub b c = true -> zsub a c = true.
Proof. destruct a as [[] []], b as [[] []], c as [[] []]; cbn; congruence. Qed.

Lemma plain_byte_spec c : plain_byte c = true ->
  is_blank c = false /\ is_newline_byte c = false /\ c <> BSLASH /\ c <> DQUOTE /\ c <> SQUOTE /\ c <> 0%N /\ c <> 31%N.
Proof.
  unfold plain_byte. rewrite negb_true_iff, !orb_false_iff, !N.eqb_neq. tauto.
Qed.

(** Tokens that do not begin or end strictly between two positions *)
Inductive clear_of (a b : nat) : tree -> Prop :=
| clear_node r x y l : (x <= a \/ b <= x) -> (y <= a \/ b <= y) -> Forall (clear_of a b) l -> clear_of a b (Node r x y l).

Lemma within_clear a b p q t : b <= p -> tree_within p q t -> clear_of a b t.
Proof.
  revert p q. induction t as [r x y l IH] using tree_induction. intros p q Hp H. apply tree_within_node in H.
  destruct H as (H1 & H2 & H3 & H4). constructor; [lia|lia|]. rewrite Forall_forall in *. intros t Ht.
  apply (IH t Ht x y); [lia|apply H4; exact Ht].
Qed.

Lemma rule_tokens_clear a b k c r p q f : (p <= a \/ b <= p) -> (q <= a \/ b <= q) -> Forall (clear_of a b) f ->
  Forall (clear_of a b) (rule_tokens k c r p q f).
Proof.
  intros Hp Hq H. unfold rule_tokens, wrap. destruct k; try exact H; (destruct (emits _); [|exact H]; constructor; [|constructor]; constructor; assumption).
Qed.

Section EqSwap.
Variables A X Y B : bytes.
Hypothesis HX : plain_text X.
Hypothesis HY : plain_text Y.
Hypothesis HB : valid_utf8 B = true.
Hypothesis HA : exists a, A = a ++ [EQUALS].

Definition moved : nat -> nat := replacement (length A) (length A + length X) (length Y).
Notation g := moved.
Notation clear := (clear_of (length A) (length A + length X)).

Definition inz (z : zone) (a : bytes) : Prop := match z with ZI => a <> [] | ZE => a = [] end.

Lemma moved_in A1 A2 : A = A1 ++ A2 -> g (length A1) = length A1.
Proof.
  intros E. unfold moved, replacement. apply (f_equal (@length N)) in E. rewrite app_length in E.
  destruct (Nat.leb_spec (length A1) (length A)); lia.
Qed.

Lemma length_X : 0 < length X.
Proof. destruct HX as (_ & H & _). destruct X; [congruence|cbn; lia]. Qed.
Lemma length_Y : 0 < length Y.
Proof. destruct HY as (_ & H & _). destruct Y; [congruence|cbn; lia]. Qed.

Lemma moved_out k : g (length A + length X + k) = length A + length Y + k.
Proof.
  unfold moved, replacement. pose proof length_X. destruct (Nat.leb_spec (length A + length X + k) (length A)); lia.
Qed.

Inductive sim (zs : zset) : res -> res -> Prop :=
| sim_fail : sim zs Fail Fail
| sim_in A1 A2 z f : A = A1 ++ A2 -> inz z A2 -> zmem z zs = true -> Forall clear f ->
    sim zs (Done (length A1) (A2 ++ X ++ B) f) (Done (length A1) (A2 ++ Y ++ B) (map (move_tree g) f))
| sim_out B1 B2 f : B = B1 ++ B2 -> Forall clear f ->
    sim zs (Done (length A + length X + length B1) B2 f)
           (Done (length A + length Y + length B1) B2 (map (move_tree g) f)).

Definition ok (m : nat) (z : zone) (zs : zset) (e : expr) : Prop :=
  forall c A1 A2, A = A1 ++ A2 -> length A2 <= m -> valid_utf8 A2 = true -> inz z A2 ->
    sim zs (run c e (length A1) (A2 ++ X ++ B)) (run c e (length A1) (A2 ++ Y ++ B)).

Lemma sim_weaken zs zs' r r' : zsub zs zs' = true -> sim zs r r' -> sim zs' r r'.
Proof.
  intros H S. destruct S; [constructor| |constructor; assumption]. econstructor; eauto using zsub_mem.
Qed.

Lemma ok_weaken m z zs zs' e : zsub zs zs' = true -> ok m z zs e -> ok m z zs' e.
Proof. intros H S c A1 A2 E L V I. eapply sim_weaken; [exact H|]. apply S; assumption. Qed.

(** ** Validity *)

Lemma valid_X : valid_utf8 (X ++ B) = true.
Proof. rewrite valid_utf8_app by apply HX. exact HB. Qed.
Lemma valid_Y : valid_utf8 (Y ++ B) = true.
Proof. rewrite valid_utf8_app by apply HY. exact HB. Qed.
Lemma valid_inX a : valid_utf8 a = true -> valid_utf8 (a ++ X ++ B) = true.
Proof. intros H. rewrite valid_utf8_app by exact H. exact valid_X. Qed.
Lemma valid_inY a : valid_utf8 a = true -> valid_utf8 (a ++ Y ++ B) = true.
Proof. intros H. rewrite valid_utf8_app by exact H. exact valid_Y. Qed.

Lemma valid_left c e p a q b f : run c e p (a ++ X ++ B) = Done q (b ++ X ++ B) f -> ascii_expr e = true ->
  valid_utf8 a = true -> valid_utf8 b = true.
Proof.
  intros H He Ha. apply (valid_utf8_app_l b (X ++ B)); [|exact valid_X].
  eapply run_valid; [exact H|apply valid_inX; exact Ha|exact He].
Qed.

(** ** After the word *)

Lemma sim_after zs c e B1 B2 : B = B1 ++ B2 -> good e = true ->
  sim zs (run c e (length A + length X + length B1) B2) (run c e (length A + length Y + length B1) B2).
Proof.
  intros E G. pose proof length_X. pose proof length_Y.
  rewrite (run_shift g c e (length A + length X + length B1) B2 (length A + length Y + length B1)); [| |lia|lia].
  2: { intros k Hk. rewrite <- !(Nat.add_assoc _ (length B1)). apply moved_out. }
  destruct (run c e (length A + length X + length B1) B2) as [q s f| |] eqn:R; cbn [move_res].
  - destruct (run_consumes _ _ _ _ _ _ _ R) as (w & -> & ->). apply run_within in R.
    rewrite <- !(Nat.add_assoc (length A + length X)), moved_out, <- (app_length B1 w). constructor.
    + rewrite <- app_assoc. exact E.
    + eapply Forall_impl; [|exact R]. intros t Ht. eapply within_clear; [|exact Ht]. lia.
  - constructor.
  - exfalso. exact (run_total _ _ _ _ G R).
Qed.

(** ** Closure *)

Lemma sim_seq zs f r r' : Forall clear f -> sim zs r r' ->
  sim zs (match r with Done q2 s2 f2 => Done q2 s2 (f ++ f2) | Fail => Fail | OutOfFuel => OutOfFuel end)
    (match r' with Done q2 s2 f2 => Done q2 s2 (map (move_tree g) f ++ f2) | Fail => Fail | OutOfFuel => OutOfFuel end).
Proof.
  intros Hf S. destruct S as [|A1 A2 z f2 E I M H2|B1 B2 f2 E H2]; [constructor| |]; rewrite <- map_app;
    econstructor; try eassumption; apply Forall_app; auto.
Qed.

Lemma ok_seq m z z1 zs a b : good (Seq a b) = true -> ascii_expr a = true ->
  ok m z z1 a -> (forall z', zmem z' z1 = true -> ok m z' zs b) -> ok m z zs (Seq a b).
Proof.
  intros G Ga Ha Hb c A1 A2 E L V I. rewrite !run_seq by exact G. specialize (Ha c A1 A2 E L V I).
  inversion Ha as [|A3 A4 z' f E' I' M' F' R1 R2|B1 B2 f E' F' R1 R2].
  - constructor.
  - symmetry in R1. assert (V' : valid_utf8 A4 = true) by (eapply valid_left; eassumption).
    assert (L' : length A4 <= m).
    { apply run_consumes in R1. destruct R1 as (w & Ew & _). apply (f_equal (@length N)) in Ew. rewrite !app_length in Ew. lia. }
    exact (sim_seq zs f _ _ F' (Hb z' M' c A3 A4 E' L' V' I')).
  - exact (sim_seq zs f _ _ F' (sim_after zs c b B1 B2 E' (proj2 (good_sub _ G)))).
Qed.

(** When the first part takes something, the second is only met with less left. *)
Lemma ok_seq_strict m z z1 zs a b : good (Seq a b) = true -> ascii_expr a = true -> nullable a = false ->
  ok m z z1 a -> (forall z' n, n < m -> zmem z' z1 = true -> ok n z' zs b) -> ok m z zs (Seq a b).
Proof.
  intros G Ga Hn Ha Hb c A1 A2 E L V I. rewrite !run_seq by exact G. specialize (Ha c A1 A2 E L V I).
  inversion Ha as [|A3 A4 z' f E' I' M' F' R1 R2|B1 B2 f E' F' R1 R2].
  - constructor.
  - symmetry in R1. assert (V' : valid_utf8 A4 = true) by (eapply valid_left; eassumption).
    pose proof (run_strict _ _ _ _ _ _ _ R1 Hn) as L'. rewrite !app_length in L'.
    exact (sim_seq zs f _ _ F' (Hb z' (length A4) ltac:(lia) M' c A3 A4 E' (le_n _) V' I')).
  - exact (sim_seq zs f _ _ F' (sim_after zs c b B1 B2 E' (proj2 (good_sub _ G)))).
Qed.

Lemma ok_alt m z zs a b : good (Alt a b) = true -> ok m z zs a -> ok m z zs b -> ok m z zs (Alt a b).
Proof.
  intros G Ha Hb c A1 A2 E L V I. rewrite !run_alt by exact G. specialize (Ha c A1 A2 E L V I).
  inversion Ha; [apply Hb; assumption|econstructor; eassumption|constructor; assumption].
Qed.

Lemma sim_here zs z A1 A2 : A = A1 ++ A2 -> inz z A2 -> zmem z zs = true ->
  sim zs (Done (length A1) (A2 ++ X ++ B) []) (Done (length A1) (A2 ++ Y ++ B) []).
Proof. intros E I M. apply (sim_in zs A1 A2 z [] E I M). constructor. Qed.

Lemma ok_opt m z zs e : good (Opt e) = true -> ok m z zs e -> zmem z zs = true -> ok m z zs (Opt e).
Proof.
  intros G He M c A1 A2 E L V I. rewrite !run_opt by exact G. specialize (He c A1 A2 E L V I).
  inversion He; [eapply sim_here; eassumption|econstructor; eassumption|constructor; assumption].
Qed.

Lemma ok_not m z zs e : good (NegPred e) = true -> ok m z zs e -> ok m z (zone1 z) (NegPred e).
Proof.
  intros G He c A1 A2 E L V I. rewrite !run_not by exact G.
  specialize (He {| atom := atom c; look := true |} A1 A2 E L V I).
  inversion He; [eapply sim_here; try eassumption; apply zone1_self|constructor|constructor].
Qed.

Lemma in_le A1 A2 : A = A1 ++ A2 -> length A1 <= length A.
Proof. intros E. rewrite E, app_length. lia. Qed.

Lemma ok_call m z zs r : ok m z zs (snd (grammar r)) -> ok m z zs (Call r).
Proof.
  intros H c A1 A2 E L V I. rewrite !run_call. specialize (H (rule_inner (fst (grammar r)) c) A1 A2 E L V I).
  inversion H as [|A3 A4 z' f E' I' M' F' R1 R2|B1 B2 f E' F' R1 R2]; [constructor| |].
  - pose proof (move_rule_tokens g (fst (grammar r)) c r (length A1) (length A3) f) as Hm.
    rewrite (moved_in _ _ E), (moved_in _ _ E') in Hm. rewrite <- Hm. econstructor; try eassumption.
    apply rule_tokens_clear; [left; eapply in_le; eassumption|left; eapply in_le; eassumption|exact F'].
  - pose proof (move_rule_tokens g (fst (grammar r)) c r (length A1) (length A + length X + length B1) f) as Hm.
    rewrite (moved_in _ _ E), moved_out in Hm. rewrite <- Hm. constructor; [assumption|].
    apply rule_tokens_clear; [left; eapply in_le; eassumption|right; lia|exact F'].
Qed.

Lemma ok_rep m zs e : good (Rep e) = true -> ascii_expr e = true ->
  (forall z, zmem z zs = true -> ok m z zs e) -> forall z, zmem z zs = true -> ok m z zs (Rep e).
Proof.
  intros G Ge He z M c A1 A2 E. remember (length A2) as n eqn:En. revert z M A1 A2 E En.
  induction n as [n IH] using lt_wf_ind. intros z M A1 A2 E En L V I. rewrite !run_rep by exact G.
  assert (L0 : length A2 <= m) by lia. pose proof (He z M c A1 A2 E L0 V I) as S.
  inversion S as [|A3 A4 z' f E' I' M' F' R1 R2|B1 B2 f E' F' R1 R2].
  - eapply sim_here; eassumption.
  - symmetry in R1. assert (V' : valid_utf8 A4 = true) by (eapply valid_left; eassumption).
    pose proof (run_strict _ _ _ _ _ _ _ R1 (proj2 (good_sub _ G))) as Lt. rewrite !app_length in Lt.
    specialize (IH (length A4) ltac:(lia) z' M' A3 A4 E' eq_refl ltac:(lia) V' I').
    inversion IH as [|A5 A6 z2 f2 E2 I2 M2 F2 R3 R4|B1 B2 f2 E2 F2 R3 R4]; [constructor| |];
      rewrite <- map_app; econstructor; try eassumption; apply Forall_app; auto.
  - pose proof (sim_after zs c (Rep e) B1 B2 E' G) as S'.
    inversion S' as [|A5 A6 z2 f2 E2 I2 M2 F2 R3 R4|B3 B4 f2 E2 F2 R3 R4]; [constructor| |];
      rewrite <- map_app; econstructor; try eassumption; apply Forall_app; auto.
Qed.

(** ** Terminals *)

Lemma X_head : exists x t, X = x :: t /\ plain_byte x = true.
Proof. destruct HX as (_ & H1 & H2 & _). destruct X as [|x t]; [congruence|]. inversion H2. eauto. Qed.
Lemma Y_head : exists x t, Y = x :: t /\ plain_byte x = true.
Proof. destruct HY as (_ & H1 & H2 & _). destruct Y as [|x t]; [congruence|]. inversion H2. eauto. Qed.

Lemma ends_equals A1 A2 : A = A1 ++ A2 -> A2 <> [] -> exists a, A2 = a ++ [EQUALS].
Proof.
  intros E Hne. destruct HA as (a & Ea). rewrite Ea in E.
  destruct (exists_last Hne) as (l & y & ->). rewrite app_assoc in E. apply app_inj_tail in E.
  destruct E as [_ <-]. eauto.
Qed.

Definition class_zones (C : N -> bool) : zset := ZSet true (C EQUALS).

Lemma ok_class m C e : matches_class e C -> ok m ZI (class_zones C) e.
Proof.
  intros He c A1 A2 E L V I. rewrite !He. destruct A2 as [|x A2]; [elim I; reflexivity|].
  cbn [app]. destruct (C x) eqn:Ec; [|constructor].
  assert (E' : A = (A1 ++ [x]) ++ A2) by (rewrite <- app_assoc; exact E).
  replace (length A1 + 1) with (length (A1 ++ [x])) by (rewrite app_length; reflexivity).
  destruct A2 as [|y A2].
  - destruct (ends_equals A1 [x] E ltac:(discriminate)) as (a & Ea). destruct a as [|? [|]]; try discriminate. injection Ea as ->.
    apply (sim_here _ ZE); [exact E'|reflexivity|exact Ec].
  - apply (sim_here _ ZI); [exact E'|discriminate|reflexivity].
Qed.

Lemma match_str_short pat a t : ~ In EQUALS pat ->
  match_str pat (a ++ EQUALS :: t) = match match_str pat (a ++ [EQUALS]) with Some r => Some (r ++ t) | None => None end /\
  (forall r, match_str pat (a ++ [EQUALS]) = Some r -> r <> []).
Proof.
  revert a. induction pat as [|x pat IH]; intros a Hp.
  - cbn [match_str]. assert (E : forall s : bytes, match s with [] => Some s | _ :: _ => Some s end = Some s) by (intros []; reflexivity).
    rewrite ?E. split; [destruct a; cbn [app]; rewrite <- ?app_assoc; reflexivity|]. intros r H.
    destruct a; cbn [app] in H; injection H as <-; discriminate.
  - assert (Hp' : ~ In EQUALS pat) by (intros K; apply Hp; right; exact K).
    destruct a as [|y a]; cbn [app match_str].
    + destruct (x =? EQUALS)%N eqn:Ex; [|split; [reflexivity|discriminate]]. apply N.eqb_eq in Ex. subst x.
      elim Hp. left. reflexivity.
    + destruct (x =? y)%N; [|split; [reflexivity|discriminate]]. apply IH. exact Hp'.
Qed.

Lemma lower_equals c : lower_byte c = EQUALS -> c = EQUALS.
Proof. unfold lower_byte, is_upper. destruct (in_range 65 90 c) eqn:E; [bool_hyps; lia|auto]. Qed.

Lemma match_insens_short pat a t : ~ In EQUALS pat ->
  match_insens pat (a ++ EQUALS :: t) = match match_insens pat (a ++ [EQUALS]) with Some r => Some (r ++ t) | None => None end /\
  (forall r, match_insens pat (a ++ [EQUALS]) = Some r -> r <> []).
Proof.
  revert a. induction pat as [|x pat IH]; intros a Hp.
  - cbn [match_insens]. split; [destruct a; cbn [app]; rewrite <- ?app_assoc; reflexivity|]. intros r H.
    destruct a; cbn [app] in H; injection H as <-; discriminate.
  - assert (Hp' : ~ In EQUALS pat) by (intros K; apply Hp; right; exact K).
    destruct a as [|y a]; cbn [app match_insens].
    + destruct (eq_icase x EQUALS) eqn:Ex; [|split; [reflexivity|discriminate]]. unfold eq_icase in Ex. apply N.eqb_eq in Ex.
      change (lower_byte EQUALS) with EQUALS in Ex. apply lower_equals in Ex. subst x. elim Hp. left. reflexivity.
    + destruct (eq_icase x y); [|split; [reflexivity|discriminate]]. apply IH. exact Hp'.
Qed.

Lemma word_done w A1 A2 r : A = A1 ++ A2 -> A2 = w ++ r -> r <> [] ->
  sim (zone1 ZI) (Done (length A1 + length w) (r ++ X ++ B) []) (Done (length A1 + length w) (r ++ Y ++ B) []).
Proof.
  intros E -> Hr. rewrite <- app_length. apply (sim_here _ ZI); [rewrite <- app_assoc; exact E|exact Hr|reflexivity].
Qed.

Lemma ok_str m pat : ~ In EQUALS pat -> ok m ZI (zone1 ZI) (Str pat).
Proof.
  intros Hp c A1 A2 E L V I. rewrite !run_str. destruct (ends_equals A1 A2 E I) as (a & Ea). rewrite Ea, <- !app_assoc. cbn [app].
  pose proof (match_str_short pat a (X ++ B) Hp) as [-> Hne]. pose proof (match_str_short pat a (Y ++ B) Hp) as [-> _].
  destruct (match_str pat (a ++ [EQUALS])) as [r|] eqn:Er; [|constructor].
  specialize (Hne r eq_refl). apply match_str_app in Er. rewrite <- Ea in Er. exact (word_done pat A1 A2 r E Er Hne).
Qed.

Lemma ok_insens m pat : ~ In EQUALS pat -> ok m ZI (zone1 ZI) (Insens pat).
Proof.
  intros Hp c A1 A2 E L V I. rewrite !run_insens. destruct (ends_equals A1 A2 E I) as (a & Ea). rewrite Ea, <- !app_assoc. cbn [app].
  pose proof (match_insens_short pat a (X ++ B) Hp) as [-> Hne]. pose proof (match_insens_short pat a (Y ++ B) Hp) as [-> _].
  destruct (match_insens pat (a ++ [EQUALS])) as [r|] eqn:Er; [|constructor].
  specialize (Hne r eq_refl). apply match_insens_app in Er. destruct Er as (w & Ew & Hw). rewrite <- Ea in Ew.
  replace (length pat) with (length w).
  2: { apply (f_equal (@length N)) in Hw. unfold to_lower in Hw. rewrite !map_length in Hw. exact Hw. }
  exact (word_done w A1 A2 r E Ew Hne).
Qed.

(** ** Reading up to a stop *)

(** A stop that is the same with either word, and never in it *)
Definition blind (stop : bytes -> bool) : Prop :=
  (forall x t, plain_byte x = true -> stop (x :: t) = false) /\
  (forall x a, stop (x :: a ++ X ++ B) = stop (x :: a ++ Y ++ B)).

Lemma over_word stop w s : plain_text w -> (forall x t, plain_byte x = true -> stop (x :: t) = false) ->
  until stop (w ++ s) = w ++ until stop s /\ from_stop stop (w ++ s) = from_stop stop s.
Proof.
  intros (_ & _ & Hw & _) H. apply Swap.until_over. intros b y c ->. apply H. apply Forall_app in Hw. destruct Hw as [_ Hw]. inversion Hw. assumption.
Qed.

Lemma scan stop a : blind stop ->
  (exists a1 x a2, a = a1 ++ x :: a2 /\
    until stop (a ++ X ++ B) = a1 /\ from_stop stop (a ++ X ++ B) = x :: a2 ++ X ++ B /\
    until stop (a ++ Y ++ B) = a1 /\ from_stop stop (a ++ Y ++ B) = x :: a2 ++ Y ++ B) \/
  (until stop (a ++ X ++ B) = a ++ X ++ until stop B /\ from_stop stop (a ++ X ++ B) = from_stop stop B /\
   until stop (a ++ Y ++ B) = a ++ Y ++ until stop B /\ from_stop stop (a ++ Y ++ B) = from_stop stop B).
Proof.
  intros [H1 H2]. destruct (Swap.first_stop stop (X ++ B) a) as [(a1 & x & a2 & -> & Hs & Hb)|Hb].
  - left. exists a1, x, a2. split; [reflexivity|]. rewrite <- !app_assoc. cbn [app].
    destruct (Swap.until_in stop a1 x (a2 ++ X ++ B) Hs Hb) as [-> ->].
    destruct (Swap.until_in stop a1 x (a2 ++ Y ++ B)) as [-> ->].
    + rewrite <- H2. exact Hs.
    + intros b y c Ea. specialize (Hb b y c Ea). specialize (H2 y (c ++ x :: a2)). rewrite <- !app_assoc in H2. cbn [app] in H2. congruence.
    + repeat split; auto.
  - right. destruct (Swap.until_over stop a (X ++ B) Hb) as [-> ->].
    destruct (Swap.until_over stop a (Y ++ B)) as [-> ->]; [intros b y c E; rewrite <- H2; eapply Hb; exact E|].
    destruct (over_word stop X B HX H1) as [-> ->]. destruct (over_word stop Y B HY H1) as [-> ->]. repeat split; auto.
Qed.

Definition scan_zones (z : zone) : zset := match z with ZI => zone1 ZI | ZE => zempty end.

Lemma scan_in z A1 a1 x a2 : A = A1 ++ a1 ++ x :: a2 -> inz z (a1 ++ x :: a2) ->
  sim (scan_zones z) (Done (length A1 + length a1) (x :: a2 ++ X ++ B) []) (Done (length A1 + length a1) (x :: a2 ++ Y ++ B) []).
Proof.
  intros E I. destruct z; [|destruct a1; discriminate I].
  rewrite <- app_length. rewrite app_assoc in E. apply (sim_here _ ZI (A1 ++ a1) (x :: a2)); [exact E|discriminate|reflexivity].
Qed.

Lemma scan_out stop zs A1 a : A = A1 ++ a ->
  sim zs (Done (length A1 + length (a ++ X ++ until stop B)) (from_stop stop B) []) (Done (length A1 + length (a ++ Y ++ until stop B)) (from_stop stop B) []).
Proof.
  intros E. replace (length A1 + length (a ++ X ++ until stop B)) with (length A + length X + length (until stop B)) by (rewrite E, !app_length; lia).
  replace (length A1 + length (a ++ Y ++ until stop B)) with (length A + length Y + length (until stop B)) by (rewrite E, !app_length; lia).
  apply (sim_out zs (until stop B) (from_stop stop B) []); [symmetry; apply until_app|constructor].
Qed.

Lemma ok_until m z e stop : good (Rep e) = true -> stops_at_ascii stop -> matches_unless e stop -> blind stop ->
  ok m z (scan_zones z) (Rep e).
Proof.
  intros G Ha He Hb c A1 A2 E L V I.
  rewrite (until_rep e stop G Ha He c _ (A2 ++ X ++ B)) by (apply valid_inX; exact V).
  rewrite (until_rep e stop G Ha He c _ (A2 ++ Y ++ B)) by (apply valid_inY; exact V).
  destruct (scan stop A2 Hb) as [(a1 & x & a2 & -> & -> & -> & -> & ->)|(-> & -> & -> & ->)].
  - apply scan_in; [exact E|exact I].
  - apply scan_out. exact E.
Qed.

Lemma ok_until1 m z e stop : good (rep1 e) = true -> stops_at_ascii stop -> matches_unless e stop -> blind stop ->
  ok m z (scan_zones z) (rep1 e).
Proof.
  intros G Ha He Hb c A1 A2 E L V I.
  rewrite (until_rep1 e stop G Ha He c _ (A2 ++ X ++ B)) by (apply valid_inX; exact V).
  rewrite (until_rep1 e stop G Ha He c _ (A2 ++ Y ++ B)) by (apply valid_inY; exact V).
  destruct (scan stop A2 Hb) as [(a1 & x & a2 & -> & -> & -> & -> & ->)|(-> & -> & -> & ->)].
  - destruct a1 as [|y a1]; [constructor|]. apply scan_in; [exact E|exact I].
  - pose proof (scan_out stop (scan_zones z) A1 A2 E) as S.
    destruct X_head as (x & t & Ex & _). destruct Y_head as (y & u & Ey & _).
    destruct (A2 ++ X ++ until stop B) as [|x1 t1] eqn:E1; [rewrite Ex in E1; destruct A2; discriminate|].
    destruct (A2 ++ Y ++ until stop B) as [|x2 t2] eqn:E2; [rewrite Ey in E2; destruct A2; discriminate|]. exact S.
Qed.

(** A stop that always comes at the equals sign *)
Lemma ok_before m e stop : good (rep1 e) = true -> stops_at_ascii stop -> matches_unless e stop ->
  (forall x t t', stop (x :: t) = stop (x :: t')) -> (forall t, stop (EQUALS :: t) = true) ->
  ok m ZI (zone1 ZI) (rep1 e).
Proof.
  intros G Ha He Hl Hs c A1 A2 E L V I.
  rewrite (until_rep1 e stop G Ha He c _ (A2 ++ X ++ B)) by (apply valid_inX; exact V).
  rewrite (until_rep1 e stop G Ha He c _ (A2 ++ Y ++ B)) by (apply valid_inY; exact V).
  destruct (ends_equals A1 A2 E I) as (a & Ea).
  destruct (Swap.first_stop stop (X ++ B) A2) as [(a1 & x & a2 & -> & H1 & H2)|H].
  2: { specialize (H a EQUALS [] Ea). rewrite Hs in H. discriminate. }
  rewrite <- !app_assoc. cbn [app]. destruct (Swap.until_in stop a1 x (a2 ++ X ++ B) H1 H2) as [-> ->].
  destruct (Swap.until_in stop a1 x (a2 ++ Y ++ B)) as [-> ->].
  { rewrite (Hl x _ (a2 ++ X ++ B)). exact H1. }
  { intros b y d K. rewrite (Hl y _ (d ++ x :: a2 ++ X ++ B)). eapply H2. exact K. }
  destruct a1 as [|y a1]; [constructor|]. apply (scan_in ZI); [exact E|exact I].
Qed.

Lemma plain_not_newline x t : plain_byte x = true -> newline_here (x :: t) = false.
Proof. intros H. apply plain_byte_spec in H. apply H. Qed.

Lemma plain_not_continues x t : plain_byte x = true -> continues (x :: t) = false.
Proof.
  intros H. destruct (continues (x :: t)) eqn:E; [|reflexivity]. apply continues_ascii in E. apply plain_byte_spec in H.
  destruct H as (_ & _ & H & _). congruence.
Qed.

Lemma drop_blanks a w s : plain_text w ->
  (drop_while is_blank (a ++ w ++ s) = w ++ s /\ Forall (fun c => is_blank c = true) a) \/
  (exists a1 x a2, a = a1 ++ x :: a2 /\ Forall (fun c => is_blank c = true) a1 /\ is_blank x = false /\
    drop_while is_blank (a ++ w ++ s) = x :: a2 ++ w ++ s).
Proof.
  intros (_ & Hne & Hw & _). induction a as [|x a IH]; cbn [app drop_while].
  - left. split; [|constructor]. destruct w as [|x w]; [congruence|]. inversion Hw as [|? ? Hx _]. subst.
    apply plain_byte_spec in Hx. destruct Hx as [Hx _]. cbn [app drop_while]. rewrite Hx. reflexivity.
  - destruct (is_blank x) eqn:Ex.
    + destruct IH as [[-> H]|(a1 & y & a2 & -> & H1 & H2 & ->)].
      * left. split; [reflexivity|]. constructor; assumption.
      * right. exists (x :: a1), y, a2. repeat split; auto.
    + right. exists [], x, a. repeat split; auto.
Qed.

Lemma continues_blind x a : continues (x :: a ++ X ++ B) = continues (x :: a ++ Y ++ B).
Proof.
  unfold continues. cbn [cont_rest]. destruct (x =? BSLASH)%N; [|reflexivity].
  destruct X_head as (x0 & t0 & Ex & Hx0). destruct Y_head as (y0 & u0 & Ey & Hy0).
  destruct (drop_blanks a X B HX) as [[-> Ha]|(a1 & y & a2 & -> & Ha1 & Hy & ->)].
  - destruct (drop_blanks a Y B HY) as [[-> _]|(a1 & y & a2 & -> & _ & Hy & _)].
    + assert (K1 : strip_newline (X ++ B) = None) by (apply strip_newline_none; rewrite Ex; apply plain_not_newline; exact Hx0).
      assert (K2 : strip_newline (Y ++ B) = None) by (apply strip_newline_none; rewrite Ey; apply plain_not_newline; exact Hy0).
      rewrite K1, K2. reflexivity.
    + apply Forall_app in Ha. destruct Ha as [_ Ha]. inversion Ha. congruence.
  - assert (E : drop_while is_blank ((a1 ++ y :: a2) ++ Y ++ B) = y :: a2 ++ Y ++ B).
    { clear - Ha1 Hy. induction a1 as [|z a1 IH]; cbn [app drop_while]; [rewrite Hy; reflexivity|]. inversion Ha1. rewrite H1. apply IH. assumption. }
    rewrite E. pose proof (strip_newline_none (y :: a2 ++ X ++ B)) as N1. pose proof (strip_newline_none (y :: a2 ++ Y ++ B)) as N2.
    cbn [newline_here] in N1, N2.
    destruct (strip_newline (y :: a2 ++ X ++ B)) as [[n1 s1]|], (strip_newline (y :: a2 ++ Y ++ B)) as [[n2 s2]|]; try reflexivity; exfalso.
    + apply proj1 in N2. specialize (N2 eq_refl). apply proj2 in N1. specialize (N1 N2). discriminate.
    + apply proj1 in N1. specialize (N1 eq_refl). apply proj2 in N2. specialize (N2 N1). discriminate.
Qed.

Lemma blind_newline : blind newline_here.
Proof. split; [apply plain_not_newline|reflexivity]. Qed.

Lemma blind_word : blind word_stop.
Proof.
  split.
  - intros x t H. unfold word_stop. rewrite (plain_not_newline x t H). cbn [orb is_nil gap_here].
    rewrite (plain_not_continues x t H). apply plain_byte_spec in H. destruct H as [-> _]. reflexivity.
  - intros x a. unfold word_stop. cbn [newline_here is_nil gap_here]. rewrite (continues_blind x a). reflexivity.
Qed.

Lemma blind_chunk : blind chunk_stop.
Proof.
  split.
  - intros x t H. unfold chunk_stop. rewrite (plain_not_newline x t H), (plain_not_continues x t H). reflexivity.
  - intros x a. unfold chunk_stop. cbn [newline_here]. rewrite (continues_blind x a). reflexivity.
Qed.

Lemma blind_quote q : (q = DQUOTE \/ q = SQUOTE) -> blind (quote_stop q).
Proof.
  intros Hq. split; [|reflexivity]. intros x t H. cbn [quote_stop]. apply plain_byte_spec in H. destruct H as (_ & _ & H1 & H2 & H3 & H4 & H5).
  assert (E1 : (q =? x)%N = false) by (apply N.eqb_neq; intros <-; destruct Hq; subst q; congruence).
  assert (E2 : (BSLASH =? x)%N = false) by (apply N.eqb_neq; congruence).
  assert (E3 : (0 =? x)%N = false) by (apply N.eqb_neq; congruence).
  assert (E4 : (31 =? x)%N = false) by (apply N.eqb_neq; congruence).
  rewrite E1, E2, E3, E4. reflexivity.
Qed.

Lemma ok_any_whitespace m z : ok m z (scan_zones z) (Call R_any_whitespace).
Proof. apply ok_call. apply (ok_until1 m z _ word_stop); [reflexivity|exact word_stop_ascii|exact word_unless|exact blind_word]. Qed.
Lemma ok_any_equals m : ok m ZI (zone1 ZI) (Call R_any_equals).
Proof.
  apply ok_call. apply (ok_before m _ label_stop); [reflexivity|exact label_stop_ascii|exact label_unless|reflexivity|].
  intros t. unfold label_stop. cbn. reflexivity.
Qed.
Lemma ok_any_content m z : ok m z (scan_zones z) (Call R_any_content).
Proof. apply ok_call. apply (ok_until1 m z _ chunk_stop); [reflexivity|exact chunk_stop_ascii|exact chunk_unless|exact blind_chunk]. Qed.

Lemma ok_comment m : ok m ZI (zone1 ZI) (Call R_comment).
Proof.
  apply ok_call. change (snd (grammar R_comment)) with (Seq (Str [HASH]) not_newline_rep).
  apply (ok_seq m ZI (zone1 ZI)); [reflexivity|reflexivity|apply ok_str; intros [K|[]]; discriminate K|].
  intros z M. destruct z; [|discriminate]. unfold not_newline_rep.
  apply (ok_until m ZI _ newline_here); [reflexivity|exact newline_byte_ascii|exact Swap.newline_unless|exact blind_newline].
Qed.

(** ** The check *)

Definition zbind (f : zone -> option zset) (s : zset) : option zset :=
  let get (b : bool) z := if b then f z else Some zempty in
  match get (hasI s) ZI, get (hasE s) ZE with
  | Some a, Some b => Some (zunion a b)
  | _, _ => None
  end.

Lemma zbind_mem f s t z : zbind f s = Some t -> zmem z s = true -> exists t', f z = Some t' /\ zsub t' t = true.
Proof.
  unfold zbind. intros H M. destruct s as [[] []], z; try discriminate M; cbn [hasI hasE] in H;
    repeat match type of H with context [match f ?y with _ => _ end] => destruct (f y) eqn:?; try discriminate end;
    injection H as <-; eexists; (split; [first [reflexivity|eassumption]|]);
    repeat match goal with |- context [zunion ?a _] => is_var a; destruct a as [[] []] end;
    repeat match goal with |- context [zunion _ ?a] => is_var a; destruct a as [[] []] end; reflexivity.
Qed.

Definition str_zones (pat : bytes) (z : zone) : option zset :=
  match z with
  | ZE => match pat with c0 :: _ => if plain_byte c0 then None else Some zempty | [] => None end
  | ZI => if forallb (fun c => negb (N.eqb c EQUALS)) pat then Some (zone1 ZI)
          else match pat with [c0] => Some (class_zones (N.eqb c0)) | _ => None end
  end.

Lemma no_equals pat : forallb (fun c => negb (N.eqb c EQUALS)) pat = true -> ~ In EQUALS pat.
Proof. intros H K. rewrite forallb_forall in H. apply H in K. discriminate. Qed.

Lemma str_zones_ok m pat z zs : str_zones pat z = Some zs -> ok m z zs (Str pat).
Proof.
  unfold str_zones. intros H. destruct z.
  - destruct (forallb _ pat) eqn:Ef; [injection H as <-; apply ok_str; apply no_equals; exact Ef|].
    destruct pat as [|c0 [|]]; try discriminate. injection H as <-. apply ok_class. apply class_str.
  - destruct pat as [|c0 pat]; [discriminate|]. destruct (plain_byte c0) eqn:Ei; [discriminate|]. injection H as <-.
    intros c A1 A2 E L V I. cbn [inz] in I. subst A2.
    cbn [app]. rewrite !run_str. destruct X_head as (x & t & -> & Hx). destruct Y_head as (y & u & -> & Hy). cbn [app match_str].
    assert (E1 : (c0 =? x)%N = false) by (apply N.eqb_neq; congruence).
    assert (E2 : (c0 =? y)%N = false) by (apply N.eqb_neq; congruence).
    rewrite E1, E2. constructor.
Qed.

(** [prim] gives the zones of rules that are dealt with separately. *)
Fixpoint chk (prim : rule -> zone -> option zset) (n : nat) (e : expr) (z : zone) {struct n} : option zset :=
  match n with
  | O => None
  | S n' =>
    match e with
    | Str pat => str_zones pat z
    | Insens pat => match z with ZI => if forallb (fun c => negb (N.eqb c EQUALS)) pat then Some (zone1 ZI) else None | ZE => None end
    | Range lo hi => match z with ZE => None | ZI => Some (class_zones (in_range lo hi)) end
    | AnyChar | Soi => None
    | EndOfInput => Some zempty
    | Call r => match prim r z with Some zs => Some zs | None => chk prim n' (snd (grammar r)) z end
    | NegPred e1 => match chk prim n' e1 z with Some _ => Some (zone1 z) | None => None end
    | Seq a b => match chk prim n' a z with Some s => zbind (chk prim n' b) s | None => None end
    | Alt a b =>
      match chk prim n' a z, chk prim n' b z with Some s, Some t => Some (zunion s t) | _, _ => None end
    | Opt e1 => match chk prim n' e1 z with Some s => Some (zunion (zone1 z) s) | None => None end
    | Rep e1 =>
      let step s := match zbind (chk prim n' e1) s with Some t => zunion s t | None => s end in
      let s := step (step (zone1 z)) in
      match zbind (chk prim n' e1) s with
      | Some t => if zsub t s && zmem z s then Some s else None
      | None => None
      end
    end
  end.

Lemma chk_sound m prim : (forall r z zs, prim r z = Some zs -> ok m z zs (Call r)) ->
  forall n e z zs, good e = true -> ascii_expr e = true -> chk prim n e z = Some zs -> ok m z zs e.
Proof.
  intros Hp. induction n as [|n IH]; [discriminate|]. intros e z zs G Ga H. cbn [chk] in H.
  destruct e as [pat|pat|lo hi| | | |r|e|a b|a b|e|e].
  - apply str_zones_ok. exact H.
  - destruct z; [|discriminate]. destruct (forallb _ pat) eqn:Ef; [|discriminate]. injection H as <-. apply ok_insens. apply no_equals. exact Ef.
  - destruct z; [|discriminate]. injection H as <-. apply ok_class. apply class_range.
  - discriminate.
  - discriminate.
  - injection H as <-. intros c A1 A2 E L V I. rewrite !run_eoi.
    destruct X_head as (x & t & -> & _). destruct Y_head as (y & u & -> & _). destruct A2; constructor.
  - destruct (prim r z) eqn:Er; [injection H as <-; apply Hp; exact Er|].
    apply ok_call. apply IH; [apply good_rule|apply ascii_rule|exact H].
  - destruct (chk prim n e z) eqn:E1; [|discriminate]. injection H as <-. apply (ok_not m z z0); [exact G|].
    apply IH; [apply (good_sub _ G)|exact Ga|exact E1].
  - destruct (chk prim n a z) as [s|] eqn:E1; [|discriminate]. cbn [ascii_expr] in Ga. apply andb_true_iff in Ga.
    apply (ok_seq m z s); [exact G|apply Ga|apply IH; [apply (good_sub _ G)|apply Ga|exact E1]|].
    intros z' M. destruct (zbind_mem _ _ _ _ H M) as (t' & E2 & S). apply (ok_weaken m z' t'); [exact S|].
    apply IH; [apply (good_sub _ G)|apply Ga|exact E2].
  - destruct (chk prim n a z) as [s|] eqn:E1; [|discriminate]. destruct (chk prim n b z) as [t|] eqn:E2; [|discriminate].
    injection H as <-. cbn [ascii_expr] in Ga. apply andb_true_iff in Ga.
    apply ok_alt; [exact G| |].
    + apply (ok_weaken m z s); [apply zunion_l|]. apply IH; [apply (good_sub _ G)|apply Ga|exact E1].
    + apply (ok_weaken m z t); [apply zunion_r|]. apply IH; [apply (good_sub _ G)|apply Ga|exact E2].
  - destruct (chk prim n e z) as [s|] eqn:E1; [|discriminate]. injection H as <-.
    apply ok_opt; [exact G| |].
    + apply (ok_weaken m z s); [apply zunion_r|]. apply IH; [apply (good_sub _ G)|exact Ga|exact E1].
    + eapply zsub_mem; [apply zunion_l|apply zone1_self].
  - revert H. cbv zeta. match goal with |- context [zmem z ?t] => set (s := t) end. clearbody s.
    destruct (zbind (chk prim n e) s) as [t|] eqn:E1; [|discriminate].
    destruct (zsub t s && zmem z s) eqn:E2; [|discriminate]. intros H. injection H as <-. apply andb_true_iff in E2.
    apply ok_rep; [exact G|exact Ga| |apply E2].
    intros z' M. destruct (zbind_mem _ _ _ _ E1 M) as (t' & E3 & S). apply (ok_weaken m z' t'); [eapply zsub_trans; [exact S|apply E2]|].
    apply IH; [apply (good_sub _ G)|exact Ga|exact E3].
Qed.

Definition chk_in prim n e z (zs : zset) : bool := match chk prim n e z with Some t => zsub t zs | None => false end.

Lemma chk_weak m prim n e z zs : (forall r z zs, prim r z = Some zs -> ok m z zs (Call r)) ->
  good e = true -> ascii_expr e = true -> chk_in prim n e z zs = true -> ok m z zs e.
Proof.
  intros Hp G Ga H. unfold chk_in in H. destruct (chk prim n e z) as [t|] eqn:E; [|discriminate].
  apply (ok_weaken m z t); [exact H|]. apply (chk_sound m prim Hp n); assumption.
Qed.

(** ** Rules *)

Definition scans (r : rule) (z : zone) : option zset :=
  match r, z with
  | R_any_whitespace, _ | R_any_content, _ => Some (scan_zones z)
  | R_any_equals, ZI | R_comment, ZI => Some (zone1 ZI)
  | _, _ => None
  end.

Lemma scans_ok m r z zs : scans r z = Some zs -> ok m z zs (Call r).
Proof.
  destruct r; try discriminate; cbn [scans]; intros H; try (destruct z; [|discriminate]); injection H as <-.
  - apply ok_comment.
  - apply ok_any_content.
  - apply ok_any_whitespace.
  - apply ok_any_equals.
Qed.

Lemma ok_inner q : (q = DQUOTE \/ q = SQUOTE) -> forall m z, ok m z (scan_zones z) (Call (inner_rule q)).
Proof.
  intros Hq. assert (Ha : (q < 128)%N) by (destruct Hq; subst; reflexivity).
  assert (G : good (Seq (Rep (plain_quoted q)) (Opt (Seq (Call R_escape) (Call (inner_rule q))))) = true) by (destruct Hq; subst; reflexivity).
  assert (Ga : ascii_expr (Seq (Rep (plain_quoted q)) (Opt (Seq (Call R_escape) (Call (inner_rule q))))) = true) by (destruct Hq; subst; reflexivity).
  induction m as [m IH] using lt_wf_ind. intros z. apply ok_call. rewrite (inner_rule_body q Hq). cbn [snd].
  apply (ok_seq m z (scan_zones z)); [exact G|apply andb_true_iff in Ga; apply Ga| |].
  - apply (ok_until m z (plain_quoted q) (quote_stop q)); [destruct Hq; subst; reflexivity|apply quote_stop_ascii; exact Ha|apply quote_unless|apply blind_quote; exact Hq].
  - intros z' M. destruct z; [|destruct z'; discriminate]. destruct z'; [|discriminate].
    apply ok_opt; [apply (good_sub _ G)| |reflexivity].
    apply (ok_seq_strict m ZI (zone1 ZI)); [destruct Hq; subst; reflexivity|reflexivity|reflexivity| |].
    + apply (chk_weak m scans 30 _ _ _ (scans_ok m)); [reflexivity|reflexivity|]. vm_compute. reflexivity.
    + intros z2 n Hn M2. destruct z2; [|discriminate]. apply (IH n Hn ZI).
Qed.

Lemma ok_breakable m : ok m ZI (zone1 ZI) (Call R_any_breakable).
Proof.
  induction m as [m IH] using lt_wf_ind. apply ok_call. cbn [grammar snd].
  apply ok_alt; [reflexivity| |].
  - apply (ok_seq_strict m ZI (zone1 ZI)); [reflexivity|reflexivity|reflexivity| |].
    + apply (chk_weak m scans 30 _ _ _ (scans_ok m)); [reflexivity|reflexivity|]. vm_compute. reflexivity.
    + intros z2 n Hn M2. destruct z2; [|discriminate]. apply ok_opt; [reflexivity| |reflexivity]. apply IH. exact Hn.
  - apply (ok_seq m ZI (zone1 ZI)); [reflexivity|reflexivity|apply (ok_any_content m ZI)|].
    intros z' M. destruct z'; [|discriminate]. apply ok_opt; [reflexivity| |reflexivity].
    apply (ok_seq_strict m ZI (zone1 ZI)); [reflexivity|reflexivity|reflexivity| |].
    + apply (chk_weak m scans 30 _ _ _ (scans_ok m)); [reflexivity|reflexivity|]. vm_compute. reflexivity.
    + intros z2 n Hn M2. destruct z2; [|discriminate]. apply IH. exact Hn.
Qed.

Definition prims (r : rule) (z : zone) : option zset :=
  match r, z with
  | R_inner, _ | R_single_quoted_inner, _ => Some (scan_zones z)
  | R_any_breakable, ZI => Some (zone1 ZI)
  | r, z => scans r z
  end.

Lemma prims_ok m r z zs : prims r z = Some zs -> ok m z zs (Call r).
Proof.
  destruct r; try (apply scans_ok); cbn [prims]; intros H.
  - injection H as <-. apply (ok_inner DQUOTE); auto.
  - injection H as <-. apply (ok_inner SQUOTE); auto.
  - destruct z; [|discriminate]. injection H as <-. apply ok_breakable.
Qed.

Hypothesis HVA : valid_utf8 A = true.

Theorem reworded_document q f :
  run ctx0 (Call R_dockerfile) 0 (A ++ X ++ B) = Done q [] f ->
  run ctx0 (Call R_dockerfile) 0 (A ++ Y ++ B) = Done (g q) [] (map (move_tree g) f) /\ Forall clear f.
Proof.
  intros R.
  assert (Hne : A <> []) by (destruct HA as (a & ->); destruct a; discriminate).
  assert (S : sim zempty (run ctx0 (Call R_dockerfile) 0 (A ++ X ++ B)) (run ctx0 (Call R_dockerfile) 0 (A ++ Y ++ B))).
  { rewrite !run_call. cbn [grammar fst snd rule_inner]. change (rule_outer Normal ctx0) with ctx0.
    rewrite !(run_seq ctx0 Soi) by reflexivity. rewrite !run_soi. cbn [Nat.eqb].
    match goal with |- context [run ctx0 ?e 0 (A ++ X ++ B)] => assert (K : ok (length A) ZI zempty e) end.
    { apply (chk_weak (length A) prims 60 _ _ _ (prims_ok _)); [reflexivity|reflexivity|vm_compute; reflexivity]. }
    specialize (K ctx0 [] A eq_refl (le_n _) HVA Hne). cbn [length] in K. cbn [app].
    inversion K as [|A3 A4 z' f' E' I' M' F' R1 R2|B1 B2 f' E' F' R1 R2]; [constructor|destruct z'; discriminate|].
    pose proof (move_rule_tokens g Normal ctx0 R_dockerfile 0 (length A + length X + length B1) f') as Hm.
    rewrite (moved_in [] A eq_refl : g 0 = 0), moved_out in Hm. rewrite <- Hm. constructor; [assumption|].
    apply rule_tokens_clear; [left; lia|right; lia|exact F']. }
  rewrite R in S. remember (run ctx0 (Call R_dockerfile) 0 (A ++ Y ++ B)) as r' eqn:RY. clear RY.
  inversion S as [|A3 A4 z f' E' I' M' F' Q1 Q2|B1 B2 f' E' F' Q1 Q2]; subst; [destruct z; discriminate|].
  rewrite moved_out. split; [reflexivity|exact F'].
Qed.

End EqSwap.
