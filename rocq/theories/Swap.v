(** Two texts that differ only in the image of one FROM are read alike.

    The text is [P ++ K ++ X ++ B]: [P] ends where the FROM begins, [K] is its
    keyword, flags and gaps, [X] the image and [B] the rest.  A second text has [Y]
    for [X].  A run of the grammar on both stays in step as long as it is in [P ++ K]
    or in [B]; the lemmas say which expressions cannot tell [X] from [Y]. *)

From Coq Require Import String.
From Verif Require Import Bytes BytesFacts Grammar Peg PegFacts SpecSyntax SpecMove PegRules PegTokens PegQuoted Shift.
Local Open Scope nat_scope.

(** A position in [P ++ K]: not past the beginning of the FROM, inside [K], or at its end *)
Inductive zone : Type := ZP | ZK | ZE.
Record zset : Type := ZSet { hasP : bool; hasK : bool; hasE : bool }.
Definition zmem (z : zone) (s : zset) : bool :=
  match z with ZP => hasP s | ZK => hasK s | ZE => hasE s end.
Definition zempty : zset := ZSet false false false.
Definition zone1 (z : zone) : zset :=
  match z with ZP => ZSet true false false | ZK => ZSet false true false | ZE => ZSet false false true end.
Definition zunion (a b : zset) : zset := ZSet (hasP a || hasP b) (hasK a || hasK b) (hasE a || hasE b).
Definition zsub (a b : zset) : bool := implb (hasP a) (hasP b) && implb (hasK a) (hasK b) && implb (hasE a) (hasE b).

Lemma zsub_mem a b z : zsub a b = true -> zmem z a = true -> zmem z b = true.
Proof.
  destruct a as [[] [] []], b as [[] [] []]; cbn; try discriminate; destruct z; cbn; auto.
Qed.
Lemma zunion_l a b : zsub a (zunion a b) = true.
Proof. destruct a as [[] [] []], b as [[] [] []]; reflexivity. Qed.
Lemma zunion_r a b : zsub b (zunion a b) = true.
Proof. destruct a as [[] [] []], b as [[] [] []]; reflexivity. Qed.
Lemma zone1_mem z z' : zmem z (zone1 z') = true -> z = z'.
Proof. destruct z, z'; cbn; congruence. Qed.
Lemma zone1_self z : zmem z (zone1 z) = true.
Proof. destruct z; reflexivity. Qed.
Lemma zsub_trans a b c : zsub a b = true -> zsub b c = true -> zsub a c = true.
Proof. destruct a as [[] [] []], b as [[] [] []], c as [[] [] []]; cbn; congruence. Qed.

Definition is_break (c : N) : bool := is_blank c || is_newline_byte c.

Lemma image_char_ascii c : image_char c = true -> (c < 128)%N.
Proof.
  unfold image_char, is_alnum, is_alpha, is_lower, is_upper, is_digit. cbn [existsb]. intros H. bool_hyps.
  repeat match goal with H : _ \/ _ |- _ => destruct H; bool_hyps end; subst; try lia; try reflexivity; discriminate.
Qed.

Lemma image_char_not c d : image_char c = true -> image_char d = false -> c <> d.
Proof. congruence. Qed.

Lemma image_char_solid c : image_char c = true -> is_blank c = false /\ is_newline_byte c = false /\ c <> BSLASH.
Proof.
  intros H. split; [|split].
  - destruct (is_blank c) eqn:E; [|reflexivity]. unfold is_blank in E. bool_hyps. destruct E; bool_hyps; subst; discriminate.
  - destruct (is_newline_byte c) eqn:E; [|reflexivity]. unfold is_newline_byte in E. bool_hyps. destruct E; bool_hyps; subst; discriminate.
  - intros ->. discriminate.
Qed.

Lemma image_text_ascii w : image_text w -> ascii_all w = true.
Proof.
  intros [_ H]. apply forallb_forall. intros x Hx. rewrite Forall_forall in H.
  specialize (H x Hx). apply image_char_ascii in H. apply N.ltb_lt. exact H.
Qed.

Section Swap.
Variables P K X Y B : bytes.
Hypothesis HX : image_text X.
Hypothesis HY : image_text Y.
Hypothesis HB : valid_utf8 B = true.
Hypothesis HBhead : match B with c :: _ => image_char c = false /\ c <> EQUALS | [] => True end.
Hypothesis HK : exists k0 K1 z, K = k0 :: K1 ++ [z] /\ lower_byte k0 = 102%N /\ is_break z = true.
Hypothesis HP : exists U w, P = U ++ w /\ Forall (fun c => is_blank c = true) w /\
  (U = [] \/ exists U0 n, U = U0 ++ [n] /\ is_newline_byte n = true).

Definition before : bytes := P ++ K.
Notation A := before.
Definition moved : nat -> nat := replacement (length A) (length A + length X) (length Y).
Notation g := moved.

Definition inz (z : zone) (a : bytes) : Prop :=
  match z with
  | ZP => length K <= length a
  | ZK => a <> [] /\ length a < length K
  | ZE => a = []
  end.

Lemma moved_in A1 A2 : A = A1 ++ A2 -> g (length A1) = length A1.
Proof.
  intros E. unfold moved, replacement. apply (f_equal (@length N)) in E. rewrite app_length in E.
  destruct (Nat.leb_spec (length A1) (length A)); lia.
Qed.

Lemma length_X : 0 < length X.
Proof. destruct HX as [H _]. destruct X; [congruence|cbn; lia]. Qed.
Lemma length_Y : 0 < length Y.
Proof. destruct HY as [H _]. destruct Y; [congruence|cbn; lia]. Qed.

Lemma moved_out k : g (length A + length X + k) = length A + length Y + k.
Proof.
  unfold moved, replacement. pose proof length_X. destruct (Nat.leb_spec (length A + length X + k) (length A)); lia.
Qed.

Inductive sim (zs : zset) : res -> res -> Prop :=
| sim_fail : sim zs Fail Fail
| sim_in A1 A2 z f : A = A1 ++ A2 -> inz z A2 -> zmem z zs = true ->
    sim zs (Done (length A1) (A2 ++ X ++ B) f) (Done (length A1) (A2 ++ Y ++ B) (map (move_tree g) f))
| sim_out B1 B2 f : B = B1 ++ B2 ->
    sim zs (Done (length A + length X + length B1) B2 f)
           (Done (length A + length Y + length B1) B2 (map (move_tree g) f)).

Definition ok (m : nat) (z : zone) (zs : zset) (e : expr) : Prop :=
  forall c A1 A2, A = A1 ++ A2 -> length A2 <= m -> valid_utf8 A2 = true -> inz z A2 ->
    sim zs (run c e (length A1) (A2 ++ X ++ B)) (run c e (length A1) (A2 ++ Y ++ B)).

Lemma sim_weaken zs zs' r r' : zsub zs zs' = true -> sim zs r r' -> sim zs' r r'.
Proof.
  intros H S. destruct S; [constructor| |constructor; assumption]. econstructor; eauto using zsub_mem.
Qed.

Lemma ok_weaken m z zs zs' e : zsub zs zs' = true -> ok m z zs e -> ok m z zs' e.
Proof. intros H S c A1 A2 E L V I. eapply sim_weaken; [exact H|]. apply S; assumption. Qed.

Lemma ok_less m m' z zs e : m' <= m -> ok m z zs e -> ok m' z zs e.
Proof. intros H S c A1 A2 E L V I. apply S; try assumption. lia. Qed.

(** ** Validity *)

Lemma valid_X : valid_utf8 (X ++ B) = true.
Proof. rewrite valid_utf8_ascii_app by (apply image_text_ascii; exact HX). exact HB. Qed.
Lemma valid_Y : valid_utf8 (Y ++ B) = true.
Proof. rewrite valid_utf8_ascii_app by (apply image_text_ascii; exact HY). exact HB. Qed.

Lemma valid_inX a : valid_utf8 a = true -> valid_utf8 (a ++ X ++ B) = true.
Proof. intros H. rewrite valid_utf8_app by exact H. exact valid_X. Qed.
Lemma valid_inY a : valid_utf8 a = true -> valid_utf8 (a ++ Y ++ B) = true.
Proof. intros H. rewrite valid_utf8_app by exact H. exact valid_Y. Qed.

Lemma valid_left c e p a q b f : run c e p (a ++ X ++ B) = Done q (b ++ X ++ B) f -> ascii_expr e = true ->
  valid_utf8 a = true -> valid_utf8 b = true.
Proof.
  intros H He Ha. apply (valid_utf8_app_l b (X ++ B)); [|exact valid_X].
  eapply run_valid; [exact H|apply valid_inX; exact Ha|exact He].
Qed.

(** ** After the image *)

Lemma sim_after zs c e B1 B2 : B = B1 ++ B2 -> good e = true ->
  sim zs (run c e (length A + length X + length B1) B2) (run c e (length A + length Y + length B1) B2).
Proof.
  intros E G. pose proof length_X. pose proof length_Y.
  rewrite (run_shift g c e (length A + length X + length B1) B2 (length A + length Y + length B1)); [| |lia|lia].
  2: { intros k Hk. rewrite <- !(Nat.add_assoc _ (length B1)). apply moved_out. }
  destruct (run c e (length A + length X + length B1) B2) as [q s f| |] eqn:R; cbn [move_res].
  - destruct (run_consumes _ _ _ _ _ _ _ R) as (w & -> & ->).
    rewrite <- !(Nat.add_assoc (length A + length X)), moved_out, <- (app_length B1 w). constructor.
    rewrite <- app_assoc. exact E.
  - constructor.
  - exfalso. exact (run_total _ _ _ _ G R).
Qed.

(** ** Closure *)

Lemma ok_seq m z z1 zs a b : good (Seq a b) = true -> ascii_expr a = true ->
  ok m z z1 a -> (forall z', zmem z' z1 = true -> ok m z' zs b) -> ok m z zs (Seq a b).
Proof.
  intros G Ga Ha Hb c A1 A2 E L V I. rewrite !run_seq by exact G. specialize (Ha c A1 A2 E L V I).
  inversion Ha as [|A3 A4 z' f E' I' M' R1 R2|B1 B2 f E' R1 R2].
  - constructor.
  - symmetry in R1. assert (V' : valid_utf8 A4 = true) by (eapply valid_left; eassumption).
    assert (L' : length A4 <= m).
    { apply run_consumes in R1. destruct R1 as (w & Ew & _). apply (f_equal (@length N)) in Ew. rewrite !app_length in Ew. lia. }
    specialize (Hb z' M' c A3 A4 E' L' V' I').
    inversion Hb as [|A5 A6 z2 f2 E2 I2 M2 R3 R4|B1 B2 f2 E2 R3 R4]; [constructor| |].
    + rewrite <- map_app. econstructor; eassumption.
    + rewrite <- map_app. constructor; assumption.
  - pose proof (sim_after zs c b B1 B2 E' (proj2 (good_sub _ G))) as S.
    inversion S as [|A5 A6 z2 f2 E2 I2 M2 R3 R4|B3 B4 f2 E2 R3 R4]; [constructor| |].
    + rewrite <- map_app. econstructor; eassumption.
    + rewrite <- map_app. constructor; assumption.
Qed.

(** When the first part takes something, the second is only met with less left. *)
Lemma ok_seq_strict m z z1 zs a b : good (Seq a b) = true -> ascii_expr a = true -> nullable a = false ->
  ok m z z1 a -> (forall z' n, n < m -> zmem z' z1 = true -> ok n z' zs b) -> ok m z zs (Seq a b).
Proof.
  intros G Ga Hn Ha Hb c A1 A2 E L V I. rewrite !run_seq by exact G. specialize (Ha c A1 A2 E L V I).
  inversion Ha as [|A3 A4 z' f E' I' M' R1 R2|B1 B2 f E' R1 R2].
  - constructor.
  - symmetry in R1. assert (V' : valid_utf8 A4 = true) by (eapply valid_left; eassumption).
    pose proof (run_strict _ _ _ _ _ _ _ R1 Hn) as L'. rewrite !app_length in L'.
    specialize (Hb z' (length A4) ltac:(lia) M' c A3 A4 E' (le_n _) V' I').
    inversion Hb as [|A5 A6 z2 f2 E2 I2 M2 R3 R4|B1 B2 f2 E2 R3 R4]; [constructor| |].
    + rewrite <- map_app. econstructor; eassumption.
    + rewrite <- map_app. constructor; assumption.
  - pose proof (sim_after zs c b B1 B2 E' (proj2 (good_sub _ G))) as S.
    inversion S as [|A5 A6 z2 f2 E2 I2 M2 R3 R4|B3 B4 f2 E2 R3 R4]; [constructor| |].
    + rewrite <- map_app. econstructor; eassumption.
    + rewrite <- map_app. constructor; assumption.
Qed.

Lemma ok_alt m z zs a b : good (Alt a b) = true -> ok m z zs a -> ok m z zs b -> ok m z zs (Alt a b).
Proof.
  intros G Ha Hb c A1 A2 E L V I. rewrite !run_alt by exact G. specialize (Ha c A1 A2 E L V I).
  inversion Ha; [apply Hb; assumption|econstructor; eassumption|constructor; assumption].
Qed.

Lemma sim_here zs z A1 A2 : A = A1 ++ A2 -> inz z A2 -> zmem z zs = true ->
  sim zs (Done (length A1) (A2 ++ X ++ B) []) (Done (length A1) (A2 ++ Y ++ B) []).
Proof. intros E I M. apply (sim_in zs A1 A2 z [] E I M). Qed.

Lemma ok_opt m z zs e : good (Opt e) = true -> ok m z zs e -> zmem z zs = true -> ok m z zs (Opt e).
Proof.
  intros G He M c A1 A2 E L V I. rewrite !run_opt by exact G. specialize (He c A1 A2 E L V I).
  inversion He; [eapply sim_here; eassumption|econstructor; eassumption|constructor; assumption].
Qed.

Lemma ok_not m z zs e : good (NegPred e) = true -> ok m z zs e -> ok m z (zone1 z) (NegPred e).
Proof.
  intros G He c A1 A2 E L V I. rewrite !run_not by exact G.
  specialize (He {| atom := atom c; look := true |} A1 A2 E L V I).
  inversion He; [eapply sim_here; try eassumption; apply zone1_self|constructor|constructor].
Qed.

Lemma ok_call m z zs r : ok m z zs (snd (grammar r)) -> ok m z zs (Call r).
Proof.
  intros H c A1 A2 E L V I. rewrite !run_call. specialize (H (rule_inner (fst (grammar r)) c) A1 A2 E L V I).
  inversion H as [|A3 A4 z' f E' I' M' R1 R2|B1 B2 f E' R1 R2]; [constructor| |].
  - pose proof (move_rule_tokens g (fst (grammar r)) c r (length A1) (length A3) f) as Hm.
    rewrite (moved_in _ _ E), (moved_in _ _ E') in Hm. rewrite <- Hm. econstructor; eassumption.
  - pose proof (move_rule_tokens g (fst (grammar r)) c r (length A1) (length A + length X + length B1) f) as Hm.
    rewrite (moved_in _ _ E), moved_out in Hm. rewrite <- Hm. constructor; assumption.
Qed.

Lemma ok_rep m zs e : good (Rep e) = true -> ascii_expr e = true ->
  (forall z, zmem z zs = true -> ok m z zs e) -> forall z, zmem z zs = true -> ok m z zs (Rep e).
Proof.
  intros G Ge He z M c A1 A2 E. remember (length A2) as n eqn:En. revert z M A1 A2 E En.
  induction n as [n IH] using lt_wf_ind. intros z M A1 A2 E En L V I. rewrite !run_rep by exact G.
  assert (L0 : length A2 <= m) by lia. pose proof (He z M c A1 A2 E L0 V I) as S.
  inversion S as [|A3 A4 z' f E' I' M' R1 R2|B1 B2 f E' R1 R2].
  - eapply sim_here; eassumption.
  - symmetry in R1. assert (V' : valid_utf8 A4 = true) by (eapply valid_left; eassumption).
    pose proof (run_strict _ _ _ _ _ _ _ R1 (proj2 (good_sub _ G))) as Lt. rewrite !app_length in Lt.
    specialize (IH (length A4) ltac:(lia) z' M' A3 A4 E' eq_refl ltac:(lia) V' I').
    inversion IH as [|A5 A6 z2 f2 E2 I2 M2 R3 R4|B1 B2 f2 E2 R3 R4]; [constructor| |].
    + rewrite <- map_app. econstructor; eassumption.
    + rewrite <- map_app. constructor; assumption.
  - pose proof (sim_after zs c (Rep e) B1 B2 E' G) as S'.
    inversion S' as [|A5 A6 z2 f2 E2 I2 M2 R3 R4|B3 B4 f2 E2 R3 R4]; [constructor| |].
    + rewrite <- map_app. econstructor; eassumption.
    + rewrite <- map_app. constructor; assumption.
Qed.

(** ** Where positions are *)

Lemma in_P A1 A2 : A = A1 ++ A2 -> length K <= length A2 -> exists P2, A2 = P2 ++ K /\ P = A1 ++ P2.
Proof.
  intros E L. unfold before in E. apply app_eq_app in E. destruct E as (l & [[-> E2]|[E1 E2]]).
  - exists l. subst. split; reflexivity.
  - assert (l = []). { apply (f_equal (@length N)) in E2. rewrite app_length in E2. destruct l; [reflexivity|cbn in E2; lia]. }
    subst l. cbn [app] in E2. rewrite app_nil_r in E1. exists []. rewrite app_nil_r. cbn. split; congruence.
Qed.

Lemma K_ends : exists a z, K = a ++ [z] /\ is_break z = true.
Proof. destruct HK as (k0 & K1 & z & -> & _ & Hz). exists (k0 :: K1), z. auto. Qed.

Lemma ends_break A1 A2 : A = A1 ++ A2 -> A2 <> [] -> exists a z, A2 = a ++ [z] /\ is_break z = true.
Proof.
  intros E Hne. destruct K_ends as (a & z & Ek & Hz). unfold before in E. rewrite Ek, app_assoc in E.
  destruct (exists_last Hne) as (l & y & ->). rewrite app_assoc in E. apply app_inj_tail in E.
  destruct E as [_ <-]. eauto.
Qed.

Lemma P_ends P1 P2 : P = P1 ++ P2 -> P2 <> [] -> exists a z, P2 = a ++ [z] /\ is_break z = true.
Proof.
  intros E Hne. destruct (exists_last Hne) as (l & y & ->). exists l, y. split; [reflexivity|].
  destruct HP as (U & w & Ep & Hw & HU). rewrite Ep in E.
  destruct w as [|w0 w1].
  - rewrite app_nil_r in E. destruct HU as [-> | (U0 & n & -> & Hn)].
    + symmetry in E. apply app_eq_nil in E. destruct E as [_ E]. destruct l; discriminate.
    + rewrite app_assoc in E. apply app_inj_tail in E. destruct E as [_ <-]. unfold is_break. rewrite Hn. apply orb_true_r.
  - assert (Hn : w0 :: w1 <> []) by discriminate. destruct (exists_last Hn) as (v & x & Ev). rewrite Ev in *.
    rewrite !app_assoc in E. apply app_inj_tail in E. destruct E as [_ <-].
    apply Forall_app in Hw. destruct Hw as [_ Hw]. inversion Hw as [|? ? Hx _]. subst. unfold is_break. rewrite Hx. reflexivity.
Qed.

(** A word without blank and newline, taken off *)
Lemma word_zone z w A1 A3 : A = A1 ++ w ++ A3 -> A3 <> [] -> Forall (fun c => is_break c = false) w ->
  inz z (w ++ A3) ->
  inz z A3 \/ (z = ZP /\ inz ZK A3 /\ exists c t, w = c :: t /\ lower_byte c = 102%N).
Proof.
  intros E Hne Hw I. destruct z; cbn [inz] in I |- *.
  - destruct (le_lt_dec (length K) (length A3)) as [H|H]; [left; exact H|]. right. split; [reflexivity|]. split; [auto|].
    destruct (in_P _ _ E I) as (P2 & E2 & E3).
    destruct P2 as [|x P2].
    + cbn [app] in E2. destruct HK as (k0 & K1 & zz & Ek & Hk & _). rewrite Ek in E2.
      destruct w as [|c t]; [cbn [app] in E2; rewrite E2, <- Ek in H; lia|]. injection E2 as -> _. eauto.
    + exfalso. destruct (P_ends A1 (x :: P2) E3 ltac:(discriminate)) as (a & y & E4 & Hy). rewrite E4 in E2.
      apply app_eq_app in E2. destruct E2 as (l & [[E5 E6]|[E5 E6]]).
      * rewrite E5 in Hw. apply Forall_app in Hw. destruct Hw as [Hw _]. apply Forall_app in Hw. destruct Hw as [_ Hw].
        inversion Hw. congruence.
      * rewrite E6, app_length in H. lia.
  - destruct I as [_ I]. rewrite app_length in I. left. split; [exact Hne|lia].
  - apply app_eq_nil in I. destruct I. congruence.
Qed.

(** ** Terminals *)

Lemma X_head : exists x t, X = x :: t /\ image_char x = true.
Proof. destruct HX as [H1 H2]. destruct X as [|x t]; [congruence|]. inversion H2. eauto. Qed.
Lemma Y_head : exists x t, Y = x :: t /\ image_char x = true.
Proof. destruct HY as [H1 H2]. destruct Y as [|x t]; [congruence|]. inversion H2. eauto. Qed.

Definition class_zones (C : N -> bool) (z : zone) : zset :=
  match z with
  | ZP => ZSet true (C 102%N || C 70%N) false
  | ZK => ZSet false true (C SP || C TAB || C LF || C CR)
  | ZE => zempty
  end.

Lemma lower_f c : lower_byte c = 102%N -> c = 102%N \/ c = 70%N.
Proof. unfold lower_byte, is_upper. intros H. destruct (in_range 65 90 c) eqn:E; [right; bool_hyps; lia|auto]. Qed.

Lemma break_cases c : is_break c = true -> c = SP \/ c = TAB \/ c = LF \/ c = CR.
Proof.
  unfold is_break, is_blank, is_newline_byte. intros H. bool_hyps.
  destruct H as [H|H]; bool_hyps; destruct H; bool_hyps; auto.
Qed.

Lemma ok_class m z C e : matches_class e C -> z <> ZE -> ok m z (class_zones C z) e.
Proof.
  intros He Hz c A1 A2 E L V I. rewrite !He. destruct A2 as [|x A2].
  { exfalso. destruct z; cbn [inz] in I; [|destruct I; congruence|congruence].
    destruct HK as (k0 & K1 & zz & Ek & _). rewrite Ek in I. cbn in I. lia. }
  cbn [app]. destruct (C x) eqn:Ec; [|constructor].
  assert (E' : A = (A1 ++ [x]) ++ A2) by (rewrite <- app_assoc; exact E).
  replace (length A1 + 1) with (length (A1 ++ [x])) by (rewrite app_length; reflexivity).
  destruct (ends_break A1 (x :: A2) E ltac:(discriminate)) as (a & y & Ea & Hy).
  destruct z; [| |congruence]; cbn [inz] in I.
  - destruct (in_P _ _ E I) as (P2 & E2 & E3). destruct P2 as [|x' P2]; cbn [app] in E2.
    + destruct HK as (k0 & K1 & zz & Ek & Hk & _). rewrite Ek in E2. injection E2 as -> ->.
      apply (sim_here _ ZK); [exact E'| |].
      * cbn [inz]. split; [destruct K1; discriminate|]. rewrite Ek. cbn [length]. lia.
      * cbn. apply lower_f in Hk. destruct Hk; subst k0; rewrite Ec, ?orb_true_r; reflexivity.
    + injection E2 as -> ->. apply (sim_here _ ZP); [exact E'|cbn [inz]; rewrite app_length; lia|reflexivity].
  - destruct A2 as [|x2 A2].
    + apply (sim_here _ ZE); [exact E'|reflexivity|]. cbn.
      destruct a as [|a0 a]; [|destruct a; discriminate]. injection Ea as ->.
      destruct (break_cases _ Hy) as [->|[->|[->| ->]]]; rewrite Ec, ?orb_true_r; reflexivity.
    + apply (sim_here _ ZK); [exact E'| |reflexivity]. cbn [inz]. split; [discriminate|]. destruct I as [_ I].
      cbn [length] in *. lia.
Qed.

Lemma ok_class_E m zs C e : matches_class e C -> (forall x, image_char x = true -> C x = false) -> ok m ZE zs e.
Proof.
  intros He Hc c A1 A2 E L V I. cbn [inz] in I. subst A2. cbn [app]. rewrite !He.
  destruct X_head as (x & t & -> & Hx). destruct Y_head as (y & u & -> & Hy). cbn [app].
  rewrite (Hc x Hx), (Hc y Hy). constructor.
Qed.

(** Several bytes, none of them blank or newline *)
Definition word_zones (c : N) (z : zone) : zset :=
  match z with
  | ZP => ZSet true (lower_byte c =? 102)%N false
  | z => zone1 z
  end.

Lemma match_str_short pat a t : (forall x, In x pat -> is_break x = false) ->
  (exists a0 z, a = a0 ++ [z] /\ is_break z = true) ->
  match_str pat (a ++ t) = match match_str pat a with Some r => Some (r ++ t) | None => None end /\
  (forall r, match_str pat a = Some r -> r <> []).
Proof.
  revert a. induction pat as [|x pat IH]; intros a Hp (a0 & z & Ea & Hz).
  - cbn [match_str]. split; [destruct (a ++ t); destruct a; reflexivity|]. intros r H. injection H as <-. subst a. destruct a0; discriminate.
  - destruct a as [|y a]; [destruct a0; discriminate|]. cbn [app match_str].
    destruct (x =? y)%N eqn:Exy; [|split; [reflexivity|discriminate]]. apply N.eqb_eq in Exy. subst y.
    apply IH; [intros; apply Hp; right; assumption|]. destruct a0 as [|b a0].
    + injection Ea as -> ->. rewrite (Hp z) in Hz by (left; reflexivity). discriminate.
    + injection Ea as <- ->. exists a0, z. auto.
Qed.

Lemma lower_break c : is_break (lower_byte c) = is_break c.
Proof.
  unfold lower_byte, is_upper. destruct (in_range 65 90 c) eqn:E; [|reflexivity]. bool_hyps.
  assert (H1 : is_break (c + 32) = false). { destruct (is_break (c+32)) eqn:Eb; [|reflexivity]. apply break_cases in Eb. lia. }
  assert (H2 : is_break c = false). { destruct (is_break c) eqn:Eb; [|reflexivity]. apply break_cases in Eb. lia. }
  congruence.
Qed.

Lemma match_insens_short pat a t : (forall x, In x pat -> is_break x = false) ->
  (exists a0 z, a = a0 ++ [z] /\ is_break z = true) ->
  match_insens pat (a ++ t) = match match_insens pat a with Some r => Some (r ++ t) | None => None end /\
  (forall r, match_insens pat a = Some r -> r <> []).
Proof.
  revert a. induction pat as [|x pat IH]; intros a Hp (a0 & z & Ea & Hz).
  - cbn [match_insens]. split; [destruct (a ++ t); destruct a; reflexivity|]. intros r H. injection H as <-. subst a. destruct a0; discriminate.
  - destruct a as [|y a]; [destruct a0; discriminate|]. cbn [app match_insens].
    destruct (eq_icase x y) eqn:Exy; [|split; [reflexivity|discriminate]].
    apply IH; [intros; apply Hp; right; assumption|]. destruct a0 as [|b a0].
    + injection Ea as -> ->. unfold eq_icase in Exy. apply N.eqb_eq in Exy. rewrite <- lower_break, <- Exy, lower_break in Hz.
      rewrite (Hp x) in Hz by (left; reflexivity). discriminate.
    + injection Ea as <- ->. exists a0, z. auto.
Qed.

Lemma in_ends z A1 A2 : A = A1 ++ A2 -> inz z A2 -> z <> ZE -> exists a y, A2 = a ++ [y] /\ is_break y = true.
Proof.
  intros E I Hz. apply (ends_break A1 A2 E). destruct z; [|apply I|congruence]. cbn [inz] in I.
  destruct HK as (k0 & K1 & zz & Ek & _). rewrite Ek in I. destruct A2; [cbn in I; lia|discriminate].
Qed.

Lemma word_done z c0 w A1 A2 r : A = A1 ++ A2 -> inz z A2 -> A2 = w ++ r -> r <> [] ->
  (exists c t, w = c :: t /\ lower_byte c = lower_byte c0) -> Forall (fun c => is_break c = false) w ->
  sim (word_zones c0 z) (Done (length A1 + length w) (r ++ X ++ B) []) (Done (length A1 + length w) (r ++ Y ++ B) []).
Proof.
  intros E I -> Hr (c & t & Ew & Hc) Hw. rewrite <- app_length.
  destruct (word_zone z w A1 r E Hr Hw I) as [Iz|(-> & Iz & c' & t' & Ew' & Hc')].
  - apply (sim_here _ z); [rewrite <- app_assoc; exact E|exact Iz|]. destruct z; reflexivity.
  - apply (sim_here _ ZK); [rewrite <- app_assoc; exact E|exact Iz|]. cbn. rewrite Ew in Ew'. injection Ew' as <- _.
    rewrite <- Hc, Hc'. reflexivity.
Qed.

Lemma ok_str m z c0 pat : z <> ZE -> forallb (fun c => negb (is_break c)) (c0 :: pat) = true ->
  ok m z (word_zones c0 z) (Str (c0 :: pat)).
Proof.
  intros Hz Hp c A1 A2 E L V I. rewrite !run_str.
  assert (Hp' : forall x, In x (c0 :: pat) -> is_break x = false).
  { intros x Hx. rewrite forallb_forall in Hp. apply negb_true_iff. apply Hp. exact Hx. }
  pose proof (match_str_short (c0 :: pat) A2 (X ++ B) Hp' (in_ends z A1 A2 E I Hz)) as [-> Hne].
  pose proof (match_str_short (c0 :: pat) A2 (Y ++ B) Hp' (in_ends z A1 A2 E I Hz)) as [-> _].
  destruct (match_str (c0 :: pat) A2) as [r|] eqn:Er; [|constructor].
  specialize (Hne r eq_refl). apply match_str_app in Er.
  apply (word_done z c0 (c0 :: pat) A1 A2 r E I Er Hne); [eauto|]. apply Forall_forall. exact Hp'.
Qed.

Lemma ok_insens m z c0 pat : z <> ZE -> forallb (fun c => negb (is_break c)) (c0 :: pat) = true ->
  ok m z (word_zones c0 z) (Insens (c0 :: pat)).
Proof.
  intros Hz Hp c A1 A2 E L V I. rewrite !run_insens.
  assert (Hp' : forall x, In x (c0 :: pat) -> is_break x = false).
  { intros x Hx. rewrite forallb_forall in Hp. apply negb_true_iff. apply Hp. exact Hx. }
  pose proof (match_insens_short (c0 :: pat) A2 (X ++ B) Hp' (in_ends z A1 A2 E I Hz)) as [-> Hne].
  pose proof (match_insens_short (c0 :: pat) A2 (Y ++ B) Hp' (in_ends z A1 A2 E I Hz)) as [-> _].
  destruct (match_insens (c0 :: pat) A2) as [r|] eqn:Er; [|constructor].
  specialize (Hne r eq_refl). apply match_insens_app in Er. destruct Er as (w & Ew & Hw).
  replace (length (c0 :: pat)) with (length w).
  2: { apply (f_equal (@length N)) in Hw. unfold to_lower in Hw. rewrite !map_length in Hw. exact Hw. }
  apply (word_done z c0 w A1 A2 r E I Ew Hne).
  - destruct w as [|x w]; [discriminate|]. cbn [to_lower map] in Hw. injection Hw as Hx _. eauto.
  - clear Ew. revert Hw Hp'. generalize (c0 :: pat). intros l Hw. revert w Hw. induction l as [|x l IH]; intros [|y w] Hw Hl; try discriminate; constructor.
    + cbn [to_lower map] in Hw. injection Hw as Hx _. rewrite <- lower_break, Hx, lower_break. apply Hl. left. reflexivity.
    + apply IH; [cbn [to_lower map] in Hw; injection Hw as _ Hw; exact Hw|]. intros z' Hz'. apply Hl. right. exact Hz'.
Qed.

Lemma ok_crlf m z : z <> ZE -> ok m z (match z with ZP => zone1 ZP | _ => ZSet false true true end) (Str [CR; LF]).
Proof.
  intros Hz c A1 A2 E L V I. rewrite !run_str.
  destruct (in_ends z A1 A2 E I Hz) as (a & y & -> & Hy).
  destruct a as [|x a].
  - cbn [app match_str]. destruct (CR =? y)%N; [|constructor].
    destruct X_head as (x1 & t1 & -> & H1). destruct Y_head as (y1 & u1 & -> & H2). cbn [app].
    apply image_char_solid in H1, H2.
    assert (K1 : (LF =? x1)%N = false). { apply N.eqb_neq. intros <-. destruct H1 as (_ & H1 & _). discriminate. }
    assert (K2 : (LF =? y1)%N = false). { apply N.eqb_neq. intros <-. destruct H2 as (_ & H2 & _). discriminate. }
    rewrite K1, K2. constructor.
  - cbn [app match_str]. destruct (CR =? x)%N eqn:E1; [|constructor]. apply N.eqb_eq in E1. subst x.
    destruct (a ++ [y]) as [|x2 t] eqn:Ea; [destruct a; discriminate|].
    cbn [app].
    destruct (LF =? x2)%N eqn:E2; [|constructor]. apply N.eqb_eq in E2. subst x2. cbn [app] in E, I. rewrite Ea in E, I.
    change (length [CR; LF]) with 2. replace (length A1 + 2) with (length (A1 ++ [CR; LF])) by (rewrite app_length; reflexivity).
    assert (E' : A = (A1 ++ [CR; LF]) ++ t) by (rewrite <- app_assoc; exact E).
    destruct z; [| |congruence]; cbn [inz] in I.
    + destruct (in_P _ _ E I) as (P2 & E2 & E3).
      destruct HK as (k0 & K1 & zz & Ek & Hk & _). destruct P2 as [|x1 [|x2 P2]]; cbn [app] in E2.
      * rewrite Ek in E2. injection E2 as <- _. discriminate.
      * rewrite Ek in E2. injection E2 as _ <- _. discriminate.
      * injection E2 as _ _ ->. apply (sim_here _ ZP); [exact E'|cbn [inz]; rewrite app_length; lia|reflexivity].
    + destruct t as [|t0 t].
      * apply (sim_here _ ZE); [exact E'|reflexivity|reflexivity].
      * apply (sim_here _ ZK); [exact E'| |reflexivity]. cbn [inz]. split; [discriminate|]. destruct I as [_ I]. cbn [length] in *. lia.
Qed.

(** ** Reading up to a stop *)

Lemma until_in stop a x t : stop (x :: t) = true -> (forall b y c, a = b ++ y :: c -> stop (y :: c ++ x :: t) = false) ->
  until stop (a ++ x :: t) = a /\ from_stop stop (a ++ x :: t) = x :: t.
Proof.
  intros Hs. induction a as [|y a IH]; intros Ha; cbn [app until from_stop]; [rewrite Hs; auto|].
  rewrite (Ha [] y a eq_refl). destruct IH as [-> ->]; [intros b z c ->; apply (Ha (y :: b) z c); reflexivity|auto].
Qed.

Lemma until_over stop a s : (forall b y c, a = b ++ y :: c -> stop (y :: c ++ s) = false) ->
  until stop (a ++ s) = a ++ until stop s /\ from_stop stop (a ++ s) = from_stop stop s.
Proof.
  induction a as [|y a IH]; intros Ha; cbn [app until from_stop]; [auto|].
  rewrite (Ha [] y a eq_refl). destruct IH as [-> ->]; [intros b z c ->; apply (Ha (y :: b) z c); reflexivity|auto].
Qed.

(** A stop that is the same with either image, and never in it *)
Definition blind (stop : bytes -> bool) : Prop :=
  (forall x t, image_char x = true -> stop (x :: t) = false) /\
  (forall x a, stop (x :: a ++ X ++ B) = stop (x :: a ++ Y ++ B)).

Lemma first_stop (stop : bytes -> bool) (s a : bytes) :
  (exists a1 x a2, a = a1 ++ x :: a2 /\ stop (x :: a2 ++ s) = true /\ forall b y c, a1 = b ++ y :: c -> stop (y :: c ++ x :: a2 ++ s) = false) \/
  (forall b y c, a = b ++ y :: c -> stop (y :: c ++ s) = false).
Proof.
  induction a as [|x a IH]; [right; intros [|? ?] ? ? E; discriminate|].
  destruct (stop (x :: a ++ s)) eqn:Es.
  - left. exists [], x, a. repeat split; [exact Es|]. intros [|? ?] ? ? E; discriminate.
  - destruct IH as [(a1 & y & a2 & -> & H1 & H2)|H].
    + left. exists (x :: a1), y, a2. split; [reflexivity|]. split; [exact H1|]. intros b z c E. destruct b as [|b0 b].
      * injection E as -> ->. rewrite <- app_assoc in Es. exact Es.
      * injection E as -> ->. eapply H2. reflexivity.
    + right. intros b y c E. destruct b as [|b0 b]; [injection E as -> ->; exact Es|]. injection E as -> ->. eapply H. reflexivity.
Qed.

Lemma over_image stop w s : image_text w -> (forall x t, image_char x = true -> stop (x :: t) = false) ->
  until stop (w ++ s) = w ++ until stop s /\ from_stop stop (w ++ s) = from_stop stop s.
Proof.
  intros [_ Hw] H. apply until_over. intros b y c ->. apply H. apply Forall_app in Hw. destruct Hw as [_ Hw]. inversion Hw. assumption.
Qed.

Lemma scan stop a : blind stop ->
  (exists a1 x a2, a = a1 ++ x :: a2 /\
    until stop (a ++ X ++ B) = a1 /\ from_stop stop (a ++ X ++ B) = x :: a2 ++ X ++ B /\
    until stop (a ++ Y ++ B) = a1 /\ from_stop stop (a ++ Y ++ B) = x :: a2 ++ Y ++ B /\
    (forall b y c, a1 = b ++ y :: c -> stop (y :: c ++ x :: a2 ++ X ++ B) = false)) \/
  (until stop (a ++ X ++ B) = a ++ X ++ until stop B /\ from_stop stop (a ++ X ++ B) = from_stop stop B /\
   until stop (a ++ Y ++ B) = a ++ Y ++ until stop B /\ from_stop stop (a ++ Y ++ B) = from_stop stop B /\
   (forall b y c, a = b ++ y :: c -> stop (y :: c ++ X ++ B) = false)).
Proof.
  intros [H1 H2]. destruct (first_stop stop (X ++ B) a) as [(a1 & x & a2 & -> & Hs & Hb)|Hb].
  - left. exists a1, x, a2. split; [reflexivity|]. rewrite <- !app_assoc. cbn [app].
    destruct (until_in stop a1 x (a2 ++ X ++ B) Hs Hb) as [-> ->].
    destruct (until_in stop a1 x (a2 ++ Y ++ B)) as [-> ->].
    + rewrite <- H2. exact Hs.
    + intros b y c Ea. specialize (Hb b y c Ea). specialize (H2 y (c ++ x :: a2)). rewrite <- !app_assoc in H2. cbn [app] in H2. congruence.
    + repeat split; auto.
  - right. destruct (until_over stop a (X ++ B) Hb) as [-> ->].
    destruct (until_over stop a (Y ++ B)) as [-> ->]; [intros b y c E; rewrite <- H2; eapply Hb; exact E|].
    destruct (over_image stop X B HX H1) as [-> ->]. destruct (over_image stop Y B HY H1) as [-> ->]. repeat split; auto.
Qed.

Definition scan_zones (z : zone) : zset := match z with ZP => ZSet true true false | ZK => zone1 ZK | ZE => zempty end.

Lemma scan_in z zs A1 a1 x a2 : A = A1 ++ a1 ++ x :: a2 -> inz z (a1 ++ x :: a2) -> zsub (scan_zones z) zs = true ->
  sim zs (Done (length A1 + length a1) (x :: a2 ++ X ++ B) []) (Done (length A1 + length a1) (x :: a2 ++ Y ++ B) []).
Proof.
  intros E I Hz. rewrite <- app_length. change (x :: a2 ++ X ++ B) with ((x :: a2) ++ X ++ B). change (x :: a2 ++ Y ++ B) with ((x :: a2) ++ Y ++ B).
  rewrite app_assoc in E. apply (sim_weaken (scan_zones z)); [exact Hz|]. destruct z; cbn [inz] in I.
  - destruct (le_lt_dec (length K) (length (x :: a2))) as [H|H].
    + apply (sim_here _ ZP); [exact E|exact H|reflexivity].
    + apply (sim_here _ ZK); [exact E|split; [discriminate|exact H]|reflexivity].
  - apply (sim_here _ ZK); [exact E| |reflexivity]. destruct I as [_ I]. rewrite app_length in I. split; [discriminate|lia].
  - destruct a1; discriminate.
Qed.

Lemma scan_out stop zs A1 a : A = A1 ++ a ->
  sim zs (Done (length A1 + length (a ++ X ++ until stop B)) (from_stop stop B) []) (Done (length A1 + length (a ++ Y ++ until stop B)) (from_stop stop B) []).
Proof.
  intros E. replace (length A1 + length (a ++ X ++ until stop B)) with (length A + length X + length (until stop B)) by (rewrite E, !app_length; lia).
  replace (length A1 + length (a ++ Y ++ until stop B)) with (length A + length Y + length (until stop B)) by (rewrite E, !app_length; lia).
  apply (sim_out zs (until stop B) (from_stop stop B) []). symmetry. apply until_app.
Qed.

Lemma ok_until m z e stop : good (Rep e) = true -> stops_at_ascii stop -> matches_unless e stop -> blind stop ->
  ok m z (scan_zones z) (Rep e).
Proof.
  intros G Ha He Hb c A1 A2 E L V I.
  rewrite (until_rep e stop G Ha He c _ (A2 ++ X ++ B)) by (apply valid_inX; exact V).
  rewrite (until_rep e stop G Ha He c _ (A2 ++ Y ++ B)) by (apply valid_inY; exact V).
  destruct (scan stop A2 Hb) as [(a1 & x & a2 & -> & -> & -> & -> & -> & _)|(-> & -> & -> & -> & _)].
  - apply (scan_in z); [exact E|exact I|destruct z; reflexivity].
  - apply scan_out. exact E.
Qed.

Lemma ok_until1 m z e stop : good (rep1 e) = true -> stops_at_ascii stop -> matches_unless e stop -> blind stop ->
  ok m z (scan_zones z) (rep1 e).
Proof.
  intros G Ha He Hb c A1 A2 E L V I.
  rewrite (until_rep1 e stop G Ha He c _ (A2 ++ X ++ B)) by (apply valid_inX; exact V).
  rewrite (until_rep1 e stop G Ha He c _ (A2 ++ Y ++ B)) by (apply valid_inY; exact V).
  destruct (scan stop A2 Hb) as [(a1 & x & a2 & -> & -> & -> & -> & -> & _)|(-> & -> & -> & -> & _)].
  - destruct a1 as [|y a1]; [constructor|]. apply (scan_in z); [exact E|exact I|destruct z; reflexivity].
  - pose proof (scan_out stop (scan_zones z) A1 A2 E) as S.
    destruct X_head as (x & t & Ex & _). destruct Y_head as (y & u & Ey & _).
    destruct (A2 ++ X ++ until stop B) as [|x1 t1] eqn:E1; [rewrite Ex in E1; destruct A2; discriminate|].
    destruct (A2 ++ Y ++ until stop B) as [|x2 t2] eqn:E2; [rewrite Ey in E2; destruct A2; discriminate|]. exact S.
Qed.

Lemma image_not_newline x t : image_char x = true -> newline_here (x :: t) = false.
Proof. intros H. apply image_char_solid in H. apply H. Qed.

Lemma image_not_continues x t : image_char x = true -> continues (x :: t) = false.
Proof.
  intros H. destruct (continues (x :: t)) eqn:E; [|reflexivity]. apply continues_ascii in E. apply image_char_solid in H.
  destruct H as (_ & _ & H). congruence.
Qed.

Lemma drop_blanks a w s : image_text w ->
  (drop_while is_blank (a ++ w ++ s) = w ++ s /\ Forall (fun c => is_blank c = true) a) \/
  (exists a1 x a2, a = a1 ++ x :: a2 /\ Forall (fun c => is_blank c = true) a1 /\ is_blank x = false /\
    drop_while is_blank (a ++ w ++ s) = x :: a2 ++ w ++ s).
Proof.
  intros [Hne Hw]. induction a as [|x a IH]; cbn [app drop_while].
  - left. split; [|constructor]. destruct w as [|x w]; [congruence|]. inversion Hw as [|? ? Hx _]. subst.
    apply image_char_solid in Hx. destruct Hx as [Hx _]. cbn [app drop_while]. rewrite Hx. reflexivity.
  - destruct (is_blank x) eqn:Ex.
    + destruct IH as [[-> H]|(a1 & y & a2 & -> & H1 & H2 & ->)].
      * left. split; [reflexivity|]. constructor; assumption.
      * right. exists (x :: a1), y, a2. repeat split; auto.
    + right. exists [], x, a. repeat split; auto.
Qed.

Lemma continues_blind x a : continues (x :: a ++ X ++ B) = continues (x :: a ++ Y ++ B).
Proof.
  unfold continues. cbn [cont_rest]. destruct (x =? BSLASH)%N; [|reflexivity].
  destruct X_head as (x0 & t0 & Ex & Hx0). destruct Y_head as (y0 & u0 & Ey & Hy0).
  destruct (drop_blanks a X B HX) as [[-> Ha]|(a1 & y & a2 & -> & Ha1 & Hy & ->)].
  - destruct (drop_blanks a Y B HY) as [[-> _]|(a1 & y & a2 & -> & _ & Hy & _)].
    + assert (K1 : strip_newline (X ++ B) = None) by (apply strip_newline_none; rewrite Ex; apply image_not_newline; exact Hx0).
      assert (K2 : strip_newline (Y ++ B) = None) by (apply strip_newline_none; rewrite Ey; apply image_not_newline; exact Hy0).
      rewrite K1, K2. reflexivity.
    + apply Forall_app in Ha. destruct Ha as [_ Ha]. inversion Ha. congruence.
  - assert (E : drop_while is_blank ((a1 ++ y :: a2) ++ Y ++ B) = y :: a2 ++ Y ++ B).
    { clear - Ha1 Hy. induction a1 as [|z a1 IH]; cbn [app drop_while]; [rewrite Hy; reflexivity|]. inversion Ha1. rewrite H1. apply IH. assumption. }
    rewrite E. pose proof (strip_newline_none (y :: a2 ++ X ++ B)) as N1. pose proof (strip_newline_none (y :: a2 ++ Y ++ B)) as N2.
    cbn [newline_here] in N1, N2.
    destruct (strip_newline (y :: a2 ++ X ++ B)) as [[n1 s1]|], (strip_newline (y :: a2 ++ Y ++ B)) as [[n2 s2]|]; try reflexivity; exfalso.
    + apply proj1 in N2. specialize (N2 eq_refl). apply proj2 in N1. specialize (N1 N2). discriminate.
    + apply proj1 in N1. specialize (N1 eq_refl). apply proj2 in N2. specialize (N2 N1). discriminate.
Qed.

Lemma blind_newline : blind newline_here.
Proof. split; [apply image_not_newline|reflexivity]. Qed.

Lemma blind_word : blind word_stop.
Proof.
  split.
  - intros x t H. unfold word_stop. rewrite (image_not_newline x t H). cbn [orb is_nil gap_here].
    rewrite (image_not_continues x t H). apply image_char_solid in H. destruct H as [-> _]. reflexivity.
  - intros x a. unfold word_stop. cbn [newline_here is_nil gap_here]. rewrite (continues_blind x a). reflexivity.
Qed.

Lemma blind_label : blind label_stop.
Proof.
  split; [|reflexivity]. intros x t H. unfold label_stop. rewrite (image_not_newline x t H). cbn [orb blank_here].
  assert (E : (EQUALS =? x)%N = false) by (apply N.eqb_neq; intros <-; discriminate). rewrite E.
  apply image_char_solid in H. destruct H as [-> _]. reflexivity.
Qed.

Lemma blind_chunk : blind chunk_stop.
Proof.
  split.
  - intros x t H. unfold chunk_stop. rewrite (image_not_newline x t H), (image_not_continues x t H). reflexivity.
  - intros x a. unfold chunk_stop. cbn [newline_here]. rewrite (continues_blind x a). reflexivity.
Qed.

Lemma blind_quote q : (q = DQUOTE \/ q = SQUOTE) -> blind (quote_stop q).
Proof.
  intros Hq. split; [|reflexivity]. intros x t H. cbn [quote_stop].
  assert (E1 : (q =? x)%N = false) by (apply N.eqb_neq; intros <-; destruct Hq; subst q; discriminate).
  assert (E2 : (BSLASH =? x)%N = false) by (apply N.eqb_neq; intros <-; discriminate).
  assert (E3 : (0 =? x)%N = false) by (apply N.eqb_neq; intros <-; discriminate).
  assert (E4 : (31 =? x)%N = false) by (apply N.eqb_neq; intros <-; discriminate).
  rewrite E1, E2, E3, E4. reflexivity.
Qed.

Lemma ok_any_whitespace m z : ok m z (scan_zones z) (Call R_any_whitespace).
Proof. apply ok_call. apply (ok_until1 m z _ word_stop); [reflexivity|exact word_stop_ascii|exact word_unless|exact blind_word]. Qed.
Lemma ok_any_equals m z : ok m z (scan_zones z) (Call R_any_equals).
Proof. apply ok_call. apply (ok_until1 m z _ label_stop); [reflexivity|exact label_stop_ascii|exact label_unless|exact blind_label]. Qed.
Lemma ok_any_content m z : ok m z (scan_zones z) (Call R_any_content).
Proof. apply ok_call. apply (ok_until1 m z _ chunk_stop); [reflexivity|exact chunk_stop_ascii|exact chunk_unless|exact blind_chunk]. Qed.

Lemma newline_unless : matches_unless (Seq (NegPred NEWLINE) AnyChar) newline_here.
Proof.
  apply unless_ext with (stop := fun s => newline_here s || false); [intros x t; apply orb_false_r|].
  apply unless_not; [reflexivity|apply succeeds_newline|apply unless_any].
Qed.

(** A comment before the FROM ends before it. *)
Lemma ok_comment m z : ok m z (match z with ZP => zone1 ZP | ZK => zone1 ZK | ZE => zempty end) (Call R_comment).
Proof.
  apply ok_call. intros c A1 A2 E L V I.
  change (snd (grammar R_comment)) with (Seq (Str [HASH]) not_newline_rep). rewrite !run_seq by reflexivity.
  rewrite !class_str. destruct A2 as [|x A2].
  - cbn [app]. destruct X_head as (x & t & -> & Hx). destruct Y_head as (y & u & -> & Hy). cbn [app].
    assert (E1 : (HASH =? x)%N = false) by (apply N.eqb_neq; intros <-; discriminate).
    assert (E2 : (HASH =? y)%N = false) by (apply N.eqb_neq; intros <-; discriminate).
    rewrite E1, E2. constructor.
  - cbn [app]. destruct (HASH =? x)%N eqn:Ex; [|constructor]. apply N.eqb_eq in Ex. subst x.
    rewrite valid_utf8_cons_ascii in V by reflexivity. unfold not_newline_rep.
    rewrite (until_rep (Seq (NegPred NEWLINE) AnyChar) newline_here eq_refl newline_byte_ascii newline_unless) by (apply valid_inX; exact V).
    rewrite (until_rep (Seq (NegPred NEWLINE) AnyChar) newline_here eq_refl newline_byte_ascii newline_unless) by (apply valid_inY; exact V).
    cbn [app].
    replace (length A1 + 1) with (length (A1 ++ [HASH])) by (rewrite app_length; reflexivity).
    assert (E' : A = (A1 ++ [HASH]) ++ A2) by (rewrite <- app_assoc; exact E).
    assert (Hn : z = ZP -> exists u n v, A2 = u ++ n :: v /\ is_newline_byte n = true /\ length K <= length v).
    { intros ->. cbn [inz] in I. destruct (in_P _ _ E I) as (P2 & E2 & E3).
      destruct P2 as [|x P2]; cbn [app] in E2.
      { destruct HK as (k0 & K1 & zz & Ek & Hk & _). rewrite Ek in E2. injection E2 as <- _. discriminate. }
      injection E2 as <- ->. destruct HP as (U & w & Ep & Hw & HU). rewrite Ep in E3.
      apply app_eq_app in E3. destruct E3 as (l & [[E4 E5]|[E4 E5]]).
      - destruct HU as [-> | (U0 & n & -> & Hn)].
        + symmetry in E4. apply app_eq_nil in E4. destruct E4 as [-> ->]. cbn [app] in E5. subst w. inversion Hw. discriminate.
        + destruct l as [|l0 l]; [cbn [app] in E5; rewrite <- E5 in Hw; inversion Hw; discriminate|].
          injection E5 as <- ->.
          assert (Hl : exists l', l = l' ++ [n]).
          { destruct l as [|l1 l].
            - apply app_inj_tail in E4. destruct E4 as [_ ->]. discriminate.
            - assert (Hne : l1 :: l <> []) by discriminate. destruct (exists_last Hne) as (l' & y & El). rewrite El in *.
              change (A1 ++ HASH :: l' ++ [y]) with (A1 ++ (HASH :: l') ++ [y]) in E4. rewrite app_assoc in E4. apply app_inj_tail in E4.
              destruct E4 as [_ ->]. eauto. }
          destruct Hl as (l' & ->). exists l', n, (w ++ K). split; [rewrite <- !app_assoc; reflexivity|]. split; [exact Hn|].
          rewrite app_length. lia.
      - rewrite E5 in Hw. apply Forall_app in Hw. destruct Hw as [_ Hw]. inversion Hw. discriminate. }
    destruct (scan newline_here A2 blind_newline) as [(a1 & x & a2 & -> & -> & -> & -> & -> & Hb)|(-> & -> & -> & -> & Hb)].
    + destruct z.
      * change (x :: a2 ++ X ++ B) with ((x :: a2) ++ X ++ B). change (x :: a2 ++ Y ++ B) with ((x :: a2) ++ Y ++ B).
        rewrite <- app_length. apply (sim_here _ ZP); [rewrite <- app_assoc; exact E'| |reflexivity].
        cbn [inz]. destruct (Hn eq_refl) as (u & n & v & E2 & Hnn & Hv).
        apply app_eq_app in E2. destruct E2 as (l & [[-> E4]|[-> E4]]).
        -- destruct l as [|l0 l].
           ++ cbn [app] in E4. injection E4 as <- <-. cbn [length]. lia.
           ++ injection E4 as <- ->. specialize (Hb u n l eq_refl). cbn [newline_here] in Hb. congruence.
        -- rewrite E4, app_length. cbn [length]. lia.
      * apply (scan_in ZK _ (A1 ++ [HASH])); [exact E'| |reflexivity]. destruct I as [_ I]. cbn [length] in I.
        split; [destruct a1; discriminate|lia].
      * discriminate I.
    + apply scan_out. exact E'.
Qed.

(** ** The check *)

Definition zbind (f : zone -> option zset) (s : zset) : option zset :=
  let get (b : bool) z := if b then f z else Some zempty in
  match get (hasP s) ZP, get (hasK s) ZK, get (hasE s) ZE with
  | Some a, Some b, Some c => Some (zunion a (zunion b c))
  | _, _, _ => None
  end.

Lemma zbind_mem f s t z : zbind f s = Some t -> zmem z s = true -> exists t', f z = Some t' /\ zsub t' t = true.
Proof.
  unfold zbind. intros H M. destruct s as [[] [] []], z; try discriminate M; cbn [hasP hasK hasE] in H;
    repeat match type of H with context [match f ?y with _ => _ end] => destruct (f y) eqn:?; try discriminate end;
    injection H as <-; eexists; (split; [first [reflexivity|eassumption]|]);
    repeat match goal with |- context [zunion ?a _] => is_var a; destruct a as [[] [] []] end;
    repeat match goal with |- context [zunion _ ?a] => is_var a; destruct a as [[] [] []] end; reflexivity.
Qed.

Definition str_zones (pat : bytes) (z : zone) : option zset :=
  match pat with
  | [] => None
  | c0 :: pat' =>
    match z with
    | ZE => if image_char c0 then None else Some zempty
    | z =>
      if forallb (fun c => negb (is_break c)) pat then Some (word_zones c0 z)
      else match pat' with
           | [] => Some (class_zones (N.eqb c0) z)
           | _ => if beqb pat [CR; LF] then Some (match z with ZP => zone1 ZP | _ => ZSet false true true end) else None
           end
    end
  end.

Lemma str_zones_ok m pat z zs : str_zones pat z = Some zs -> ok m z zs (Str pat).
Proof.
  unfold str_zones. destruct pat as [|c0 pat]; [discriminate|]. intros H.
  assert (HE : z = ZE -> ok m z zs (Str (c0 :: pat))).
  { intros ->. destruct (image_char c0) eqn:Ei; [discriminate|]. injection H as <-. intros c A1 A2 E L V I. cbn [inz] in I. subst A2.
    cbn [app]. rewrite !run_str. destruct X_head as (x & t & -> & Hx). destruct Y_head as (y & u & -> & Hy). cbn [app match_str].
    assert (E1 : (c0 =? x)%N = false) by (apply N.eqb_neq; congruence).
    assert (E2 : (c0 =? y)%N = false) by (apply N.eqb_neq; congruence).
    rewrite E1, E2. constructor. }
  destruct z; [| |apply HE; reflexivity]; clear HE.
  - destruct (forallb _ (c0 :: pat)) eqn:Ef; [injection H as <-; apply (ok_str m ZP c0 pat); [discriminate|exact Ef]|].
    destruct pat as [|c1 pat]; [injection H as <-; apply (ok_class m ZP (N.eqb c0)); [apply class_str|discriminate]|].
    destruct (beqb (c0 :: c1 :: pat) [CR; LF]) eqn:Eb; [|discriminate]. apply beqb_eq in Eb. rewrite Eb. injection H as <-.
    apply (ok_crlf m ZP). discriminate.
  - destruct (forallb _ (c0 :: pat)) eqn:Ef; [injection H as <-; apply (ok_str m ZK c0 pat); [discriminate|exact Ef]|].
    destruct pat as [|c1 pat]; [injection H as <-; apply (ok_class m ZK (N.eqb c0)); [apply class_str|discriminate]|].
    destruct (beqb (c0 :: c1 :: pat) [CR; LF]) eqn:Eb; [|discriminate]. apply beqb_eq in Eb. rewrite Eb. injection H as <-.
    apply (ok_crlf m ZK). discriminate.
Qed.

Definition insens_zones (pat : bytes) (z : zone) : option zset :=
  match pat, z with
  | [], _ | _, ZE => None
  | c0 :: _, z => if forallb (fun c => negb (is_break c)) pat then Some (word_zones c0 z) else None
  end.

Lemma insens_zones_ok m pat z zs : insens_zones pat z = Some zs -> ok m z zs (Insens pat).
Proof.
  unfold insens_zones. destruct pat as [|c0 pat]; [discriminate|]. intros H.
  destruct z; try discriminate; destruct (forallb _ (c0 :: pat)) eqn:Ef; try discriminate; injection H as <-;
    [apply (ok_insens m ZP c0 pat)|apply (ok_insens m ZK c0 pat)]; try discriminate; exact Ef.
Qed.

(** [prim] gives the zones of rules that are dealt with separately. *)
Fixpoint chk (prim : rule -> zone -> option zset) (n : nat) (e : expr) (z : zone) {struct n} : option zset :=
  match n with
  | O => None
  | S n' =>
    match e with
    | Str pat => str_zones pat z
    | Insens pat => insens_zones pat z
    | Range lo hi => match z with ZE => None | _ => Some (class_zones (in_range lo hi) z) end
    | AnyChar | Soi => None
    | EndOfInput => Some zempty
    | Call r => match prim r z with Some zs => Some zs | None => chk prim n' (snd (grammar r)) z end
    | NegPred e1 => match chk prim n' e1 z with Some _ => Some (zone1 z) | None => None end
    | Seq a b => match chk prim n' a z with Some s => zbind (chk prim n' b) s | None => None end
    | Alt a b =>
      match chk prim n' a z, chk prim n' b z with Some s, Some t => Some (zunion s t) | _, _ => None end
    | Opt e1 => match chk prim n' e1 z with Some s => Some (zunion (zone1 z) s) | None => None end
    | Rep e1 =>
      let step s := match zbind (chk prim n' e1) s with Some t => zunion s t | None => s end in
      let s := step (step (step (zone1 z))) in
      match zbind (chk prim n' e1) s with
      | Some t => if zsub t s && zmem z s then Some s else None
      | None => None
      end
    end
  end.

Lemma chk_sound m prim : (forall r z zs, prim r z = Some zs -> ok m z zs (Call r)) ->
  forall n e z zs, good e = true -> ascii_expr e = true -> chk prim n e z = Some zs -> ok m z zs e.
Proof.
  intros Hp. induction n as [|n IH]; [discriminate|]. intros e z zs G Ga H. cbn [chk] in H.
  destruct e as [pat|pat|lo hi| | | |r|e|a b|a b|e|e].
  - apply str_zones_ok. exact H.
  - apply insens_zones_ok. exact H.
  - destruct z; try discriminate; injection H as <-; [apply (ok_class m ZP (in_range lo hi))|apply (ok_class m ZK (in_range lo hi))]; first [apply class_range|discriminate].
  - discriminate.
  - discriminate.
  - injection H as <-. intros c A1 A2 E L V I. rewrite !run_eoi.
    destruct X_head as (x & t & -> & _). destruct Y_head as (y & u & -> & _). destruct A2; constructor.
  - destruct (prim r z) eqn:Er; [injection H as <-; apply Hp; exact Er|].
    apply ok_call. apply IH; [apply good_rule|apply ascii_rule|exact H].
  - destruct (chk prim n e z) eqn:E1; [|discriminate]. injection H as <-. apply (ok_not m z z0); [exact G|].
    apply IH; [apply (good_sub _ G)|exact Ga|exact E1].
  - destruct (chk prim n a z) as [s|] eqn:E1; [|discriminate]. cbn [ascii_expr] in Ga. apply andb_true_iff in Ga.
    apply (ok_seq m z s); [exact G|apply Ga|apply IH; [apply (good_sub _ G)|apply Ga|exact E1]|].
    intros z' M. destruct (zbind_mem _ _ _ _ H M) as (t' & E2 & S). apply (ok_weaken m z' t'); [exact S|].
    apply IH; [apply (good_sub _ G)|apply Ga|exact E2].
  - destruct (chk prim n a z) as [s|] eqn:E1; [|discriminate]. destruct (chk prim n b z) as [t|] eqn:E2; [|discriminate].
    injection H as <-. cbn [ascii_expr] in Ga. apply andb_true_iff in Ga.
    apply ok_alt; [exact G| |].
    + apply (ok_weaken m z s); [apply zunion_l|]. apply IH; [apply (good_sub _ G)|apply Ga|exact E1].
    + apply (ok_weaken m z t); [apply zunion_r|]. apply IH; [apply (good_sub _ G)|apply Ga|exact E2].
  - destruct (chk prim n e z) as [s|] eqn:E1; [|discriminate]. injection H as <-.
    apply ok_opt; [exact G| |].
    + apply (ok_weaken m z s); [apply zunion_r|]. apply IH; [apply (good_sub _ G)|exact Ga|exact E1].
    + eapply zsub_mem; [apply zunion_l|apply zone1_self].
  - revert H. cbv zeta. match goal with |- context [zmem z ?t] => set (s := t) end. clearbody s.
    destruct (zbind (chk prim n e) s) as [t|] eqn:E1; [|discriminate].
    destruct (zsub t s && zmem z s) eqn:E2; [|discriminate]. intros H. injection H as <-. apply andb_true_iff in E2.
    apply ok_rep; [exact G|exact Ga| |apply E2].
    intros z' M. destruct (zbind_mem _ _ _ _ E1 M) as (t' & E3 & S). apply (ok_weaken m z' t'); [eapply zsub_trans; [exact S|apply E2]|].
    apply IH; [apply (good_sub _ G)|exact Ga|exact E3].
Qed.

Definition chk_in prim n e z (zs : zset) : bool := match chk prim n e z with Some t => zsub t zs | None => false end.

Lemma chk_weak m prim n e z zs : (forall r z zs, prim r z = Some zs -> ok m z zs (Call r)) ->
  good e = true -> ascii_expr e = true -> chk_in prim n e z zs = true -> ok m z zs e.
Proof.
  intros Hp G Ga H. unfold chk_in in H. destruct (chk prim n e z) as [t|] eqn:E; [|discriminate].
  apply (ok_weaken m z t); [exact H|]. apply (chk_sound m prim Hp n); assumption.
Qed.

(** ** Rules *)

Definition scans (r : rule) (z : zone) : option zset :=
  match r with
  | R_any_whitespace | R_any_equals | R_any_content => Some (scan_zones z)
  | R_comment => Some (match z with ZP => zone1 ZP | ZK => zone1 ZK | ZE => zempty end)
  | _ => None
  end.

Lemma scans_ok m r z zs : scans r z = Some zs -> ok m z zs (Call r).
Proof.
  destruct r; try discriminate; intros H; injection H as <-.
  - apply ok_comment.
  - apply ok_any_content.
  - apply ok_any_whitespace.
  - apply ok_any_equals.
Qed.

Definition inner_zones (z : zone) : zset :=
  match z with ZP => ZSet true true true | ZK => ZSet false true true | ZE => zempty end.

Lemma inner_zones_sub z z' : zmem z' (inner_zones z) = true -> zsub (inner_zones z') (inner_zones z) = true.
Proof. destruct z, z'; cbn; congruence. Qed.

Lemma ok_inner q : (q = DQUOTE \/ q = SQUOTE) -> forall m z, ok m z (inner_zones z) (Call (inner_rule q)).
Proof.
  intros Hq. assert (Ha : (q < 128)%N) by (destruct Hq; subst; reflexivity).
  assert (G : good (Seq (Rep (plain_quoted q)) (Opt (Seq (Call R_escape) (Call (inner_rule q))))) = true) by (destruct Hq; subst; reflexivity).
  assert (Ga : ascii_expr (Seq (Rep (plain_quoted q)) (Opt (Seq (Call R_escape) (Call (inner_rule q))))) = true) by (destruct Hq; subst; reflexivity).
  induction m as [m IH] using lt_wf_ind. intros z. apply ok_call. rewrite (inner_rule_body q Hq). cbn [snd].
  apply (ok_seq m z (scan_zones z)); [exact G|apply andb_true_iff in Ga; apply Ga| |].
  - apply (ok_until m z (plain_quoted q) (quote_stop q)); [destruct Hq; subst; reflexivity|apply quote_stop_ascii; exact Ha|apply quote_unless|apply blind_quote; exact Hq].
  - intros z' M. apply ok_opt; [apply (good_sub _ G)| |destruct z, z'; cbn in M |- *; congruence].
    apply (ok_seq_strict m z' (inner_zones z')); [destruct Hq; subst; reflexivity|reflexivity|reflexivity| |].
    + apply (chk_weak m scans 30 _ _ _ (scans_ok m)); [reflexivity|reflexivity|]. destruct z'; vm_compute; reflexivity.
    + intros z2 n Hn M2. apply (ok_weaken n z2 (inner_zones z2)); [|apply IH; exact Hn].
      eapply zsub_trans; [apply inner_zones_sub; exact M2|]. apply inner_zones_sub. destruct z, z'; cbn in M |- *; congruence.
Qed.

Lemma ok_breakable m : forall z, ok m z (inner_zones z) (Call R_any_breakable).
Proof.
  induction m as [m IH] using lt_wf_ind. intros z. apply ok_call. cbn [grammar snd].
  apply ok_alt; [reflexivity| |].
  - apply (ok_seq_strict m z (inner_zones z)); [reflexivity|reflexivity|reflexivity| |].
    + apply (chk_weak m scans 30 _ _ _ (scans_ok m)); [reflexivity|reflexivity|]. destruct z; vm_compute; reflexivity.
    + intros z2 n Hn M2. apply ok_opt; [reflexivity| |exact M2].
      apply (ok_weaken n z2 (inner_zones z2)); [apply inner_zones_sub; exact M2|]. apply IH. exact Hn.
  - apply (ok_seq m z (scan_zones z)); [reflexivity|reflexivity|apply ok_any_content|].
    intros z' M. apply ok_opt; [reflexivity| |destruct z, z'; cbn in M |- *; congruence].
    apply (ok_seq_strict m z' (inner_zones z')); [reflexivity|reflexivity|reflexivity| |].
    + apply (chk_weak m scans 30 _ _ _ (scans_ok m)); [reflexivity|reflexivity|]. destruct z'; vm_compute; reflexivity.
    + intros z2 n Hn M2. apply (ok_weaken n z2 (inner_zones z2)); [|apply IH; exact Hn].
      eapply zsub_trans; [apply inner_zones_sub; exact M2|]. apply inner_zones_sub. destruct z, z'; cbn in M |- *; congruence.
Qed.

(** At the image *)
Lemma flag_here_fails c p w name value : image_text w -> grammar name = (AtomicRule, rep1 ASCII_ALPHA) ->
  good (Seq (Str [DASH; DASH]) (Seq (Call name) (Seq (Str [EQUALS]) value))) = true ->
  run c (Seq (Str [DASH; DASH]) (Seq (Call name) (Seq (Str [EQUALS]) value))) p (w ++ B) = Fail.
Proof.
  intros [_ Hw] Hn G.
  destruct (run c _ p (w ++ B)) as [q s' f| |] eqn:E; [|reflexivity|exfalso; apply (run_total _ _ _ _ G E)]. exfalso.
  apply seq_inv in E; [|exact G]. destruct E as (q1 & s1 & f1 & f2 & E1 & E & ->).
  apply str_inv in E1. destruct E1 as (E1 & -> & ->).
  apply good_sub in G. destruct G as [_ G]. apply seq_inv in E; [|exact G]. destruct E as (q2 & s2 & f3 & f4 & E2 & E & ->).
  apply call_inv in E2. rewrite Hn in E2. cbn [fst snd] in E2. destruct E2 as (f5 & E2 & ->).
  apply (class_rep1_inv _ is_alpha) in E2; [|reflexivity|apply class_alpha].
  destruct E2 as (l & -> & -> & _ & Hl & _).
  apply good_sub in G. destruct G as [_ G]. apply seq_inv in E; [|exact G]. destruct E as (q3 & s3 & f6 & f7 & E3 & E & _).
  apply str_inv in E3. destruct E3 as (-> & _ & _). cbn [app] in E1.
  assert (Hd : match B with c :: _ => image_char c = false | [] => True end) by (destruct B; [exact I|apply HBhead]).
  destruct (take_while_app image_char w B Hw Hd) as [_ D1]. rewrite E1 in D1.
  change (DASH :: DASH :: l ++ EQUALS :: s3) with ((DASH :: DASH :: l) ++ EQUALS :: s3) in D1.
  destruct (take_while_app image_char (DASH :: DASH :: l) (EQUALS :: s3)) as [_ D2].
  - constructor; [reflexivity|]. constructor; [reflexivity|]. eapply Forall_impl; [|exact Hl].
    intros x Hx. cbn beta in Hx. unfold image_char, is_alnum. rewrite Hx. reflexivity.
  - reflexivity.
  - rewrite D2 in D1. rewrite <- D1 in HBhead. destruct HBhead. congruence.
Qed.

Lemma ok_from_flag_E m : ok m ZE zempty (Call R_from_flag).
Proof.
  apply ok_call. intros c A1 A2 E L V I. cbn [inz] in I. subst A2. cbn [app].
  change (snd (grammar R_from_flag)) with (Seq (Str [DASH; DASH]) (Seq (Call R_from_flag_name) (Seq (Str [EQUALS]) (Call R_from_flag_value)))).
  rewrite !flag_here_fails by (assumption || reflexivity). constructor.
Qed.

Lemma ok_copy_flag_E m : ok m ZE zempty (Call R_copy_flag).
Proof.
  apply ok_call. intros c A1 A2 E L V I. cbn [inz] in I. subst A2. cbn [app].
  change (snd (grammar R_copy_flag)) with (Seq (Str [DASH; DASH]) (Seq (Call R_copy_flag_name) (Seq (Str [EQUALS]) (Call R_copy_flag_value)))).
  rewrite !flag_here_fails by (assumption || reflexivity). constructor.
Qed.

Lemma run_image_here c p w : image_text w -> run c (snd (grammar R_from_image)) p (w ++ B) = Done (p + length w) B [].
Proof.
  intros [Hne Hw]. cbn [grammar snd].
  assert (Hd : match B with c :: _ => image_char c = false | [] => True end) by (destruct B; [exact I|apply HBhead]).
  rewrite (fun G => class_rep1 _ _ G class_image) by reflexivity. destruct (take_while_app image_char w B Hw Hd) as [-> ->].
  destruct w; [congruence|reflexivity].
Qed.

Lemma ok_from_image_E m : ok m ZE zempty (Call R_from_image).
Proof.
  apply ok_call. intros c A1 A2 E L V I. cbn [inz] in I. subst A2. cbn [app]. rewrite app_nil_r in E.
  rewrite (run_image_here c _ X HX), (run_image_here c _ Y HY). rewrite <- E.
  rewrite <- (Nat.add_0_r (length A + length X)), <- (Nat.add_0_r (length A + length Y)).
  apply (sim_out _ [] B []). reflexivity.
Qed.

Definition prims (r : rule) (z : zone) : option zset :=
  match r with
  | R_inner | R_single_quoted_inner | R_any_breakable => Some (inner_zones z)
  | R_from_flag | R_copy_flag | R_from_image => match z with ZE => Some zempty | _ => None end
  | r => scans r z
  end.

Lemma prims_ok m r z zs : prims r z = Some zs -> ok m z zs (Call r).
Proof.
  destruct r; try (apply scans_ok); cbn [prims]; intros H.
  - injection H as <-. apply (ok_inner DQUOTE); auto.
  - injection H as <-. apply (ok_inner SQUOTE); auto.
  - injection H as <-. apply ok_breakable.
  - destruct z; try discriminate. injection H as <-. apply ok_from_flag_E.
  - destruct z; try discriminate. injection H as <-. apply ok_from_image_E.
  - destruct z; try discriminate. injection H as <-. apply ok_copy_flag_E.
Qed.

(** ** Runs that may leave the part before the FROM

    Two expressions can tell the images apart, but only once they have read over the
    beginning of the FROM, and then they cannot fail any more. *)

Definition zall : zset := ZSet true true true.

Definition past (r : res) : Prop := exists q s f, r = Done q s f /\ length P < q.
Definition wsim (r r' : res) : Prop := sim zall r r' \/ past r.
Definition wok (m : nat) (z : zone) (e : expr) : Prop :=
  forall c A1 A2, A = A1 ++ A2 -> length A2 <= m -> valid_utf8 A2 = true -> inz z A2 ->
    wsim (run c e (length A1) (A2 ++ X ++ B)) (run c e (length A1) (A2 ++ Y ++ B)).
Definition steady (e : expr) : Prop := forall c p s, exists q s' f, run c e p s = Done q s' f.

Lemma zsub_all s : zsub s zall = true.
Proof. destruct s as [[] [] []]; reflexivity. Qed.

Lemma ok_wok m z zs e : ok m z zs e -> wok m z e.
Proof. intros H c A1 A2 E L V I. left. apply (sim_weaken zs); [apply zsub_all|]. apply H; assumption. Qed.

Lemma steady_rep e : good (Rep e) = true -> steady (Rep e).
Proof. intros G c p s. apply rep_done. exact G. Qed.

Lemma steady_opt e : good (Opt e) = true -> steady (Opt e).
Proof.
  intros G c p s. destruct (run c (Opt e) p s) as [q s' f| |] eqn:E; [eauto| |].
  - exfalso. apply (opt_not_fail c e p s G E).
  - exfalso. apply (run_total _ _ _ _ G E).
Qed.

Lemma zone_past z A1 A2 : A = A1 ++ A2 -> inz z A2 -> z <> ZP -> length P < length A1.
Proof.
  intros E I Hz. apply (f_equal (@length N)) in E. unfold before in E. rewrite !app_length in E.
  destruct z; [congruence| |]; cbn [inz] in I; [lia|]. subst A2. cbn [length] in E.
  destruct HK as (k0 & K1 & zz & Ek & _). rewrite Ek in E. cbn [length] in E. lia.
Qed.

Lemma out_past (B1 : bytes) : length P < length A + length X + length B1.
Proof. unfold before. rewrite app_length. pose proof length_X. lia. Qed.

Lemma steady_past c e p s : steady e -> length P < p -> past (run c e p s).
Proof.
  intros Hs Hp. destruct (Hs c p s) as (q & s' & f & E). rewrite E. destruct (run_consumes _ _ _ _ _ _ _ E) as (w & _ & ->).
  exists (p + length w), s', f. split; [reflexivity|lia].
Qed.

Lemma wok_steady m z e : z <> ZP -> steady e -> wok m z e.
Proof. intros Hz Hs c A1 A2 E L V I. right. apply steady_past; [exact Hs|]. apply (zone_past z A1 A2 E I Hz). Qed.

Lemma past_seq c b q s f r' : past (run c b q s) ->
  wsim (match run c b q s with Done q2 s2 f2 => Done q2 s2 (f ++ f2) | Fail => Fail | OutOfFuel => OutOfFuel end) r'.
Proof. intros (q2 & s2 & f2 & -> & H). right. exists q2, s2, (f ++ f2). auto. Qed.

Lemma sim_seq zs f r r' : sim zs r r' ->
  sim zs (match r with Done q2 s2 f2 => Done q2 s2 (f ++ f2) | Fail => Fail | OutOfFuel => OutOfFuel end)
    (match r' with Done q2 s2 f2 => Done q2 s2 (map (move_tree g) f ++ f2) | Fail => Fail | OutOfFuel => OutOfFuel end).
Proof.
  intros S. destruct S; [constructor| |]; rewrite <- map_app; [econstructor; eassumption|constructor; assumption].
Qed.

Lemma wsim_seq f r r' : wsim r r' ->
  wsim (match r with Done q2 s2 f2 => Done q2 s2 (f ++ f2) | Fail => Fail | OutOfFuel => OutOfFuel end)
    (match r' with Done q2 s2 f2 => Done q2 s2 (map (move_tree g) f ++ f2) | Fail => Fail | OutOfFuel => OutOfFuel end).
Proof.
  intros [S|(q & s & f2 & -> & H)]; [left; apply sim_seq; exact S|]. right. eexists _, _, _. split; [reflexivity|exact H].
Qed.

Lemma wok_seq m z z1 a b : good (Seq a b) = true -> ascii_expr a = true -> ok m z z1 a ->
  (forall z', zmem z' z1 = true -> wok m z' b) -> wok m z (Seq a b).
Proof.
  intros G Ga Ha Hb c A1 A2 E L V I. rewrite !run_seq by exact G. specialize (Ha c A1 A2 E L V I).
  inversion Ha as [|A3 A4 z' f E' I' M' R1 R2|B1 B2 f E' R1 R2].
  - left. constructor.
  - symmetry in R1. assert (V' : valid_utf8 A4 = true) by (eapply valid_left; eassumption).
    assert (L' : length A4 <= m).
    { apply run_consumes in R1. destruct R1 as (w & Ew & _). apply (f_equal (@length N)) in Ew. rewrite !app_length in Ew. lia. }
    cbv beta iota. exact (wsim_seq f _ _ (Hb z' M' c A3 A4 E' L' V' I')).
  - cbv beta iota. left. exact (sim_seq zall f _ _ (sim_after zall c b B1 B2 E' (proj2 (good_sub _ G)))).
Qed.

Lemma wok_then m z a b : good (Seq a b) = true -> ascii_expr a = true -> wok m z a -> steady b -> wok m ZP b ->
  wok m z (Seq a b).
Proof.
  intros G Ga Ha Hs Hb c A1 A2 E L V I. rewrite !run_seq by exact G. destruct (Ha c A1 A2 E L V I) as [S|(q & s & f & -> & Hq)].
  - inversion S as [|A3 A4 z' f E' I' M' R1 R2|B1 B2 f E' R1 R2].
    + left. constructor.
    + symmetry in R1. assert (V' : valid_utf8 A4 = true) by (eapply valid_left; eassumption).
      assert (L' : length A4 <= m).
      { apply run_consumes in R1. destruct R1 as (w & Ew & _). apply (f_equal (@length N)) in Ew. rewrite !app_length in Ew. lia. }
      cbv beta iota. refine (wsim_seq f (run c b (length A3) (A4 ++ X ++ B)) (run c b (length A3) (A4 ++ Y ++ B)) _). destruct z'; [apply (Hb c A3 A4 E' L' V' I')| |]; right; (apply steady_past; [exact Hs|]);
        (eapply zone_past; [exact E'|exact I'|discriminate]).
    + cbv beta iota. left. exact (sim_seq zall f _ _ (sim_after zall c b B1 B2 E' (proj2 (good_sub _ G)))).
  - cbv beta iota. apply past_seq. apply steady_past; assumption.
Qed.

Lemma wok_alt m z a b : good (Alt a b) = true -> wok m z a -> wok m z b -> wok m z (Alt a b).
Proof.
  intros G Ha Hb c A1 A2 E L V I. rewrite !run_alt by exact G. destruct (Ha c A1 A2 E L V I) as [S|(q & s & f & -> & Hq)].
  - inversion S; [apply Hb; assumption|left; econstructor; eassumption|left; constructor; assumption].
  - right. eexists _, _, _. split; [reflexivity|exact Hq].
Qed.

Lemma wok_opt m e : good (Opt e) = true -> wok m ZP e -> wok m ZP (Opt e).
Proof.
  intros G He c A1 A2 E L V I. rewrite !run_opt by exact G. destruct (He c A1 A2 E L V I) as [S|(q & s & f & -> & Hq)].
  - left. inversion S; [eapply sim_here; eassumption || reflexivity|econstructor; eassumption|constructor; assumption].
  - right. eexists _, _, _. split; [reflexivity|exact Hq].
Qed.

Lemma wok_call m z r : wok m z (snd (grammar r)) -> wok m z (Call r).
Proof.
  intros H c A1 A2 E L V I. rewrite !run_call. destruct (H (rule_inner (fst (grammar r)) c) A1 A2 E L V I) as [S|(q & s & f & -> & Hq)].
  - left. inversion S as [|A3 A4 z' f E' I' M' R1 R2|B1 B2 f E' R1 R2]; [constructor| |].
    + pose proof (move_rule_tokens g (fst (grammar r)) c r (length A1) (length A3) f) as Hm.
      rewrite (moved_in _ _ E), (moved_in _ _ E') in Hm. rewrite <- Hm. econstructor; eassumption.
    + pose proof (move_rule_tokens g (fst (grammar r)) c r (length A1) (length A + length X + length B1) f) as Hm.
      rewrite (moved_in _ _ E), moved_out in Hm. rewrite <- Hm. constructor; assumption.
  - right. eexists _, _, _. split; [reflexivity|exact Hq].
Qed.

Lemma wok_rep m zs e : good (Rep e) = true -> ascii_expr e = true -> ok m ZP zs e -> wok m ZP (Rep e).
Proof.
  intros G Ge He c A1 A2 E. remember (length A2) as n eqn:En. revert A1 A2 E En.
  induction n as [n IH] using lt_wf_ind. intros A1 A2 E En L V I. rewrite !run_rep by exact G.
  assert (L0 : length A2 <= m) by lia. pose proof (He c A1 A2 E L0 V I) as S.
  inversion S as [|A3 A4 z' f E' I' M' R1 R2|B1 B2 f E' R1 R2].
  - left. eapply sim_here; [eassumption|eassumption|reflexivity].
  - symmetry in R1. assert (V' : valid_utf8 A4 = true) by (eapply valid_left; eassumption).
    pose proof (run_strict _ _ _ _ _ _ _ R1 (proj2 (good_sub _ G))) as Lt. rewrite !app_length in Lt.
    destruct z'.
    + specialize (IH (length A4) ltac:(lia) A3 A4 E' eq_refl ltac:(lia) V' I'). apply (wsim_seq f) in IH.
      pose proof (rep_done c e (length A3) (A4 ++ X ++ B) G) as (q1 & s1 & f1 & D1).
      pose proof (rep_done c e (length A3) (A4 ++ Y ++ B) G) as (q2 & s2 & f2 & D2). rewrite D1, D2 in *. exact IH.
    + right. destruct (steady_past c (Rep e) (length A3) (A4 ++ X ++ B) (steady_rep e G)) as (q & s & f2 & -> & Hq).
      { apply (zone_past ZK A3 A4 E' I'). discriminate. }
      eexists _, _, _. split; [reflexivity|exact Hq].
    + right. destruct (steady_past c (Rep e) (length A3) (A4 ++ X ++ B) (steady_rep e G)) as (q & s & f2 & -> & Hq).
      { apply (zone_past ZE A3 A4 E' I'). discriminate. }
      eexists _, _, _. split; [reflexivity|exact Hq].
  - left. pose proof (sim_after zall c (Rep e) B1 B2 E' G) as S'.
    inversion S' as [|A5 A6 z2 f2 E2 I2 M2 R3 R4|B3 B4 f2 E2 R3 R4]; [constructor| |].
    + rewrite <- map_app. econstructor; eassumption.
    + rewrite <- map_app. constructor; assumption.
Qed.

Lemma chk_wok m n e z : good e = true -> ascii_expr e = true -> chk_in prims n e z zall = true -> wok m z e.
Proof. intros G Ga H. eapply ok_wok. eapply chk_weak; [apply prims_ok|exact G|exact Ga|exact H]. Qed.

Lemma wok_from m : wok m ZP (Call R_from).
Proof.
  apply wok_call. cbn [grammar snd].
  apply (wok_seq m ZP (ZSet true true false)); [reflexivity|reflexivity|apply (chk_weak m prims 40 _ _ _ (prims_ok m)); reflexivity|].
  intros z1 M1.
  apply (wok_seq m z1 zall); [reflexivity|reflexivity|apply (chk_weak m prims 40 _ _ _ (prims_ok m)); [reflexivity|reflexivity|destruct z1; vm_compute; (reflexivity || discriminate)]|].
  intros z2 M2.
  apply (wok_seq m z2 zall); [reflexivity|reflexivity|apply (chk_weak m prims 40 _ _ _ (prims_ok m)); [reflexivity|reflexivity|destruct z2; vm_compute; reflexivity]|].
  intros z3 M3.
  apply (wok_seq m z3 (ZSet true true false)); [reflexivity|reflexivity|apply (chk_weak m prims 40 _ _ _ (prims_ok m)); [reflexivity|reflexivity|destruct z3; vm_compute; reflexivity]|].
  intros z4 M4. destruct z4.
  - apply (chk_wok m 40); reflexivity.
  - apply wok_steady; [discriminate|apply steady_opt; reflexivity].
  - discriminate.
Qed.

Lemma wok_env m : wok m ZP (Call R_env).
Proof.
  apply wok_call. cbn [grammar snd].
  apply (wok_seq m ZP (zone1 ZP)); [reflexivity|reflexivity|apply (chk_weak m prims 40 _ _ _ (prims_ok m)); reflexivity|].
  intros z1 M1. apply zone1_mem in M1. subst z1. apply wok_alt; [reflexivity|apply (chk_wok m 40); reflexivity|].
  apply wok_call. cbn [grammar snd]. unfold rep1.
  apply (wok_seq m ZP (ZSet true true false)); [reflexivity|reflexivity|apply (chk_weak m prims 40 _ _ _ (prims_ok m)); reflexivity|].
  intros z2 M2. destruct z2.
  - apply (wok_rep m (ZSet true true false)); [reflexivity|reflexivity|apply (chk_weak m prims 40 _ _ _ (prims_ok m)); reflexivity].
  - apply wok_steady; [discriminate|apply steady_rep; reflexivity].
  - discriminate.
Qed.

Lemma wok_step m : wok m ZP (Call R_step).
Proof.
  apply wok_call. cbn [grammar snd].
  apply wok_alt; [reflexivity|apply wok_from|].
  do 6 (apply wok_alt; [reflexivity|apply (chk_wok m 40); reflexivity|]).
  apply wok_alt; [reflexivity|apply wok_env|apply (chk_wok m 40); reflexivity].
Qed.

Lemma wok_meta m : wok m ZP (Call R_meta_step).
Proof.
  apply wok_call. cbn [grammar snd].
  apply (wok_seq m ZP (zone1 ZP)); [reflexivity|reflexivity|apply (chk_weak m prims 40 _ _ _ (prims_ok m)); reflexivity|].
  intros z1 M1. apply zone1_mem in M1. subst z1.
  apply wok_then; [reflexivity|reflexivity| |apply steady_rep; reflexivity|apply (chk_wok m 40); reflexivity].
  apply wok_opt; [reflexivity|]. apply wok_alt; [reflexivity|apply wok_step|apply (chk_wok m 40); reflexivity].
Qed.

(** ** The FROM itself *)

Lemma sim_step z1 zs c a b (A1 A2 : bytes) q s f : good (Seq a b) = true ->
  sim z1 (run c a (length A1) (A2 ++ X ++ B)) (run c a (length A1) (A2 ++ Y ++ B)) ->
  run c a (length A1) (A2 ++ X ++ B) = Done q s f ->
  (forall (A3 A4 : bytes) z, q = length A3 -> s = A4 ++ X ++ B -> A = A3 ++ A4 -> inz z A4 -> zmem z z1 = true ->
    sim zs (run c b (length A3) (A4 ++ X ++ B)) (run c b (length A3) (A4 ++ Y ++ B))) ->
  sim zs (run c (Seq a b) (length A1) (A2 ++ X ++ B)) (run c (Seq a b) (length A1) (A2 ++ Y ++ B)).
Proof.
  intros G S R H. rewrite !run_seq by exact G. rewrite R in S |- *.
  remember (run c a (length A1) (A2 ++ Y ++ B)) as r' eqn:R'. clear R'.
  inversion S as [|A3 A4 z f' E' I' M' R1 R2|B1 B2 f' E' R1 R2]; subst.
  - exact (sim_seq zs f _ _ (H A3 A4 z eq_refl eq_refl E' I' M')).
  - exact (sim_seq zs f _ _ (sim_after zs c b _ _ E' (proj2 (good_sub _ G)))).
Qed.

Lemma sim_outside c a b (A1 A2 : bytes) : good (Seq a b) = true ->
  sim zempty (run c a (length A1) (A2 ++ X ++ B)) (run c a (length A1) (A2 ++ Y ++ B)) ->
  sim zempty (run c (Seq a b) (length A1) (A2 ++ X ++ B)) (run c (Seq a b) (length A1) (A2 ++ Y ++ B)).
Proof.
  intros G. rewrite !run_seq by exact G. generalize (run c a (length A1) (A2 ++ X ++ B)) (run c a (length A1) (A2 ++ Y ++ B)).
  intros r r' S. inversion S as [|A7 A8 z' f E' I' M' Q1 Q2|B1 B2 f E' Q1 Q2]; [constructor|destruct z'; discriminate|].
  exact (sim_seq zempty f _ _ (sim_after zempty c b B1 B2 E' (proj2 (good_sub _ G)))).
Qed.

Lemma sim_call zs c r (A1 A2 : bytes) : A = A1 ++ A2 ->
  sim zs (run (rule_inner (fst (grammar r)) c) (snd (grammar r)) (length A1) (A2 ++ X ++ B))
         (run (rule_inner (fst (grammar r)) c) (snd (grammar r)) (length A1) (A2 ++ Y ++ B)) ->
  sim zs (run c (Call r) (length A1) (A2 ++ X ++ B)) (run c (Call r) (length A1) (A2 ++ Y ++ B)).
Proof.
  intros E. rewrite !run_call. generalize (run (rule_inner (fst (grammar r)) c) (snd (grammar r)) (length A1) (A2 ++ X ++ B)).
  generalize (run (rule_inner (fst (grammar r)) c) (snd (grammar r)) (length A1) (A2 ++ Y ++ B)). intros r2 r1 S.
  inversion S as [|A3 A4 z' f E' I' M' Q1 Q2|B1 B2 f E' Q1 Q2]; [constructor| |].
  - pose proof (move_rule_tokens g (fst (grammar r)) c r (length A1) (length A3) f) as Hm.
    rewrite (moved_in _ _ E), (moved_in _ _ E') in Hm. rewrite <- Hm. econstructor; eassumption.
  - pose proof (move_rule_tokens g (fst (grammar r)) c r (length A1) (length A + length X + length B1) f) as Hm.
    rewrite (moved_in _ _ E), moved_out in Hm. rewrite <- Hm. constructor; assumption.
Qed.

Hypothesis HVP : valid_utf8 P = true.
Hypothesis HVK : valid_utf8 K = true.
Definition from_head : Prop := exists p1 s1 f1 p2 s2 f2 f3,
  run ctx0 (Insens (bs "from")) (length P) (K ++ X ++ B) = Done p1 s1 f1 /\
  run ctx0 (Rep (Seq arg_ws (Call R_from_flag))) p1 s1 = Done p2 s2 f2 /\
  run ctx0 arg_ws p2 s2 = Done (length A) (X ++ B) f3.

Lemma no_more (A4 : bytes) : A4 ++ X ++ B = X ++ B -> A4 = [].
Proof. intros H. apply (f_equal (@length N)) in H. rewrite app_length in H. destruct A4; [reflexivity|cbn in H; lia]. Qed.

Lemma K_zone : inz ZP K.
Proof. cbn. lia. Qed.

Lemma from_at_K : from_head -> sim zempty (run ctx0 (Call R_from) (length P) (K ++ X ++ B)) (run ctx0 (Call R_from) (length P) (K ++ Y ++ B)).
Proof.
  intros (p1 & s1 & f1 & p2 & s2 & f2 & f3 & R1 & R2 & R3).
  enough (S : sim zempty (run ctx0 (snd (grammar R_from)) (length P) (K ++ X ++ B))
    (run ctx0 (snd (grammar R_from)) (length P) (K ++ Y ++ B))).
  { apply (sim_call zempty ctx0 R_from P K); [reflexivity|exact S]. }
  cbn [grammar snd].
  pose proof HVK as V.
  assert (T : forall e z c (A1 A2 : bytes), chk_in prims 40 e z zall = true -> good e = true -> ascii_expr e = true ->
    A = A1 ++ A2 -> valid_utf8 A2 = true -> inz z A2 ->
    sim zall (run c e (length A1) (A2 ++ X ++ B)) (run c e (length A1) (A2 ++ Y ++ B))).
  { intros e z c A1 A2 Hc G Ga E V2 I. apply (chk_weak (length A2) prims 40 e z zall (prims_ok _) G Ga Hc c A1 A2 E (le_n _) V2 I). }
  apply (sim_step zall zempty ctx0 _ _ P K p1 s1 f1); [reflexivity| |exact R1|].
  { apply (T _ ZP); [reflexivity|reflexivity|reflexivity|reflexivity|exact V|exact K_zone]. }
  intros A1 A2 z1 -> -> E1 I1 _.
  assert (V1 : valid_utf8 A2 = true) by (eapply valid_left; [exact R1|reflexivity|exact V]).
  eapply (sim_step zall zempty ctx0 _ _ A1 A2); [reflexivity| |exact R2|].
  { apply (T _ z1); [destruct z1; vm_compute; reflexivity|reflexivity|reflexivity|exact E1|exact V1|exact I1]. }
  intros A3 A4 z2 -> -> E2 I2 _.
  assert (V2 : valid_utf8 A4 = true) by (eapply valid_left; [exact R2|reflexivity|exact V1]).
  eapply (sim_step zall zempty ctx0 _ _ A3 A4); [reflexivity| |exact R3|].
  { apply (T _ z2); [destruct z2; vm_compute; reflexivity|reflexivity|reflexivity|exact E2|exact V2|exact I2]. }
  intros A5 A6 z3 Q S3 E3 I3 _. symmetry in S3. apply no_more in S3. subst A6.
  pose proof (ok_from_image_E (length A) ctx0 A5 [] E3 ltac:(cbn; lia) eq_refl eq_refl) as S.
  apply (sim_outside ctx0 _ _ A5 []); [reflexivity|exact S].
Qed.

(** ** One line *)

Lemma rule_starts r p s q s' f : fst (grammar r) <> Silent -> run ctx0 (Call r) p s = Done q s' f ->
  exists f', f = [Node r p q f'].
Proof.
  intros Hk H. apply call_inv in H. destruct H as (f' & H & ->). exists f'.
  destruct (fst (grammar r)); [reflexivity|congruence|reflexivity|reflexivity].
Qed.

Lemma step_starts p s q s' f : run ctx0 (Opt (Alt (Call R_step) comment)) p s = Done q s' f ->
  Forall (fun t => t_start t = p) f.
Proof.
  intros H. apply opt_inv in H; [|reflexivity]. destruct H as [H|(_ & _ & _ & ->)]; [|constructor].
  apply alt_inv in H; [|reflexivity]. destruct H as [H|[_ H]].
  - apply call_inv in H. destruct H as (f' & H & ->). cbn [grammar fst snd rule_inner rule_tokens] in *.
    do 8 (apply alt_inv in H; [|reflexivity]; destruct H as [H|[_ H]];
      [apply rule_starts in H; [|discriminate]; destruct H as (l & ->); constructor; [reflexivity|constructor]|]).
    apply rule_starts in H; [|discriminate]; destruct H as (l & ->); constructor; [reflexivity|constructor].
  - apply rule_starts in H; [|discriminate]; destruct H as (l & ->); constructor; [reflexivity|constructor].
Qed.

Lemma K_not_blank t : take_while is_blank (K ++ t) = [] /\ drop_while is_blank (K ++ t) = K ++ t.
Proof.
  destruct HK as (k0 & K1 & z & -> & Hk & _). cbn [app take_while drop_while].
  apply lower_f in Hk. destruct Hk; subst k0; cbn; auto.
Qed.

Lemma blanks_before P2 : exists b P3, P2 = b ++ P3 /\ Forall (fun c => is_blank c = true) b /\
  forall t, take_while is_blank (P2 ++ K ++ t) = b /\ drop_while is_blank (P2 ++ K ++ t) = P3 ++ K ++ t.
Proof.
  induction P2 as [|x P2 IH].
  - exists [], []. split; [reflexivity|]. split; [constructor|]. intros t. apply K_not_blank.
  - destruct (is_blank x) eqn:E.
    + destruct IH as (b & P3 & -> & H1 & H2). exists (x :: b), P3. split; [reflexivity|]. split; [auto|].
      intros t. destruct (H2 t) as [H3 H4]. cbn [app take_while drop_while]. rewrite E, H3, H4. auto.
    + exists [], (x :: P2). split; [reflexivity|]. split; [constructor|]. intros t. cbn [app take_while drop_while]. rewrite E. auto.
Qed.

Lemma from_done : from_head -> exists q s f, run ctx0 (Call R_from) (length P) (K ++ X ++ B) = Done q s f.
Proof.
  intros (p1 & s1 & f1 & p2 & s2 & f2 & f3 & R1 & R2 & R3).
  destruct (steady_opt (Call R_from_alias_outer) eq_refl ctx0 (length A + length X) B) as (q & s & f & R4).
  rewrite run_call. change (rule_inner (fst (grammar R_from)) ctx0) with ctx0. cbn [grammar snd].
  rewrite run_seq by reflexivity. rewrite R1. rewrite run_seq by reflexivity. rewrite R2.
  rewrite run_seq by reflexivity. rewrite R3. rewrite run_seq by reflexivity.
  rewrite (run_call ctx0 R_from_image). rewrite (run_image_here _ _ _ HX). rewrite R4. eauto.
Qed.

Lemma step_sim q s f : run ctx0 (Call R_from) (length P) (K ++ X ++ B) = Done q s f ->
  sim zempty (run ctx0 (Call R_from) (length P) (K ++ X ++ B)) (run ctx0 (Call R_from) (length P) (K ++ Y ++ B)) ->
  sim zempty (run ctx0 (Opt (Alt (Call R_step) comment)) (length P) (K ++ X ++ B))
    (run ctx0 (Opt (Alt (Call R_step) comment)) (length P) (K ++ Y ++ B)).
Proof.
  intros R S. rewrite R in S.
  assert (T : forall s0 q1 s1 f1, run ctx0 (Call R_from) (length P) s0 = Done q1 s1 f1 ->
    run ctx0 (Opt (Alt (Call R_step) comment)) (length P) s0 = Done q1 s1 f1).
  { intros s0 q1 s1 f1 H. rewrite run_opt by reflexivity. rewrite run_alt by reflexivity. rewrite run_call.
    change (rule_inner (fst (grammar R_step)) ctx0) with ctx0. cbn [grammar snd fst rule_tokens].
    rewrite run_alt by reflexivity. rewrite H. reflexivity. }
  rewrite (T _ _ _ _ R). destruct (run ctx0 (Call R_from) (length P) (K ++ Y ++ B)) as [q2 s2 f2| |] eqn:R2; [|inversion S|inversion S].
  rewrite (T _ _ _ _ R2). exact S.
Qed.

Lemma step_at_K : from_head -> sim zempty (run ctx0 (Opt (Alt (Call R_step) comment)) (length P) (K ++ X ++ B))
  (run ctx0 (Opt (Alt (Call R_step) comment)) (length P) (K ++ Y ++ B)).
Proof. intros HF. destruct (from_done HF) as (q & s & f & R). exact (step_sim q s f R (from_at_K HF)). Qed.

(** The same when [X] and [Y] are aliases and [K] also contains the image and the AS *)
Definition alias_head : Prop := exists p1 s1 f1 p2 s2 f2 p3 s3 f3 p4 s4 f4 p5 s5 f5 p6 s6 f6 f7,
  run ctx0 (Insens (bs "from")) (length P) (K ++ X ++ B) = Done p1 s1 f1 /\
  run ctx0 (Rep (Seq arg_ws (Call R_from_flag))) p1 s1 = Done p2 s2 f2 /\
  run ctx0 arg_ws p2 s2 = Done p3 s3 f3 /\
  run ctx0 (Call R_from_image) p3 s3 = Done p4 s4 f4 /\
  run ctx0 arg_ws p4 s4 = Done p5 s5 f5 /\
  run ctx0 (Insens (bs "as")) p5 s5 = Done p6 s6 f6 /\
  run ctx0 arg_ws p6 s6 = Done (length A) (X ++ B) f7.

Lemma alias_head_stop : match B with c :: _ => alias_char c = false | [] => True end.
Proof.
  destruct B as [|c B']; [exact I|]. destruct HBhead as [H _]. destruct (alias_char c) eqn:E; [|reflexivity]. exfalso.
  unfold alias_char in E. rewrite !orb_true_iff, !N.eqb_eq in E. destruct E as [[E| ->]| ->]; [|discriminate|discriminate].
  unfold image_char in H. rewrite E in H. discriminate.
Qed.

Lemma run_alias_here c p w : alias_text w -> run c (snd (grammar R_identifier_whitespace)) p (w ++ B) = Done (p + length w) B [].
Proof.
  intros [Hne Hw]. cbn [grammar snd].
  rewrite (fun G => class_rep1 _ _ G class_alias) by reflexivity. destruct (take_while_app alias_char w B Hw alias_head_stop) as [-> ->].
  destruct w; [congruence|reflexivity].
Qed.

Lemma ok_from_alias_E m : alias_text X -> alias_text Y -> ok m ZE zempty (Call R_from_alias).
Proof.
  intros TX TY. apply ok_call. cbn [grammar snd]. apply ok_call. intros c A1 A2 E L V I. cbn [inz] in I. subst A2. cbn [app]. rewrite app_nil_r in E.
  rewrite (run_alias_here c _ X TX), (run_alias_here c _ Y TY). rewrite <- E.
  rewrite <- (Nat.add_0_r (length A + length X)), <- (Nat.add_0_r (length A + length Y)).
  apply (sim_out _ [] B []). reflexivity.
Qed.

Lemma alias_done : alias_text X -> alias_head -> exists q s f, run ctx0 (Call R_from) (length P) (K ++ X ++ B) = Done q s f.
Proof.
  intros TX (p1 & s1 & f1 & p2 & s2 & f2 & p3 & s3 & f3 & p4 & s4 & f4 & p5 & s5 & f5 & p6 & s6 & f6 & f7 & R1 & R2 & R3 & R4 & R5 & R6 & R7).
  destruct (steady_opt (Call R_from_alias_outer) eq_refl ctx0 p4 s4) as (q & s & f & R8).
  rewrite run_call. change (rule_inner (fst (grammar R_from)) ctx0) with ctx0. cbn [grammar snd].
  rewrite run_seq by reflexivity. rewrite R1. rewrite run_seq by reflexivity. rewrite R2.
  rewrite run_seq by reflexivity. rewrite R3. rewrite run_seq by reflexivity. rewrite R4. rewrite R8. eauto.
Qed.

Lemma alias_at_K : alias_text X -> alias_text Y -> alias_head ->
  sim zempty (run ctx0 (Call R_from) (length P) (K ++ X ++ B)) (run ctx0 (Call R_from) (length P) (K ++ Y ++ B)).
Proof.
  intros TX TY (p1 & s1 & f1 & p2 & s2 & f2 & p3 & s3 & f3 & p4 & s4 & f4 & p5 & s5 & f5 & p6 & s6 & f6 & f7 & R1 & R2 & R3 & R4 & R5 & R6 & R7).
  enough (S : sim zempty (run ctx0 (snd (grammar R_from)) (length P) (K ++ X ++ B))
    (run ctx0 (snd (grammar R_from)) (length P) (K ++ Y ++ B))).
  { apply (sim_call zempty ctx0 R_from P K); [reflexivity|exact S]. }
  cbn [grammar snd].
  pose proof HVK as V.
  assert (T : forall e z c (A1 A2 : bytes), chk_in prims 40 e z zall = true -> good e = true -> ascii_expr e = true ->
    A = A1 ++ A2 -> valid_utf8 A2 = true -> inz z A2 ->
    sim zall (run c e (length A1) (A2 ++ X ++ B)) (run c e (length A1) (A2 ++ Y ++ B))).
  { intros e z c A1 A2 Hc G Ga E V2 I. apply (chk_weak (length A2) prims 40 e z zall (prims_ok _) G Ga Hc c A1 A2 E (le_n _) V2 I). }
  (* what is left to read is longer than what is left at the word *)
  pose proof (run_strict _ _ _ _ _ _ _ R6 eq_refl) as L6.
  destruct (run_consumes _ _ _ _ _ _ _ R7) as (w7 & E7 & _). destruct (run_consumes _ _ _ _ _ _ _ R5) as (w5 & E5 & _).
  destruct (run_consumes _ _ _ _ _ _ _ R4) as (w4 & E4 & _).
  apply (sim_step zall zempty ctx0 _ _ P K p1 s1 f1); [reflexivity| |exact R1|].
  { apply (T _ ZP); [reflexivity|reflexivity|reflexivity|reflexivity|exact V|exact K_zone]. }
  intros A1 A2 z1 -> -> E1 I1 _.
  assert (V1 : valid_utf8 A2 = true) by (eapply valid_left; [exact R1|reflexivity|exact V]).
  eapply (sim_step zall zempty ctx0 _ _ A1 A2); [reflexivity| |exact R2|].
  { apply (T _ z1); [destruct z1; vm_compute; reflexivity|reflexivity|reflexivity|exact E1|exact V1|exact I1]. }
  intros A3 A4 z2 -> -> E2 I2 _.
  assert (V2 : valid_utf8 A4 = true) by (eapply valid_left; [exact R2|reflexivity|exact V1]).
  eapply (sim_step zall zempty ctx0 _ _ A3 A4); [reflexivity| |exact R3|].
  { apply (T _ z2); [destruct z2; vm_compute; reflexivity|reflexivity|reflexivity|exact E2|exact V2|exact I2]. }
  intros A5 A6 z3 -> -> E3 I3 _.
  assert (V3 : valid_utf8 A6 = true) by (eapply valid_left; [exact R3|reflexivity|exact V2]).
  eapply (sim_step zall zempty ctx0 _ _ A5 A6); [reflexivity| |exact R4|].
  { apply (T _ z3); [destruct z3; vm_compute; reflexivity|reflexivity|reflexivity|exact E3|exact V3|exact I3]. }
  intros A7 A8 z4 -> -> E8 I4 _.
  assert (V4 : valid_utf8 A8 = true) by (eapply valid_left; [exact R4|reflexivity|exact V3]).
  (* the alias *)
  enough (S : sim zempty (run ctx0 (Call R_from_alias_outer) (length A7) (A8 ++ X ++ B))
    (run ctx0 (Call R_from_alias_outer) (length A7) (A8 ++ Y ++ B))).
  { assert (D : exists q s f, run ctx0 (Call R_from_alias_outer) (length A7) (A8 ++ X ++ B) = Done q s f).
    { rewrite run_call. change (rule_inner (fst (grammar R_from_alias_outer)) ctx0) with ctx0. cbn [grammar snd].
      rewrite run_seq by reflexivity. rewrite R5. rewrite run_seq by reflexivity. rewrite R6.
      rewrite run_seq by reflexivity. rewrite R7. rewrite (run_call ctx0 R_from_alias). cbn [grammar snd]. rewrite run_call.
      rewrite (run_alias_here _ _ _ TX). eauto. }
    destruct D as (q & s & f & D). rewrite !run_opt by reflexivity. rewrite D in *.
    destruct (run ctx0 (Call R_from_alias_outer) (length A7) (A8 ++ Y ++ B)) as [q2 s2 f2'| |]; [exact S|inversion S|inversion S]. }
  apply (sim_call zempty ctx0 R_from_alias_outer A7 A8); [exact E8|]. change (rule_inner (fst (grammar R_from_alias_outer)) ctx0) with ctx0. cbn [grammar snd].
  eapply (sim_step zall zempty ctx0 _ _ A7 A8); [reflexivity| |exact R5|].
  { apply (T _ z4); [destruct z4; vm_compute; reflexivity|reflexivity|reflexivity|exact E8|exact V4|exact I4]. }
  intros A9 A10 z5 -> -> E9 I5 _.
  assert (V5 : valid_utf8 A10 = true) by (eapply valid_left; [exact R5|reflexivity|exact V4]).
  eapply (sim_step zall zempty ctx0 _ _ A9 A10); [reflexivity| |exact R6|].
  { apply (T _ z5); [|reflexivity|reflexivity|exact E9|exact V5|exact I5].
    destruct z5; [vm_compute; reflexivity|vm_compute; reflexivity|]. exfalso. cbn [inz] in I5. subst A10.
    rewrite E7 in L6. rewrite !app_length in L6. cbn [length] in L6. lia. }
  intros A11 A12 z6 -> -> E10 I6 _.
  assert (V6 : valid_utf8 A12 = true) by (eapply valid_left; [exact R6|reflexivity|exact V5]).
  eapply (sim_step zall zempty ctx0 _ _ A11 A12); [reflexivity| |exact R7|].
  { apply (T _ z6); [destruct z6; vm_compute; reflexivity|reflexivity|reflexivity|exact E10|exact V6|exact I6]. }
  intros A13 A14 z7 Q S3 E11 I7 _. symmetry in S3. apply no_more in S3. subst A14.
  exact (ok_from_alias_E (length A) TX TY ctx0 A13 [] E11 ltac:(cbn; lia) eq_refl eq_refl).
Qed.

Lemma alias_step : alias_text X -> alias_text Y -> alias_head -> sim zempty (run ctx0 (Opt (Alt (Call R_step) comment)) (length P) (K ++ X ++ B))
  (run ctx0 (Opt (Alt (Call R_step) comment)) (length P) (K ++ Y ++ B)).
Proof. intros TX TY HF. destruct (alias_done TX HF) as (q & s & f & R). exact (step_sim q s f R (alias_at_K TX TY HF)). Qed.

Section Document.
Hypothesis HS : sim zempty (run ctx0 (Opt (Alt (Call R_step) comment)) (length P) (K ++ X ++ B))
  (run ctx0 (Opt (Alt (Call R_step) comment)) (length P) (K ++ Y ++ B)).

(** A line that begins before the FROM is read alike, or goes past its beginning; the
    line of the FROM is read alike. *)
Lemma meta_cases (A1 A2 : bytes) : A = A1 ++ A2 -> valid_utf8 A2 = true -> inz ZP A2 ->
  sim zempty (run ctx0 (Call R_meta_step) (length A1) (A2 ++ X ++ B)) (run ctx0 (Call R_meta_step) (length A1) (A2 ++ Y ++ B)) \/
  (wsim (run ctx0 (Call R_meta_step) (length A1) (A2 ++ X ++ B)) (run ctx0 (Call R_meta_step) (length A1) (A2 ++ Y ++ B)) /\
   forall q s f, run ctx0 (Call R_meta_step) (length A1) (A2 ++ X ++ B) = Done q s f ->
     Forall (fun t => t_start t <> length P) f).
Proof.
  intros E V I. destruct (in_P A1 A2 E I) as (P2 & -> & EP).
  destruct (blanks_before P2) as (b & P3 & Eb & Hb & Ht).
  assert (W : forall t, run ctx0 (Rep ws) (length A1) ((P2 ++ K) ++ t) = Done (length (A1 ++ b)) (P3 ++ K ++ t) []).
  { intros t. rewrite <- app_assoc, run_ws_star. destruct (Ht t) as [-> ->]. rewrite app_length. reflexivity. }
  destruct P3 as [|x P3].
  - left. apply sim_call; [exact E|]. cbn [grammar fst snd rule_inner].
    rewrite (run_seq ctx0 (Rep ws)) by reflexivity. rewrite (run_seq ctx0 (Rep ws)) by reflexivity. rewrite !W. cbn [app].
    replace (A1 ++ b) with P by (rewrite EP, Eb, app_nil_r; reflexivity).
    refine (sim_seq zempty [] _ _ _). apply sim_outside; [reflexivity|]. exact HS.
  - right. split; [apply (wok_meta (length (P2 ++ K)) ctx0 A1 (P2 ++ K) E (le_n _) V I)|].
    intros q s f H. apply call_inv in H. destruct H as (f' & H & ->). cbn [grammar fst snd rule_inner rule_tokens] in *.
    apply seq_inv in H; [|reflexivity]. destruct H as (q1 & s1 & f1 & f2 & H1 & H2 & ->).
    rewrite W in H1. injection H1 as <- <- <-.
    apply seq_inv in H2; [|reflexivity]. destruct H2 as (q2 & s2 & f3 & f4 & H2 & H3 & ->).
    rewrite run_ws_star in H3. injection H3 as _ _ <-. rewrite app_nil_r. cbn [app].
    apply step_starts in H2. eapply Forall_impl; [|exact H2]. intros t Hs. cbn beta in Hs. rewrite Hs, EP, Eb.
    rewrite !app_length. cbn [length]. lia.
Qed.

(** ** The document *)

Notation line := (Seq NEWLINE (Call R_meta_step)).

Lemma starts_after c e p s q s' f t : run c e p s = Done q s' f -> In t f -> p <= t_start t.
Proof.
  intros H Ht. apply run_within in H. rewrite Forall_forall in H. specialize (H t Ht). destruct t as [r a b l].
  apply tree_within_node in H. cbn. lia.
Qed.

Lemma line_cases (A1 A2 : bytes) : A = A1 ++ A2 -> valid_utf8 A2 = true -> inz ZP A2 ->
  sim zempty (run ctx0 line (length A1) (A2 ++ X ++ B)) (run ctx0 line (length A1) (A2 ++ Y ++ B)) \/
  (wsim (run ctx0 line (length A1) (A2 ++ X ++ B)) (run ctx0 line (length A1) (A2 ++ Y ++ B)) /\
   forall q s f, run ctx0 line (length A1) (A2 ++ X ++ B) = Done q s f ->
     Forall (fun t => t_start t <> length P) f).
Proof.
  intros E V I. rewrite !(run_seq ctx0 NEWLINE) by reflexivity.
  assert (S : sim (zone1 ZP) (run ctx0 NEWLINE (length A1) (A2 ++ X ++ B)) (run ctx0 NEWLINE (length A1) (A2 ++ Y ++ B))).
  { apply (chk_weak (length A2) prims 40 NEWLINE ZP (zone1 ZP) (prims_ok _) eq_refl eq_refl eq_refl ctx0 A1 A2 E (le_n _) V I). }
  assert (T : forall t q s f, run ctx0 NEWLINE (length A1) t = Done q s f -> f = []).
  { intros t q s f H. rewrite run_newline in H. destruct (strip_newline t) as [[? ?]|]; [|discriminate]. injection H as _ _ <-. reflexivity. }
  destruct (run ctx0 NEWLINE (length A1) (A2 ++ X ++ B)) as [q s f| |] eqn:RX; [|left; inversion S; constructor|inversion S].
  pose proof (T _ _ _ _ RX) as Ef. subst f.
  remember (run ctx0 NEWLINE (length A1) (A2 ++ Y ++ B)) as r' eqn:RY. clear RY.
  inversion S as [|A3 A4 z f' E' I' M' Q1 Q2|B1 B2 f' E' Q1 Q2].
  - subst. apply zone1_mem in M'. subst z.
    assert (V' : valid_utf8 A4 = true) by (eapply valid_left; [exact RX|reflexivity|exact V]).
    destruct (meta_cases A3 A4 E' V' I') as [Sm|[Wm Fm]].
    + left. exact (sim_seq zempty [] _ _ Sm).
    + right. split; [exact (wsim_seq [] _ _ Wm)|]. intros q2 s2 f2 H.
      destruct (run ctx0 (Call R_meta_step) (length A3) (A4 ++ X ++ B)) as [q3 s3 f3| |] eqn:R3; try discriminate.
      injection H as <- <- <-. apply (Fm _ _ _ eq_refl).
  - left. subst. exact (sim_seq zempty [] _ _ (sim_after zempty ctx0 (Call R_meta_step) _ _ E' eq_refl)).
Qed.

Lemma lines_sim t : t_start t = length P -> forall A1 A2 q s f, A = A1 ++ A2 -> valid_utf8 A2 = true -> inz ZP A2 ->
  run ctx0 (Rep line) (length A1) (A2 ++ X ++ B) = Done q s f -> In t f ->
  sim zempty (run ctx0 (Rep line) (length A1) (A2 ++ X ++ B)) (run ctx0 (Rep line) (length A1) (A2 ++ Y ++ B)).
Proof.
  intros Ht A1 A2. remember (length A2) as n eqn:En. revert A1 A2 En.
  induction n as [n IH] using lt_wf_ind. intros A1 A2 En q s f E V I R Hin.
  rewrite !(run_rep ctx0 line) by reflexivity. rewrite run_rep in R by reflexivity.
  pose proof (line_cases A1 A2 E V I) as L.
  destruct (run ctx0 line (length A1) (A2 ++ X ++ B)) as [q1 s1 f1| |] eqn:R1;
    [|injection R as _ _ <-; destruct Hin|discriminate].
  remember (run ctx0 line (length A1) (A2 ++ Y ++ B)) as r' eqn:RY. clear RY.
  destruct L as [S|[W F]].
  - inversion S as [|A3 A4 z f' E' I' M' Q1 Q2|B1 B2 f' E' Q1 Q2]; [destruct z; discriminate|].
    exact (sim_seq zempty f1 _ _ (sim_after zempty ctx0 (Rep line) _ _ E' eq_refl)).
  - specialize (F _ _ _ eq_refl).
    destruct (run ctx0 (Rep line) q1 s1) as [q2 s2 f2| |] eqn:R2; try discriminate.
    injection R as <- <- <-. apply in_app_or in Hin. destruct Hin as [Hin|Hin].
    { rewrite Forall_forall in F. specialize (F t Hin). congruence. }
    pose proof (starts_after _ _ _ _ _ _ _ _ R2 Hin) as Hs.
    destruct W as [S|(q3 & s3 & f3 & Q & Hq)]; [|injection Q as <- <- <-; lia].
    inversion S as [|A3 A4 z f' E' I' M' Q1 Q2|B1 B2 f' E' Q1 Q2]; subst.
    + destruct z.
      * assert (V' : valid_utf8 A4 = true) by (eapply valid_left; [exact R1|reflexivity|exact V]).
        pose proof (run_strict _ _ _ _ _ _ _ R1 eq_refl) as Lt. rewrite !app_length in Lt.
        pose proof (IH (length A4) ltac:(lia) A3 A4 eq_refl _ _ _ E' V' I' R2 Hin) as S'. rewrite R2 in S'.
        exact (sim_seq zempty f1 _ _ S').
      * pose proof (zone_past ZK A3 A4 E' I' ltac:(discriminate)). lia.
      * pose proof (zone_past ZE A3 A4 E' I' ltac:(discriminate)). lia.
    + pose proof (out_past B1). lia.
Qed.

Lemma document_sim t q s f : t_start t = length P -> t_rule t <> R_EOI ->
  run ctx0 (Call R_dockerfile) 0 (A ++ X ++ B) = Done q s [Node R_dockerfile 0 q f] -> In t f ->
  sim zempty (run ctx0 (Call R_dockerfile) 0 (A ++ X ++ B)) (run ctx0 (Call R_dockerfile) 0 (A ++ Y ++ B)).
Proof.
  intros Ht Hr R Hin. apply call_inv in R. destruct R as (f' & R & Ef).
  cbn [grammar fst snd rule_inner rule_tokens wrap emits ctx0 look atom] in Ef. injection Ef as <-.
  cbn [grammar fst snd rule_inner] in R. change (rule_outer Normal ctx0) with ctx0 in R.
  change 0 with (length (@nil N)) at 1 2. apply sim_call; [reflexivity|]. cbn [grammar fst snd rule_inner]. change (rule_outer Normal ctx0) with ctx0.
  apply seq_inv in R; [|reflexivity]. destruct R as (q0 & s0 & f0 & f1 & R0 & R & ->).
  rewrite !(run_seq ctx0 Soi) by reflexivity. rewrite !run_soi. cbn [length Nat.eqb].
  rewrite run_soi in R0. cbn [Nat.eqb] in R0. injection R0 as <- <- <-. cbn [app] in Hin.
  change 0 with (length (@nil N)) in R |- *.
  refine (sim_seq zempty [] _ _ _).
  assert (VA : valid_utf8 A = true) by (unfold before; rewrite valid_utf8_app by exact HVP; exact HVK).
  assert (IA : inz ZP A) by (cbn [inz]; unfold before; rewrite app_length; lia).
  apply seq_inv in R; [|reflexivity]. destruct R as (q1 & s1 & f2 & f3 & R1 & R & ->).
  destruct (meta_cases [] A eq_refl VA IA) as [Sm|[Wm Fm]]; [apply sim_outside; [reflexivity|exact Sm]|].
  specialize (Fm _ _ _ R1). apply in_app_or in Hin. destruct Hin as [Hin|Hin].
  { rewrite Forall_forall in Fm. specialize (Fm t Hin). congruence. }
  pose proof (starts_after _ _ _ _ _ _ _ _ R Hin) as Hs.
  destruct Wm as [S|(q3 & s3 & f4 & Q & Hq)]; [|rewrite R1 in Q; injection Q as <- <- <-; lia].
  apply (sim_step zall zempty ctx0 _ _ [] A q1 s1 f2); [reflexivity|exact S|exact R1|].
  intros A3 A4 z -> -> E' I' _.
  assert (z = ZP) as ->.
  { destruct z; [reflexivity| |].
    - pose proof (zone_past ZK A3 A4 E' I' ltac:(discriminate)). lia.
    - pose proof (zone_past ZE A3 A4 E' I' ltac:(discriminate)). lia. }
  assert (V' : valid_utf8 A4 = true) by (eapply valid_left; [exact R1|reflexivity|exact VA]).
  apply seq_inv in R; [|reflexivity]. destruct R as (q5 & s5 & f5 & f6 & R5 & R6 & ->).
  apply in_app_or in Hin. destruct Hin as [Hin|Hin].
  2: { exfalso. apply Hr. apply rule_starts in R6; [|discriminate]. destruct R6 as (l & ->). destruct Hin as [<-|[]]. reflexivity. }
  apply sim_outside; [reflexivity|]. apply (lines_sim t Ht A3 A4 _ _ _ E' V' I' R5 Hin).
Qed.

Theorem swapped_any t q f : t_start t = length P -> t_rule t <> R_EOI -> In t f ->
  run ctx0 (Call R_dockerfile) 0 (A ++ X ++ B) = Done q [] [Node R_dockerfile 0 q f] ->
  run ctx0 (Call R_dockerfile) 0 (A ++ Y ++ B) = Done (g q) [] [Node R_dockerfile 0 (g q) (map (move_tree g) f)].
Proof.
  intros Ht Hr Hin R. pose proof (document_sim t q [] f Ht Hr R Hin) as S. rewrite R in S.
  remember (run ctx0 (Call R_dockerfile) 0 (A ++ Y ++ B)) as r' eqn:RY. clear RY.
  inversion S as [|A3 A4 z f' E' I' M' Q1 Q2|B1 B2 f' E' Q1 Q2]; subst; [destruct z; discriminate|].
  rewrite moved_out. cbn [map move_tree]. rewrite moved_out. rewrite (moved_in [] A eq_refl : g 0 = 0). reflexivity.
Qed.

End Document.

Theorem swapped_document : from_head -> forall t q f, t_start t = length P -> t_rule t <> R_EOI -> In t f ->
  run ctx0 (Call R_dockerfile) 0 (A ++ X ++ B) = Done q [] [Node R_dockerfile 0 q f] ->
  run ctx0 (Call R_dockerfile) 0 (A ++ Y ++ B) = Done (g q) [] [Node R_dockerfile 0 (g q) (map (move_tree g) f)].
Proof. intros HF. exact (swapped_any (step_at_K HF)). Qed.

Theorem swapped_alias : alias_text X -> alias_text Y -> alias_head -> forall t q f, t_start t = length P -> t_rule t <> R_EOI -> In t f ->
  run ctx0 (Call R_dockerfile) 0 (A ++ X ++ B) = Done q [] [Node R_dockerfile 0 q f] ->
  run ctx0 (Call R_dockerfile) 0 (A ++ Y ++ B) = Done (g q) [] [Node R_dockerfile 0 (g q) (map (move_tree g) f)].
Proof. intros TX TY HF. exact (swapped_any (alias_step TX TY HF)). Qed.

End Swap.
