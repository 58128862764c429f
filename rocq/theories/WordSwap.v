(** Two texts that differ only in a word of an instruction are read alike.

    The texts are [P ++ K ++ X ++ B] and [P ++ K ++ Y ++ B]: [P] ends where the
    instruction begins, [K] is its beginning up to the word and ends in a blank or
    newline, [B] is the rest.  The instruction is none whose arguments are taken apart
    any further (FROM, ARG, LABEL and ENV).  A run of the grammar on both stays in step
    as long as it is in [P ++ K] or in [B]; the lemmas say which expressions cannot tell
    [X] from [Y]. *)

From Coq Require Import String.
From Verif Require Import Bytes BytesFacts Grammar Peg PegFacts SpecSyntax SpecClear SpecMove SpecReword SpecArgument PegRules PegTokens PegQuoted Shift.
From Verif Require Swap EqSwap.
Local Open Scope nat_scope.

Notation is_break := Swap.is_break.
Notation clear_of := EqSwap.clear_of.
Notation plain_byte_spec := EqSwap.plain_byte_spec.
Notation within_clear := EqSwap.within_clear.
Notation rule_tokens_clear := EqSwap.rule_tokens_clear.

(** A position in [P ++ K]: before the end of [P], at it, inside [K], or at its end *)
Inductive zone : Type := ZP | ZS | ZK | ZE.
Record zset : Type := ZSet { hasP : bool; hasS : bool; hasK : bool; hasE : bool }.
Definition zmem (z : zone) (s : zset) : bool :=
  match z with ZP => hasP s | ZS => hasS s | ZK => hasK s | ZE => hasE s end.
Definition zempty : zset := ZSet false false false false.
Definition zone1 (z : zone) : zset :=
  match z with
  | ZP => ZSet true false false false
  | ZS => ZSet false true false false
  | ZK => ZSet false false true false
  | ZE => ZSet false false false true
  end.
Definition zunion (a b : zset) : zset := ZSet (hasP a || hasP b) (hasS a || hasS b) (hasK a || hasK b) (hasE a || hasE b).
Definition zsub (a b : zset) : bool :=
  implb (hasP a) (hasP b) && implb (hasS a) (hasS b) && implb (hasK a) (hasK b) && implb (hasE a) (hasE b).

Lemma zsub_mem a b z : zsub a b = true -> zmem z a = true -> zmem z b = true.
Proof.
  unfold zsub. rewrite !andb_true_iff. intros [[[H1 H2] H3] H4] M. destruct z; cbn [zmem] in *; rewrite M in *; assumption.
Qed.
Lemma zunion_l a b : zsub a (zunion a b) = true.
Proof. destruct a as [[] [] [] []], b as [[] [] [] []]; reflexivity. Qed.
Lemma zunion_r a b : zsub b (zunion a b) = true.
Proof. destruct a as [[] [] [] []], b as [[] [] [] []]; reflexivity. Qed.
Lemma zone1_mem z z' : zmem z (zone1 z') = true -> z = z'.
Proof. destruct z, z'; cbn; congruence. Qed.
Lemma zone1_self z : zmem z (zone1 z) = true.
Proof. destruct z; reflexivity. Qed.
Lemma zsub_trans a b c : zsub a b = true -> zsub b c = true -> zsub a c = true.
Proof.
  unfold zsub. rewrite !andb_true_iff. intros [[[H1 H2] H3] H4] [[[K1 K2] K3] K4]. repeat split;
    [destruct (hasP a)|destruct (hasS a)|destruct (hasK a)|destruct (hasE a)]; cbn [implb] in *; try reflexivity.
  - rewrite H1 in K1. exact K1.
  - rewrite H2 in K2. exact K2.
  - rewrite H3 in K3. exact K3.
  - rewrite H4 in K4. exact K4.
Qed.

Definition barred_words : list bytes := [bs "from"; bs "arg"; bs "label"; bs "env"; bs "as"].

Section WordSwap.
Variables P K X Y B : bytes.
Hypothesis HX : argument_word X.
Hypothesis HY : argument_word Y.
Hypothesis HB : valid_utf8 B = true.
Hypothesis HBhead : match B with c :: _ => plain_byte c = false | [] => True end.
Hypothesis HK : exists k0 K1 z, K = k0 :: K1 ++ [z] /\ is_alpha k0 = true /\ is_break z = true.
Hypothesis HKw : Forall (fun w => match_insens w K = None) barred_words.
Hypothesis HP : exists U w, P = U ++ w /\ Forall (fun c => is_blank c = true) w /\
  (U = [] \/ exists U0 n, U = U0 ++ [n] /\ is_newline_byte n = true).

Definition before : bytes := P ++ K.
Notation A := before.
Definition moved : nat -> nat := replacement (length A) (length A + length X) (length Y).
Notation g := moved.
Notation clear := (clear_of (length A) (length A + length X)).

Definition inz (z : zone) (a : bytes) : Prop :=
  match z with
  | ZP => length K < length a
  | ZS => length a = length K
  | ZK => a <> [] /\ length a < length K
  | ZE => a = []
  end.

Lemma moved_in A1 A2 : A = A1 ++ A2 -> g (length A1) = length A1.
Proof.
  intros E. unfold moved, replacement. apply (f_equal (@length N)) in E. rewrite app_length in E.
  destruct (Nat.leb_spec (length A1) (length A)); lia.
Qed.

Lemma length_X : 0 < length X.
Proof. destruct HX as [(_ & H & _) _]. destruct X; [congruence|cbn; lia]. Qed.
Lemma length_Y : 0 < length Y.
Proof. destruct HY as [(_ & H & _) _]. destruct Y; [congruence|cbn; lia]. Qed.

Lemma moved_out k : g (length A + length X + k) = length A + length Y + k.
Proof.
  unfold moved, replacement. pose proof length_X. destruct (Nat.leb_spec (length A + length X + k) (length A)); lia.
Qed.

Inductive sim (zs : zset) : res -> res -> Prop :=
| sim_fail : sim zs Fail Fail
| sim_in A1 A2 z f : A = A1 ++ A2 -> inz z A2 -> zmem z zs = true -> Forall clear f ->
    sim zs (Done (length A1) (A2 ++ X ++ B) f) (Done (length A1) (A2 ++ Y ++ B) (map (move_tree g) f))
| sim_out B1 B2 f : B = B1 ++ B2 -> Forall clear f ->
    sim zs (Done (length A + length X + length B1) B2 f)
           (Done (length A + length Y + length B1) B2 (map (move_tree g) f)).

Definition ok (m : nat) (z : zone) (zs : zset) (e : expr) : Prop :=
  forall c A1 A2, A = A1 ++ A2 -> length A2 <= m -> valid_utf8 A2 = true -> inz z A2 ->
    sim zs (run c e (length A1) (A2 ++ X ++ B)) (run c e (length A1) (A2 ++ Y ++ B)).

Lemma sim_weaken zs zs' r r' : zsub zs zs' = true -> sim zs r r' -> sim zs' r r'.
Proof.
  intros H S. destruct S; [constructor| |constructor; assumption]. econstructor; eauto using zsub_mem.
Qed.

Lemma ok_weaken m z zs zs' e : zsub zs zs' = true -> ok m z zs e -> ok m z zs' e.
Proof. intros H S c A1 A2 E L V I. eapply sim_weaken; [exact H|]. apply S; assumption. Qed.

(** ** Validity *)

Lemma valid_X : valid_utf8 (X ++ B) = true.
Proof. rewrite valid_utf8_app by apply (proj1 HX). exact HB. Qed.
Lemma valid_Y : valid_utf8 (Y ++ B) = true.
Proof. rewrite valid_utf8_app by apply (proj1 HY). exact HB. Qed.
Lemma valid_inX a : valid_utf8 a = true -> valid_utf8 (a ++ X ++ B) = true.
Proof. intros H. rewrite valid_utf8_app by exact H. exact valid_X. Qed.
Lemma valid_inY a : valid_utf8 a = true -> valid_utf8 (a ++ Y ++ B) = true.
Proof. intros H. rewrite valid_utf8_app by exact H. exact valid_Y. Qed.

Lemma valid_left c e p a q b f : run c e p (a ++ X ++ B) = Done q (b ++ X ++ B) f -> ascii_expr e = true ->
  valid_utf8 a = true -> valid_utf8 b = true.
Proof.
  intros H He Ha. apply (valid_utf8_app_l b (X ++ B)); [|exact valid_X].
  eapply run_valid; [exact H|apply valid_inX; exact Ha|exact He].
Qed.

(** ** After the word *)

Lemma sim_after zs c e B1 B2 : B = B1 ++ B2 -> good e = true ->
  sim zs (run c e (length A + length X + length B1) B2) (run c e (length A + length Y + length B1) B2).
Proof.
  intros E G. pose proof length_X. pose proof length_Y.
  rewrite (run_shift g c e (length A + length X + length B1) B2 (length A + length Y + length B1)); [| |lia|lia].
  2: { intros k Hk. rewrite <- !(Nat.add_assoc _ (length B1)). apply moved_out. }
  destruct (run c e (length A + length X + length B1) B2) as [q s f| |] eqn:R; cbn [move_res].
  - destruct (run_consumes _ _ _ _ _ _ _ R) as (w & -> & ->). apply run_within in R.
    rewrite <- !(Nat.add_assoc (length A + length X)), moved_out, <- (app_length B1 w). constructor.
    + rewrite <- app_assoc. exact E.
    + eapply Forall_impl; [|exact R]. intros t Ht. eapply within_clear; [|exact Ht]. lia.
  - constructor.
  - exfalso. exact (run_total _ _ _ _ G R).
Qed.

(** ** Closure *)

Lemma sim_seq zs f r r' : Forall clear f -> sim zs r r' ->
  sim zs (match r with Done q2 s2 f2 => Done q2 s2 (f ++ f2) | Fail => Fail | OutOfFuel => OutOfFuel end)
    (match r' with Done q2 s2 f2 => Done q2 s2 (map (move_tree g) f ++ f2) | Fail => Fail | OutOfFuel => OutOfFuel end).
Proof.
  intros Hf S. destruct S as [|A1 A2 z f2 E I M H2|B1 B2 f2 E H2]; [constructor| |]; rewrite <- map_app;
    econstructor; try eassumption; apply Forall_app; auto.
Qed.

Lemma ok_seq m z z1 zs a b : good (Seq a b) = true -> ascii_expr a = true ->
  ok m z z1 a -> (forall z', zmem z' z1 = true -> ok m z' zs b) -> ok m z zs (Seq a b).
Proof.
  intros G Ga Ha Hb c A1 A2 E L V I. rewrite !run_seq by exact G. specialize (Ha c A1 A2 E L V I).
  inversion Ha as [|A3 A4 z' f E' I' M' F' R1 R2|B1 B2 f E' F' R1 R2].
  - constructor.
  - symmetry in R1. assert (V' : valid_utf8 A4 = true) by (eapply valid_left; eassumption).
    assert (L' : length A4 <= m).
    { apply run_consumes in R1. destruct R1 as (w & Ew & _). apply (f_equal (@length N)) in Ew. rewrite !app_length in Ew. lia. }
    exact (sim_seq zs f _ _ F' (Hb z' M' c A3 A4 E' L' V' I')).
  - exact (sim_seq zs f _ _ F' (sim_after zs c b B1 B2 E' (proj2 (good_sub _ G)))).
Qed.

(** When the first part takes something, the second is only met with less left. *)
Lemma ok_seq_strict m z z1 zs a b : good (Seq a b) = true -> ascii_expr a = true -> nullable a = false ->
  ok m z z1 a -> (forall z' n, n < m -> zmem z' z1 = true -> ok n z' zs b) -> ok m z zs (Seq a b).
Proof.
  intros G Ga Hn Ha Hb c A1 A2 E L V I. rewrite !run_seq by exact G. specialize (Ha c A1 A2 E L V I).
  inversion Ha as [|A3 A4 z' f E' I' M' F' R1 R2|B1 B2 f E' F' R1 R2].
  - constructor.
  - symmetry in R1. assert (V' : valid_utf8 A4 = true) by (eapply valid_left; eassumption).
    pose proof (run_strict _ _ _ _ _ _ _ R1 Hn) as L'. rewrite !app_length in L'.
    exact (sim_seq zs f _ _ F' (Hb z' (length A4) ltac:(lia) M' c A3 A4 E' (le_n _) V' I')).
  - exact (sim_seq zs f _ _ F' (sim_after zs c b B1 B2 E' (proj2 (good_sub _ G)))).
Qed.

Lemma ok_alt m z zs a b : good (Alt a b) = true -> ok m z zs a -> ok m z zs b -> ok m z zs (Alt a b).
Proof.
  intros G Ha Hb c A1 A2 E L V I. rewrite !run_alt by exact G. specialize (Ha c A1 A2 E L V I).
  inversion Ha; [apply Hb; assumption|econstructor; eassumption|constructor; assumption].
Qed.

Lemma sim_here zs z A1 A2 : A = A1 ++ A2 -> inz z A2 -> zmem z zs = true ->
  sim zs (Done (length A1) (A2 ++ X ++ B) []) (Done (length A1) (A2 ++ Y ++ B) []).
Proof. intros E I M. apply (sim_in zs A1 A2 z [] E I M). constructor. Qed.

Lemma ok_opt m z zs e : good (Opt e) = true -> ok m z zs e -> zmem z zs = true -> ok m z zs (Opt e).
Proof.
  intros G He M c A1 A2 E L V I. rewrite !run_opt by exact G. specialize (He c A1 A2 E L V I).
  inversion He; [eapply sim_here; eassumption|econstructor; eassumption|constructor; assumption].
Qed.

Lemma ok_not m z zs e : good (NegPred e) = true -> ok m z zs e -> ok m z (zone1 z) (NegPred e).
Proof.
  intros G He c A1 A2 E L V I. rewrite !run_not by exact G.
  specialize (He {| atom := atom c; look := true |} A1 A2 E L V I).
  inversion He; [eapply sim_here; try eassumption; apply zone1_self|constructor|constructor].
Qed.

Lemma in_le A1 A2 : A = A1 ++ A2 -> length A1 <= length A.
Proof. intros E. rewrite E, app_length. lia. Qed.

Lemma ok_call m z zs r : ok m z zs (snd (grammar r)) -> ok m z zs (Call r).
Proof.
  intros H c A1 A2 E L V I. rewrite !run_call. specialize (H (rule_inner (fst (grammar r)) c) A1 A2 E L V I).
  inversion H as [|A3 A4 z' f E' I' M' F' R1 R2|B1 B2 f E' F' R1 R2]; [constructor| |].
  - pose proof (move_rule_tokens g (fst (grammar r)) c r (length A1) (length A3) f) as Hm.
    rewrite (moved_in _ _ E), (moved_in _ _ E') in Hm. rewrite <- Hm. econstructor; try eassumption.
    apply rule_tokens_clear; [left; eapply in_le; eassumption|left; eapply in_le; eassumption|exact F'].
  - pose proof (move_rule_tokens g (fst (grammar r)) c r (length A1) (length A + length X + length B1) f) as Hm.
    rewrite (moved_in _ _ E), moved_out in Hm. rewrite <- Hm. constructor; [assumption|].
    apply rule_tokens_clear; [left; eapply in_le; eassumption|right; lia|exact F'].
Qed.

Lemma ok_rep m zs e : good (Rep e) = true -> ascii_expr e = true ->
  (forall z, zmem z zs = true -> ok m z zs e) -> forall z, zmem z zs = true -> ok m z zs (Rep e).
Proof.
  intros G Ge He z M c A1 A2 E. remember (length A2) as n eqn:En. revert z M A1 A2 E En.
  induction n as [n IH] using lt_wf_ind. intros z M A1 A2 E En L V I. rewrite !run_rep by exact G.
  assert (L0 : length A2 <= m) by lia. pose proof (He z M c A1 A2 E L0 V I) as S.
  inversion S as [|A3 A4 z' f E' I' M' F' R1 R2|B1 B2 f E' F' R1 R2].
  - eapply sim_here; eassumption.
  - symmetry in R1. assert (V' : valid_utf8 A4 = true) by (eapply valid_left; eassumption).
    pose proof (run_strict _ _ _ _ _ _ _ R1 (proj2 (good_sub _ G))) as Lt. rewrite !app_length in Lt.
    specialize (IH (length A4) ltac:(lia) z' M' A3 A4 E' eq_refl ltac:(lia) V' I').
    inversion IH as [|A5 A6 z2 f2 E2 I2 M2 F2 R3 R4|B1 B2 f2 E2 F2 R3 R4]; [constructor| |];
      rewrite <- map_app; econstructor; try eassumption; apply Forall_app; auto.
  - pose proof (sim_after zs c (Rep e) B1 B2 E' G) as S'.
    inversion S' as [|A5 A6 z2 f2 E2 I2 M2 F2 R3 R4|B3 B4 f2 E2 F2 R3 R4]; [constructor| |];
      rewrite <- map_app; econstructor; try eassumption; apply Forall_app; auto.
Qed.

(** ** Where positions are *)

Lemma in_P A1 A2 : A = A1 ++ A2 -> length K <= length A2 -> exists P2, A2 = P2 ++ K /\ P = A1 ++ P2.
Proof.
  intros E L. unfold before in E. apply app_eq_app in E. destruct E as (l & [[-> E2]|[E1 E2]]).
  - exists l. subst. split; reflexivity.
  - assert (l = []). { apply (f_equal (@length N)) in E2. rewrite app_length in E2. destruct l; [reflexivity|cbn in E2; lia]. }
    subst l. cbn [app] in E2. rewrite app_nil_r in E1. exists []. rewrite app_nil_r. cbn. split; congruence.
Qed.

Lemma length_K : 1 < length K.
Proof. destruct HK as (k0 & K1 & z & -> & _). cbn [length]. rewrite app_length. cbn [length]. lia. Qed.

Lemma K_ends : exists a z, K = a ++ [z] /\ is_break z = true.
Proof. destruct HK as (k0 & K1 & z & -> & _ & Hz). exists (k0 :: K1), z. auto. Qed.

Lemma ends_break A1 A2 : A = A1 ++ A2 -> A2 <> [] -> exists a z, A2 = a ++ [z] /\ is_break z = true.
Proof.
  intros E Hne. destruct K_ends as (a & z & Ek & Hz). unfold before in E. rewrite Ek, app_assoc in E.
  destruct (exists_last Hne) as (l & y & ->). rewrite app_assoc in E. apply app_inj_tail in E.
  destruct E as [_ <-]. eauto.
Qed.

Lemma P_ends P1 P2 : P = P1 ++ P2 -> P2 <> [] -> exists a z, P2 = a ++ [z] /\ is_break z = true.
Proof.
  intros E Hne. destruct (exists_last Hne) as (l & y & ->). exists l, y. split; [reflexivity|].
  destruct HP as (U & w & Ep & Hw & HU). rewrite Ep in E.
  destruct w as [|w0 w1].
  - rewrite app_nil_r in E. destruct HU as [-> | (U0 & n & -> & Hn)].
    + symmetry in E. apply app_eq_nil in E. destruct E as [_ E]. destruct l; discriminate.
    + rewrite app_assoc in E. apply app_inj_tail in E. destruct E as [_ <-]. unfold is_break. rewrite Hn. apply orb_true_r.
  - assert (Hn : w0 :: w1 <> []) by discriminate. destruct (exists_last Hn) as (v & x & Ev). rewrite Ev in *.
    rewrite !app_assoc in E. apply app_inj_tail in E. destruct E as [_ <-].
    apply Forall_app in Hw. destruct Hw as [_ Hw]. inversion Hw as [|? ? Hx _]. subst. unfold is_break. rewrite Hx. reflexivity.
Qed.

(** The text before the instruction, with something left of it *)
Lemma in_P_ends A1 A2 : A = A1 ++ A2 -> inz ZP A2 -> exists a z, A2 = a ++ z :: K /\ is_break z = true.
Proof.
  intros E I. cbn [inz] in I. destruct (in_P A1 A2 E ltac:(lia)) as (P2 & -> & EP).
  destruct (P_ends A1 P2 EP) as (a & z & -> & Hz); [intros ->; cbn [app] in I; lia|].
  exists a, z. split; [rewrite <- app_assoc; reflexivity|exact Hz].
Qed.

Lemma in_S A1 A2 : A = A1 ++ A2 -> inz ZS A2 -> A2 = K /\ A1 = P.
Proof.
  intros E I. cbn [inz] in I. destruct (in_P A1 A2 E ltac:(lia)) as (P2 & -> & EP).
  rewrite app_length in I. destruct P2; [|cbn [length] in I; lia]. rewrite app_nil_r in EP. auto.
Qed.

Lemma in_ends z A1 A2 : A = A1 ++ A2 -> inz z A2 -> z <> ZE -> exists a y, A2 = a ++ [y] /\ is_break y = true.
Proof.
  intros E I Hz. apply (ends_break A1 A2 E). pose proof length_K. destruct z; cbn [inz] in I; [| |apply I|congruence]; destruct A2; cbn [length] in I; try discriminate; lia.
Qed.

(** ** Terminals *)

Lemma X_head : exists x t, X = x :: t /\ plain_byte x = true /\ ~ In x [LBRACK; RBRACK; COMMA; HASH].
Proof.
  destruct HX as ((_ & H1 & H2 & _) & N1 & N2 & N3 & N4 & _). destruct X as [|x t]; [congruence|]. inversion H2. exists x, t.
  repeat split; [assumption|]. intros [<-|[<-|[<-|[<-|[]]]]]; [apply N1|apply N2|apply N3|apply N4]; exists t; reflexivity.
Qed.
Lemma Y_head : exists x t, Y = x :: t /\ plain_byte x = true /\ ~ In x [LBRACK; RBRACK; COMMA; HASH].
Proof.
  destruct HY as ((_ & H1 & H2 & _) & N1 & N2 & N3 & N4 & _). destruct Y as [|x t]; [congruence|]. inversion H2. exists x, t.
  repeat split; [assumption|]. intros [<-|[<-|[<-|[<-|[]]]]]; [apply N1|apply N2|apply N3|apply N4]; exists t; reflexivity.
Qed.

Definition letters : list N := map N.of_nat (seq 65 26 ++ seq 97 26).

Lemma letter_in c : is_alpha c = true -> In c letters.
Proof.
  intros H. unfold letters. apply in_map_iff. exists (N.to_nat c). split; [apply N2Nat.id|].
  unfold is_alpha, is_upper, is_lower, in_range in H. rewrite orb_true_iff, !andb_true_iff, !N.leb_le in H. apply in_or_app. rewrite !in_seq. lia.
Qed.

Definition class_zones (C : N -> bool) (z : zone) : zset :=
  let br := C SP || C TAB || C LF || C CR in
  match z with
  | ZP => ZSet true br false false
  | ZS => ZSet false false (existsb C letters) false
  | ZK => ZSet false false true br
  | ZE => zempty
  end.

Lemma class_break C z : is_break z = true -> C z = true -> C SP || C TAB || C LF || C CR = true.
Proof. intros H Hc. destruct (Swap.break_cases z H) as [->|[->|[->| ->]]]; rewrite Hc, ?orb_true_r; reflexivity. Qed.

Lemma ok_class m z C e : matches_class e C -> z <> ZE -> ok m z (class_zones C z) e.
Proof.
  intros He Hz c A1 A2 E L V I. rewrite !He. pose proof (in_ends z A1 A2 E I Hz) as (a & y & Ea & Hy).
  destruct A2 as [|x A2]; [destruct a; discriminate|].
  cbn [app]. destruct (C x) eqn:Ec; [|constructor].
  assert (E' : A = (A1 ++ [x]) ++ A2) by (rewrite <- app_assoc; exact E).
  replace (length A1 + 1) with (length (A1 ++ [x])) by (rewrite app_length; reflexivity).
  destruct z; [| | |congruence].
  - destruct (in_P_ends A1 (x :: A2) E I) as (b & w & Eb & Hw). destruct b as [|b0 b].
    + cbn [app] in Eb. injection Eb as -> ->. apply (sim_here _ ZS); [exact E'|reflexivity|]. cbn. exact (class_break C w Hw Ec).
    + injection Eb as -> ->. apply (sim_here _ ZP); [exact E'| |reflexivity]. cbn [inz]. rewrite app_length. cbn [length]. lia.
  - destruct (in_S A1 (x :: A2) E I) as [Ek _]. destruct HK as (k0 & K1 & zz & Ek' & Hk & _). rewrite Ek' in Ek. injection Ek as -> ->.
    apply (sim_here _ ZK); [exact E'| |].
    + cbn [inz]. split; [destruct K1; discriminate|]. rewrite Ek'. cbn [length]. lia.
    + cbn [class_zones zmem hasK]. apply existsb_exists. exists k0. split; [apply letter_in; exact Hk|exact Ec].
  - destruct A2 as [|x2 A2].
    + apply (sim_here _ ZE); [exact E'|reflexivity|]. cbn [class_zones zmem hasE].
      destruct a as [|a0 a]; [|destruct a; discriminate]. injection Ea as ->. exact (class_break C y Hy Ec).
    + apply (sim_here _ ZK); [exact E'| |reflexivity]. cbn [inz]. split; [discriminate|]. destruct I as [_ I].
      cbn [length] in *. lia.
Qed.

(** Several bytes, none of them blank or newline *)
Definition word_zones (c : N) (z : zone) : zset :=
  match z with
  | ZP => zone1 ZP
  | ZS => if is_alpha (lower_byte c) then zone1 ZK else zempty
  | z => zone1 z
  end.

Lemma word_done z c0 w A1 A2 r : A = A1 ++ A2 -> inz z A2 -> z <> ZE -> A2 = w ++ r -> r <> [] ->
  (exists c t, w = c :: t /\ lower_byte c = lower_byte c0) -> Forall (fun c => is_break c = false) w ->
  sim (word_zones c0 z) (Done (length A1 + length w) (r ++ X ++ B) []) (Done (length A1 + length w) (r ++ Y ++ B) []).
Proof.
  intros E I Hz E2 Hr (c & t & Ew & Hc) Hw. rewrite <- app_length.
  assert (E' : A = (A1 ++ w) ++ r) by (rewrite <- app_assoc, <- E2; exact E).
  destruct z; [| | |congruence].
  - apply (sim_here _ ZP); [exact E'| |reflexivity]. cbn [inz].
    destruct (in_P_ends A1 A2 E I) as (b & y & Eb & Hy). rewrite Eb in E2. apply app_eq_app in E2.
    destruct E2 as (l & [[E3 E4]|[E3 E4]]).
    + rewrite E4, app_length. cbn [length]. lia.
    + destruct l as [|l0 l]; [cbn [app] in E4; rewrite <- E4; cbn [length]; lia|].
      injection E4 as <- ->. rewrite E3 in Hw. apply Forall_app in Hw. destruct Hw as [_ Hw]. inversion Hw. congruence.
  - destruct (in_S A1 A2 E I) as [-> ->]. destruct HK as (k0 & K1 & zz & Ek & Hk & _). rewrite Ew, Ek in E2. injection E2 as <- _.
    apply (sim_here _ ZK); [exact E'| |].
    + cbn [inz]. split; [exact Hr|]. apply (f_equal (@length N)) in E'. unfold before in E'. rewrite !app_length in E'.
      rewrite Ew in E'. cbn [length] in E'. lia.
    + cbn [word_zones]. rewrite <- Hc. replace (is_alpha (lower_byte k0)) with true; [reflexivity|]. symmetry.
      clear - Hk. unfold is_alpha, lower_byte, is_upper, is_lower, in_range in *. destruct ((65 <=? k0)%N && (k0 <=? 90)%N) eqn:Eu; [|rewrite Eu; exact Hk].
      apply andb_true_iff in Eu. rewrite !N.leb_le in Eu. apply orb_true_iff. rewrite !andb_true_iff, !N.leb_le. lia.
  - apply (sim_here _ ZK); [exact E'| |reflexivity]. cbn [inz]. split; [exact Hr|]. destruct I as [_ I]. rewrite E2, app_length in I. lia.
Qed.

Lemma ok_str m z c0 pat : z <> ZE -> forallb (fun c => negb (is_break c)) (c0 :: pat) = true ->
  ok m z (word_zones c0 z) (Str (c0 :: pat)).
Proof.
  intros Hz Hp c A1 A2 E L V I. rewrite !run_str.
  assert (Hp' : forall x, In x (c0 :: pat) -> is_break x = false).
  { intros x Hx. rewrite forallb_forall in Hp. apply negb_true_iff. apply Hp. exact Hx. }
  pose proof (Swap.match_str_short (c0 :: pat) A2 (X ++ B) Hp' (in_ends z A1 A2 E I Hz)) as [-> Hne].
  pose proof (Swap.match_str_short (c0 :: pat) A2 (Y ++ B) Hp' (in_ends z A1 A2 E I Hz)) as [-> _].
  destruct (match_str (c0 :: pat) A2) as [r|] eqn:Er; [|constructor].
  specialize (Hne r eq_refl). apply match_str_app in Er.
  apply (word_done z c0 (c0 :: pat) A1 A2 r E I Hz Er Hne); [eauto|]. apply Forall_forall. exact Hp'.
Qed.

Definition insens_zone (pat : bytes) (z : zone) : zset :=
  match z with
  | ZS => if existsb (beqb pat) barred_words then zempty else word_zones (hd 0%N pat) ZS
  | z => word_zones (hd 0%N pat) z
  end.

Lemma ok_insens m z c0 pat : z <> ZE -> forallb (fun c => negb (is_break c)) (c0 :: pat) = true ->
  ok m z (insens_zone (c0 :: pat) z) (Insens (c0 :: pat)).
Proof.
  intros Hz Hp c A1 A2 E L V I. rewrite !run_insens.
  assert (Hp' : forall x, In x (c0 :: pat) -> is_break x = false).
  { intros x Hx. rewrite forallb_forall in Hp. apply negb_true_iff. apply Hp. exact Hx. }
  pose proof (Swap.match_insens_short (c0 :: pat) A2 (X ++ B) Hp' (in_ends z A1 A2 E I Hz)) as [-> Hne].
  pose proof (Swap.match_insens_short (c0 :: pat) A2 (Y ++ B) Hp' (in_ends z A1 A2 E I Hz)) as [-> _].
  destruct (match_insens (c0 :: pat) A2) as [r|] eqn:Er; [|constructor].
  specialize (Hne r eq_refl). pose proof Er as Er0. apply match_insens_app in Er. destruct Er as (w & Ew & Hw).
  replace (length (c0 :: pat)) with (length w).
  2: { apply (f_equal (@length N)) in Hw. unfold to_lower in Hw. rewrite !map_length in Hw. exact Hw. }
  assert (D : sim (word_zones c0 z) (Done (length A1 + length w) (r ++ X ++ B) []) (Done (length A1 + length w) (r ++ Y ++ B) [])).
  { apply (word_done z c0 w A1 A2 r E I Hz Ew Hne).
    - destruct w as [|x w]; [discriminate|]. cbn [to_lower map] in Hw. injection Hw as Hx _. eauto.
    - clear Ew Er0. revert Hw Hp'. generalize (c0 :: pat). intros l Hw. revert w Hw. induction l as [|x l IH]; intros [|y w] Hw Hl; try discriminate; constructor.
      + cbn [to_lower map] in Hw. injection Hw as Hx _. rewrite <- Swap.lower_break, Hx, Swap.lower_break. apply Hl. left. reflexivity.
      + apply IH; [cbn [to_lower map] in Hw; injection Hw as _ Hw; exact Hw|]. intros z' Hz'. apply Hl. right. exact Hz'. }
  destruct z; try exact D. cbn [insens_zone]. destruct (existsb (beqb (c0 :: pat)) barred_words) eqn:Eb; [|exact D].
  exfalso. apply existsb_exists in Eb. destruct Eb as (w0 & Hw0 & Eb). apply beqb_eq in Eb. subst w0.
  destruct (in_S A1 A2 E I) as [-> _]. rewrite Forall_forall in HKw. rewrite (HKw _ Hw0) in Er0. discriminate.
Qed.

Lemma ok_crlf m z : z <> ZE -> ok m z (match z with ZP => ZSet true true false false | ZK => ZSet false false true true | _ => zempty end) (Str [CR; LF]).
Proof.
  intros Hz c A1 A2 E L V I. rewrite !run_str.
  destruct (in_ends z A1 A2 E I Hz) as (a & y & -> & Hy).
  destruct a as [|x a].
  - cbn [app match_str]. destruct (CR =? y)%N; [|constructor].
    destruct X_head as (x1 & t1 & -> & H1 & _). destruct Y_head as (y1 & u1 & -> & H2 & _). cbn [app].
    apply plain_byte_spec in H1, H2.
    assert (K1 : (LF =? x1)%N = false). { apply N.eqb_neq. intros <-. destruct H1 as (_ & H1 & _). discriminate. }
    assert (K2 : (LF =? y1)%N = false). { apply N.eqb_neq. intros <-. destruct H2 as (_ & H2 & _). discriminate. }
    rewrite K1, K2. constructor.
  - cbn [app match_str]. destruct (CR =? x)%N eqn:E1; [|constructor]. apply N.eqb_eq in E1. subst x.
    destruct (a ++ [y]) as [|x2 t] eqn:Ea; [destruct a; discriminate|].
    cbn [app].
    destruct (LF =? x2)%N eqn:E2; [|constructor]. apply N.eqb_eq in E2. subst x2. cbn [app] in E, I. rewrite Ea in E, I.
    change (length [CR; LF]) with 2. replace (length A1 + 2) with (length (A1 ++ [CR; LF])) by (rewrite app_length; reflexivity).
    assert (E' : A = (A1 ++ [CR; LF]) ++ t) by (rewrite <- app_assoc; exact E).
    destruct z; [| | |congruence].
    + destruct (in_P_ends _ _ E I) as (b & w & Eb & Hw). destruct HK as (k0 & K1 & zz & Ek & Hk & _).
      destruct b as [|b0 [|b1 b]]; cbn [app] in Eb.
      * rewrite Ek in Eb. injection Eb as _ <- _. discriminate.
      * injection Eb as _ _ ->. apply (sim_here _ ZS); [exact E'|reflexivity|reflexivity].
      * injection Eb as _ _ ->. apply (sim_here _ ZP); [exact E'| |reflexivity]. cbn [inz]. rewrite app_length. cbn [length]. lia.
    + destruct (in_S _ _ E I) as [Ek _]. destruct HK as (k0 & K1 & zz & Ek' & Hk & _). rewrite Ek' in Ek. injection Ek as <- _. discriminate.
    + destruct t as [|t0 t].
      * apply (sim_here _ ZE); [exact E'|reflexivity|reflexivity].
      * apply (sim_here _ ZK); [exact E'| |reflexivity]. cbn [inz]. split; [discriminate|]. destruct I as [_ I]. cbn [length] in *. lia.
Qed.

(** ** Reading up to a stop *)

(** A stop that is the same with either word, and never in it *)
Definition blind (stop : bytes -> bool) : Prop :=
  (forall x t, plain_byte x = true -> stop (x :: t) = false) /\
  (forall x a, stop (x :: a ++ X ++ B) = stop (x :: a ++ Y ++ B)).

Lemma over_word stop w s : argument_word w -> (forall x t, plain_byte x = true -> stop (x :: t) = false) ->
  until stop (w ++ s) = w ++ until stop s /\ from_stop stop (w ++ s) = from_stop stop s.
Proof.
  intros ((_ & _ & Hw & _) & _) H. apply Swap.until_over. intros b y c ->. apply H. apply Forall_app in Hw. destruct Hw as [_ Hw]. inversion Hw. assumption.
Qed.

Lemma scan stop a : blind stop ->
  (exists a1 x a2, a = a1 ++ x :: a2 /\
    until stop (a ++ X ++ B) = a1 /\ from_stop stop (a ++ X ++ B) = x :: a2 ++ X ++ B /\
    until stop (a ++ Y ++ B) = a1 /\ from_stop stop (a ++ Y ++ B) = x :: a2 ++ Y ++ B /\
    (forall b y c, a1 = b ++ y :: c -> stop (y :: c ++ x :: a2 ++ X ++ B) = false)) \/
  (until stop (a ++ X ++ B) = a ++ X ++ until stop B /\ from_stop stop (a ++ X ++ B) = from_stop stop B /\
   until stop (a ++ Y ++ B) = a ++ Y ++ until stop B /\ from_stop stop (a ++ Y ++ B) = from_stop stop B /\
   (forall b y c, a = b ++ y :: c -> stop (y :: c ++ X ++ B) = false)).
Proof.
  intros [H1 H2]. destruct (Swap.first_stop stop (X ++ B) a) as [(a1 & x & a2 & -> & Hs & Hb)|Hb].
  - left. exists a1, x, a2. split; [reflexivity|]. rewrite <- !app_assoc. cbn [app].
    destruct (Swap.until_in stop a1 x (a2 ++ X ++ B) Hs Hb) as [-> ->].
    destruct (Swap.until_in stop a1 x (a2 ++ Y ++ B)) as [-> ->].
    + rewrite <- H2. exact Hs.
    + intros b y c Ea. specialize (Hb b y c Ea). specialize (H2 y (c ++ x :: a2)). rewrite <- !app_assoc in H2. cbn [app] in H2. congruence.
    + repeat split; auto.
  - right. destruct (Swap.until_over stop a (X ++ B) Hb) as [-> ->].
    destruct (Swap.until_over stop a (Y ++ B)) as [-> ->]; [intros b y c E; rewrite <- H2; eapply Hb; exact E|].
    destruct (over_word stop X B HX H1) as [-> ->]. destruct (over_word stop Y B HY H1) as [-> ->]. repeat split; auto.
Qed.

Definition scan_zones (z : zone) : zset :=
  match z with
  | ZP => ZSet true true true false
  | ZS => ZSet false true true false
  | ZK => zone1 ZK
  | ZE => zempty
  end.

Lemma scan_in z A1 a1 x a2 : A = A1 ++ a1 ++ x :: a2 -> inz z (a1 ++ x :: a2) ->
  sim (scan_zones z) (Done (length A1 + length a1) (x :: a2 ++ X ++ B) []) (Done (length A1 + length a1) (x :: a2 ++ Y ++ B) []).
Proof.
  intros E I. rewrite <- app_length. change (x :: a2 ++ X ++ B) with ((x :: a2) ++ X ++ B). change (x :: a2 ++ Y ++ B) with ((x :: a2) ++ Y ++ B).
  rewrite app_assoc in E. destruct z; cbn [inz] in I.
  - destruct (lt_eq_lt_dec (length K) (length (x :: a2))) as [[H|H]|H].
    + apply (sim_here _ ZP); [exact E|exact H|reflexivity].
    + apply (sim_here _ ZS); [exact E|cbn [inz]; congruence|reflexivity].
    + apply (sim_here _ ZK); [exact E|split; [discriminate|exact H]|reflexivity].
  - rewrite app_length in I. destruct (Nat.eq_dec (length (x :: a2)) (length K)) as [H|H].
    + apply (sim_here _ ZS); [exact E|exact H|reflexivity].
    + apply (sim_here _ ZK); [exact E|split; [discriminate|lia]|reflexivity].
  - apply (sim_here _ ZK); [exact E| |reflexivity]. destruct I as [_ I]. rewrite app_length in I. split; [discriminate|lia].
  - destruct a1; discriminate.
Qed.

Lemma scan_out stop zs A1 a : A = A1 ++ a ->
  sim zs (Done (length A1 + length (a ++ X ++ until stop B)) (from_stop stop B) []) (Done (length A1 + length (a ++ Y ++ until stop B)) (from_stop stop B) []).
Proof.
  intros E. replace (length A1 + length (a ++ X ++ until stop B)) with (length A + length X + length (until stop B)) by (rewrite E, !app_length; lia).
  replace (length A1 + length (a ++ Y ++ until stop B)) with (length A + length Y + length (until stop B)) by (rewrite E, !app_length; lia).
  apply (sim_out zs (until stop B) (from_stop stop B) []); [symmetry; apply until_app|constructor].
Qed.

Lemma ok_until m z e stop : good (Rep e) = true -> stops_at_ascii stop -> matches_unless e stop -> blind stop ->
  ok m z (scan_zones z) (Rep e).
Proof.
  intros G Ha He Hb c A1 A2 E L V I.
  rewrite (until_rep e stop G Ha He c _ (A2 ++ X ++ B)) by (apply valid_inX; exact V).
  rewrite (until_rep e stop G Ha He c _ (A2 ++ Y ++ B)) by (apply valid_inY; exact V).
  destruct (scan stop A2 Hb) as [(a1 & x & a2 & -> & -> & -> & -> & -> & _)|(-> & -> & -> & -> & _)].
  - apply scan_in; [exact E|exact I].
  - apply scan_out. exact E.
Qed.

Lemma ok_until1 m z e stop : good (rep1 e) = true -> stops_at_ascii stop -> matches_unless e stop -> blind stop ->
  ok m z (scan_zones z) (rep1 e).
Proof.
  intros G Ha He Hb c A1 A2 E L V I.
  rewrite (until_rep1 e stop G Ha He c _ (A2 ++ X ++ B)) by (apply valid_inX; exact V).
  rewrite (until_rep1 e stop G Ha He c _ (A2 ++ Y ++ B)) by (apply valid_inY; exact V).
  destruct (scan stop A2 Hb) as [(a1 & x & a2 & -> & -> & -> & -> & -> & _)|(-> & -> & -> & -> & _)].
  - destruct a1 as [|y a1]; [constructor|]. apply scan_in; [exact E|exact I].
  - pose proof (scan_out stop (scan_zones z) A1 A2 E) as S.
    destruct X_head as (x & t & Ex & _). destruct Y_head as (y & u & Ey & _).
    destruct (A2 ++ X ++ until stop B) as [|x1 t1] eqn:E1; [rewrite Ex in E1; destruct A2; discriminate|].
    destruct (A2 ++ Y ++ until stop B) as [|x2 t2] eqn:E2; [rewrite Ey in E2; destruct A2; discriminate|]. exact S.
Qed.

(** A stop that comes at every blank and newline *)
Lemma ok_before m z e stop : good (rep1 e) = true -> stops_at_ascii stop -> matches_unless e stop ->
  (forall x a, stop (x :: a ++ X ++ B) = stop (x :: a ++ Y ++ B)) -> (forall x t, is_break x = true -> stop (x :: t) = true) -> z <> ZE ->
  ok m z (match z with ZP => zone1 ZP | _ => zone1 ZK end) (rep1 e).
Proof.
  intros G Ha He Hl Hs Hz c A1 A2 E L V I.
  rewrite (until_rep1 e stop G Ha He c _ (A2 ++ X ++ B)) by (apply valid_inX; exact V).
  rewrite (until_rep1 e stop G Ha He c _ (A2 ++ Y ++ B)) by (apply valid_inY; exact V).
  destruct (in_ends z A1 A2 E I Hz) as (a & y0 & Ea & Hy0).
  destruct (Swap.first_stop stop (X ++ B) A2) as [(a1 & x & a2 & Ea1 & H1 & H2)|H].
  2: { specialize (H a y0 [] Ea). rewrite Hs in H by exact Hy0. discriminate. }
  rewrite Ea1, <- !app_assoc. cbn [app]. destruct (Swap.until_in stop a1 x (a2 ++ X ++ B) H1 H2) as [-> ->].
  destruct (Swap.until_in stop a1 x (a2 ++ Y ++ B)) as [-> ->].
  { rewrite <- Hl. exact H1. }
  { intros b y d Ed. specialize (H2 b y d Ed). specialize (Hl y (d ++ x :: a2)). rewrite <- !app_assoc in Hl. cbn [app] in Hl. congruence. }
  destruct a1 as [|y a1]; [constructor|].
  change (x :: a2 ++ X ++ B) with ((x :: a2) ++ X ++ B). change (x :: a2 ++ Y ++ B) with ((x :: a2) ++ Y ++ B). rewrite <- app_length.
  assert (E' : A = (A1 ++ y :: a1) ++ x :: a2) by (rewrite <- app_assoc; cbn [app]; rewrite E, Ea1; reflexivity).
  destruct z; [| | |congruence].
  - apply (sim_here _ ZP); [exact E'| |reflexivity]. cbn [inz].
    destruct (in_P_ends A1 A2 E I) as (b & w & Eb & Hw). rewrite Ea1 in Eb. apply app_eq_app in Eb.
    destruct Eb as (l & [[E3 E4]|[E3 E4]]).
    + destruct l as [|l0 l]; [cbn [app] in E4; rewrite <- E4; cbn [length]; lia|]. exfalso.
      injection E4 as <- ->. specialize (H2 b w l E3). rewrite Hs in H2 by exact Hw. discriminate.
    + rewrite E4, app_length. cbn [length]. lia.
  - apply (sim_here _ ZK); [exact E'| |reflexivity]. cbn [inz] in *. split; [discriminate|]. rewrite <- I, Ea1, app_length. cbn [length]. lia.
  - apply (sim_here _ ZK); [exact E'| |reflexivity]. cbn [inz] in *. split; [discriminate|]. destruct I as [_ I]. rewrite Ea1, app_length in I. lia.
Qed.

Lemma plain_not_newline x t : plain_byte x = true -> newline_here (x :: t) = false.
Proof. intros H. apply plain_byte_spec in H. apply H. Qed.

Lemma plain_not_continues x t : plain_byte x = true -> continues (x :: t) = false.
Proof.
  intros H. destruct (continues (x :: t)) eqn:E; [|reflexivity]. apply continues_ascii in E. apply plain_byte_spec in H.
  destruct H as (_ & _ & H & _). congruence.
Qed.

Lemma drop_blanks a w s : argument_word w ->
  (drop_while is_blank (a ++ w ++ s) = w ++ s /\ Forall (fun c => is_blank c = true) a) \/
  (exists a1 x a2, a = a1 ++ x :: a2 /\ Forall (fun c => is_blank c = true) a1 /\ is_blank x = false /\
    drop_while is_blank (a ++ w ++ s) = x :: a2 ++ w ++ s).
Proof.
  intros ((_ & Hne & Hw & _) & _). induction a as [|x a IH]; cbn [app drop_while].
  - left. split; [|constructor]. destruct w as [|x w]; [congruence|]. inversion Hw as [|? ? Hx _]. subst.
    apply plain_byte_spec in Hx. destruct Hx as [Hx _]. cbn [app drop_while]. rewrite Hx. reflexivity.
  - destruct (is_blank x) eqn:Ex.
    + destruct IH as [[-> H]|(a1 & y & a2 & -> & H1 & H2 & ->)].
      * left. split; [reflexivity|]. constructor; assumption.
      * right. exists (x :: a1), y, a2. repeat split; auto.
    + right. exists [], x, a. repeat split; auto.
Qed.

Lemma continues_blind x a : continues (x :: a ++ X ++ B) = continues (x :: a ++ Y ++ B).
Proof.
  unfold continues. cbn [cont_rest]. destruct (x =? BSLASH)%N; [|reflexivity].
  destruct X_head as (x0 & t0 & Ex & Hx0 & _). destruct Y_head as (y0 & u0 & Ey & Hy0 & _).
  destruct (drop_blanks a X B HX) as [[-> Ha]|(a1 & y & a2 & -> & Ha1 & Hy & ->)].
  - destruct (drop_blanks a Y B HY) as [[-> _]|(a1 & y & a2 & -> & _ & Hy & _)].
    + assert (K1 : strip_newline (X ++ B) = None) by (apply strip_newline_none; rewrite Ex; apply plain_not_newline; exact Hx0).
      assert (K2 : strip_newline (Y ++ B) = None) by (apply strip_newline_none; rewrite Ey; apply plain_not_newline; exact Hy0).
      rewrite K1, K2. reflexivity.
    + apply Forall_app in Ha. destruct Ha as [_ Ha]. inversion Ha. congruence.
  - assert (E : drop_while is_blank ((a1 ++ y :: a2) ++ Y ++ B) = y :: a2 ++ Y ++ B).
    { clear - Ha1 Hy. induction a1 as [|z a1 IH]; cbn [app drop_while]; [rewrite Hy; reflexivity|]. inversion Ha1. rewrite H1. apply IH. assumption. }
    rewrite E. pose proof (strip_newline_none (y :: a2 ++ X ++ B)) as N1. pose proof (strip_newline_none (y :: a2 ++ Y ++ B)) as N2.
    cbn [newline_here] in N1, N2.
    destruct (strip_newline (y :: a2 ++ X ++ B)) as [[n1 s1]|], (strip_newline (y :: a2 ++ Y ++ B)) as [[n2 s2]|]; try reflexivity; exfalso.
    + apply proj1 in N2. specialize (N2 eq_refl). apply proj2 in N1. specialize (N1 N2). discriminate.
    + apply proj1 in N1. specialize (N1 eq_refl). apply proj2 in N2. specialize (N2 N1). discriminate.
Qed.

Lemma blind_newline : blind newline_here.
Proof. split; [apply plain_not_newline|reflexivity]. Qed.

Lemma blind_word : blind word_stop.
Proof.
  split.
  - intros x t H. unfold word_stop. rewrite (plain_not_newline x t H). cbn [orb is_nil gap_here].
    rewrite (plain_not_continues x t H). apply plain_byte_spec in H. destruct H as [-> _]. reflexivity.
  - intros x a. unfold word_stop. cbn [newline_here is_nil gap_here]. rewrite (continues_blind x a). reflexivity.
Qed.

Lemma blind_chunk : blind chunk_stop.
Proof.
  split.
  - intros x t H. unfold chunk_stop. rewrite (plain_not_newline x t H), (plain_not_continues x t H). reflexivity.
  - intros x a. unfold chunk_stop. cbn [newline_here]. rewrite (continues_blind x a). reflexivity.
Qed.

Lemma blind_quote q : (q = DQUOTE \/ q = SQUOTE) -> blind (quote_stop q).
Proof.
  intros Hq. split; [|reflexivity]. intros x t H. cbn [quote_stop]. apply plain_byte_spec in H. destruct H as (_ & _ & H1 & H2 & H3 & H4 & H5).
  assert (E1 : (q =? x)%N = false) by (apply N.eqb_neq; intros <-; destruct Hq; subst q; congruence).
  assert (E2 : (BSLASH =? x)%N = false) by (apply N.eqb_neq; congruence).
  assert (E3 : (0 =? x)%N = false) by (apply N.eqb_neq; congruence).
  assert (E4 : (31 =? x)%N = false) by (apply N.eqb_neq; congruence).
  rewrite E1, E2, E3, E4. reflexivity.
Qed.

Lemma word_stop_break x t : is_break x = true -> word_stop (x :: t) = true.
Proof.
  unfold is_break, Swap.is_break, word_stop. intros H. cbn [newline_here is_nil gap_here]. apply orb_true_iff in H.
  destruct H as [H|H]; rewrite H, ?orb_true_r; reflexivity.
Qed.

Lemma label_stop_break x t : is_break x = true -> label_stop (x :: t) = true.
Proof.
  unfold is_break, Swap.is_break, label_stop. intros H. cbn [newline_here blank_here]. apply orb_true_iff in H.
  destruct H as [H|H]; rewrite H, ?orb_true_r; reflexivity.
Qed.

Definition word_scan (z : zone) : zset := match z with ZP => zone1 ZP | ZS => zone1 ZK | ZK => zone1 ZK | ZE => zempty end.

Lemma ok_any_whitespace m z : ok m z (word_scan z) (Call R_any_whitespace).
Proof.
  apply ok_call. destruct z.
  4: { apply (ok_until1 m ZE _ word_stop); [reflexivity|exact word_stop_ascii|exact word_unless|exact blind_word]. }
  all: match goal with |- ok ?m ?z _ _ => apply (ok_before m z _ word_stop) end;
    [reflexivity|exact word_stop_ascii|exact word_unless|apply blind_word|apply word_stop_break|discriminate].
Qed.

Lemma ok_any_equals m z : z <> ZE -> ok m z (word_scan z) (Call R_any_equals).
Proof.
  intros Hz. apply ok_call. destruct z; [| | |congruence];
    match goal with |- ok m ?z _ _ => apply (ok_before m z _ label_stop) end;
    (reflexivity || exact label_stop_ascii || exact label_unless || apply label_stop_break || discriminate).
Qed.

Lemma ok_any_content m z : ok m z (scan_zones z) (Call R_any_content).
Proof. apply ok_call. apply (ok_until1 m z _ chunk_stop); [reflexivity|exact chunk_stop_ascii|exact chunk_unless|exact blind_chunk]. Qed.

(** A comment before the instruction ends before it. *)
Lemma ok_comment m z : ok m z (match z with ZP => zone1 ZP | ZK => zone1 ZK | _ => zempty end) (Call R_comment).
Proof.
  apply ok_call. intros c A1 A2 E L V I.
  change (snd (grammar R_comment)) with (Seq (Str [HASH]) not_newline_rep). rewrite !run_seq by reflexivity.
  rewrite !class_str. destruct A2 as [|x A2].
  - cbn [app]. destruct X_head as (x & t & -> & _ & Hx). destruct Y_head as (y & u & -> & _ & Hy). cbn [app].
    assert (E1 : (HASH =? x)%N = false) by (apply N.eqb_neq; intros <-; apply Hx; cbn; auto).
    assert (E2 : (HASH =? y)%N = false) by (apply N.eqb_neq; intros <-; apply Hy; cbn; auto).
    rewrite E1, E2. constructor.
  - cbn [app]. destruct (HASH =? x)%N eqn:Ex; [|constructor]. apply N.eqb_eq in Ex. subst x.
    rewrite valid_utf8_cons_ascii in V by reflexivity. unfold not_newline_rep.
    rewrite (until_rep (Seq (NegPred NEWLINE) AnyChar) newline_here eq_refl newline_byte_ascii Swap.newline_unless) by (apply valid_inX; exact V).
    rewrite (until_rep (Seq (NegPred NEWLINE) AnyChar) newline_here eq_refl newline_byte_ascii Swap.newline_unless) by (apply valid_inY; exact V).
    cbn [app].
    replace (length A1 + 1) with (length (A1 ++ [HASH])) by (rewrite app_length; reflexivity).
    assert (E' : A = (A1 ++ [HASH]) ++ A2) by (rewrite <- app_assoc; exact E).
    assert (Hn : z = ZP -> exists u n v, A2 = u ++ n :: v /\ is_newline_byte n = true /\ length K <= length v).
    { intros ->. cbn [inz] in I. destruct (in_P _ _ E ltac:(lia)) as (P2 & E2 & E3).
      destruct P2 as [|x P2]; cbn [app] in E2.
      { rewrite E2 in I. lia. }
      injection E2 as <- ->. destruct HP as (U & w & Ep & Hw & HU). rewrite Ep in E3.
      apply app_eq_app in E3. destruct E3 as (l & [[E4 E5]|[E4 E5]]).
      - destruct HU as [-> | (U0 & n & -> & Hn)].
        + symmetry in E4. apply app_eq_nil in E4. destruct E4 as [-> ->]. cbn [app] in E5. subst w. inversion Hw. discriminate.
        + destruct l as [|l0 l]; [cbn [app] in E5; rewrite <- E5 in Hw; inversion Hw; discriminate|].
          injection E5 as <- ->.
          assert (Hl : exists l', l = l' ++ [n]).
          { destruct l as [|l1 l].
            - apply app_inj_tail in E4. destruct E4 as [_ ->]. discriminate.
            - assert (Hne : l1 :: l <> []) by discriminate. destruct (exists_last Hne) as (l' & y & El). rewrite El in *.
              change (A1 ++ HASH :: l' ++ [y]) with (A1 ++ (HASH :: l') ++ [y]) in E4. rewrite app_assoc in E4. apply app_inj_tail in E4.
              destruct E4 as [_ ->]. eauto. }
          destruct Hl as (l' & ->). exists l', n, (w ++ K). split; [rewrite <- !app_assoc; reflexivity|]. split; [exact Hn|].
          rewrite app_length. lia.
      - rewrite E5 in Hw. apply Forall_app in Hw. destruct Hw as [_ Hw]. inversion Hw. discriminate. }
    assert (Hs : z <> ZS).
    { intros ->. destruct (in_S _ _ E I) as [Ek _]. destruct HK as (k0 & K1 & zz & Ek' & Hk & _). rewrite Ek' in Ek. injection Ek as <- _. discriminate. }
    destruct (scan newline_here A2 blind_newline) as [(a1 & x & a2 & -> & -> & -> & -> & -> & Hb)|(-> & -> & -> & -> & Hb)].
    + destruct z.
      * change (x :: a2 ++ X ++ B) with ((x :: a2) ++ X ++ B). change (x :: a2 ++ Y ++ B) with ((x :: a2) ++ Y ++ B).
        rewrite <- app_length. apply (sim_here _ ZP); [rewrite <- app_assoc; exact E'| |reflexivity].
        cbn [inz]. destruct (Hn eq_refl) as (u & n & v & E2 & Hnn & Hv).
        apply app_eq_app in E2. destruct E2 as (l & [[-> E4]|[-> E4]]).
        -- destruct l as [|l0 l].
           ++ cbn [app] in E4. injection E4 as <- <-. cbn [length]. lia.
           ++ injection E4 as <- ->. specialize (Hb u n l eq_refl). cbn [newline_here] in Hb. congruence.
        -- rewrite E4, app_length. cbn [length]. lia.
      * congruence.
      * apply (scan_in ZK (A1 ++ [HASH])); [exact E'|]. destruct I as [_ I]. cbn [length] in I.
        split; [destruct a1; discriminate|lia].
      * discriminate I.
    + apply scan_out. exact E'.
Qed.

(** ** The check *)

Definition zbind (f : zone -> option zset) (s : zset) : option zset :=
  let get (b : bool) z := if b then f z else Some zempty in
  match get (hasP s) ZP, get (hasS s) ZS, get (hasK s) ZK, get (hasE s) ZE with
  | Some a, Some b, Some c, Some d => Some (zunion a (zunion b (zunion c d)))
  | _, _, _, _ => None
  end.

Lemma zunion_l2 a b c : zsub a b = true -> zsub a (zunion c b) = true.
Proof. intros H. eapply zsub_trans; [exact H|apply zunion_r]. Qed.

Lemma zbind_mem f s t z : zbind f s = Some t -> zmem z s = true -> exists t', f z = Some t' /\ zsub t' t = true.
Proof.
  unfold zbind. cbv zeta. intros H M.
  destruct (if hasP s then f ZP else Some zempty) as [a|] eqn:E1; [|discriminate].
  destruct (if hasS s then f ZS else Some zempty) as [b|] eqn:E2; [|discriminate].
  destruct (if hasK s then f ZK else Some zempty) as [c|] eqn:E3; [|discriminate].
  destruct (if hasE s then f ZE else Some zempty) as [d|] eqn:E4; [|discriminate].
  injection H as <-. destruct z; cbn [zmem] in M; rewrite M in *; eexists; (split; [eassumption|]).
  - apply zunion_l.
  - apply zunion_l2. apply zunion_l.
  - apply zunion_l2. apply zunion_l2. apply zunion_l.
  - apply zunion_l2. apply zunion_l2. apply zunion_r.
Qed.

Definition may_begin (c : N) : bool := plain_byte c && negb (existsb (N.eqb c) [LBRACK; RBRACK; COMMA; HASH]).

Definition str_zones (pat : bytes) (z : zone) : option zset :=
  match pat with
  | [] => None
  | c0 :: pat' =>
    match z with
    | ZE => if may_begin c0 && negb (beqb pat [DASH; DASH]) then None else Some zempty
    | z =>
      if forallb (fun c => negb (is_break c)) pat then Some (word_zones c0 z)
      else match pat' with
           | [] => Some (class_zones (N.eqb c0) z)
           | _ => if beqb pat [CR; LF] then Some (match z with ZP => ZSet true true false false | ZK => ZSet false false true true | _ => zempty end) else None
           end
    end
  end.

Lemma no_dashes w : argument_word w -> match_str [DASH; DASH] (w ++ B) = None.
Proof.
  intros ((_ & Hn & _) & _ & _ & _ & _ & H). destruct w as [|x [|y w]]; [congruence| |].
  - cbn [app match_str]. destruct (DASH =? x)%N; [|reflexivity]. destruct B as [|b0 B']; [reflexivity|].
    destruct (DASH =? b0)%N eqn:Eb; [|reflexivity]. apply N.eqb_eq in Eb. subst b0. discriminate HBhead.
  - cbn [app match_str]. destruct (DASH =? x)%N eqn:E1; [|reflexivity]. destruct (DASH =? y)%N eqn:E2; [|reflexivity].
    apply N.eqb_eq in E1, E2. subst x y. elim (H w). reflexivity.
Qed.

Lemma head_begins x : plain_byte x = true -> ~ In x [LBRACK; RBRACK; COMMA; HASH] -> may_begin x = true.
Proof.
  intros H1 H2. unfold may_begin. rewrite H1. cbn [andb]. apply negb_true_iff. destruct (existsb (N.eqb x) _) eqn:E; [|reflexivity].
  exfalso. apply H2. apply existsb_exists in E. destruct E as (y & Hy & E). apply N.eqb_eq in E. subst y. exact Hy.
Qed.

Lemma str_zones_ok m pat z zs : str_zones pat z = Some zs -> ok m z zs (Str pat).
Proof.
  unfold str_zones. destruct pat as [|c0 pat]; [discriminate|]. intros H.
  assert (HE : z = ZE -> ok m z zs (Str (c0 :: pat))).
  { intros ->. intros c A1 A2 E L V I. cbn [inz] in I. subst A2. cbn [app]. rewrite !run_str.
    destruct (may_begin c0) eqn:Ei; cbn [andb] in H.
    - destruct (beqb (c0 :: pat) [DASH; DASH]) eqn:Eb; cbn [negb] in H; [|discriminate]. apply beqb_eq in Eb. rewrite Eb.
      rewrite (no_dashes X HX), (no_dashes Y HY). constructor.
    - destruct X_head as (x & t & -> & Hx & Hx'). destruct Y_head as (y & u & -> & Hy & Hy'). cbn [app match_str].
      pose proof (head_begins x Hx Hx'). pose proof (head_begins y Hy Hy').
      assert (E1 : (c0 =? x)%N = false) by (apply N.eqb_neq; congruence).
      assert (E2 : (c0 =? y)%N = false) by (apply N.eqb_neq; congruence).
      rewrite E1, E2. constructor. }
  destruct z; [| | |apply HE; reflexivity]; clear HE;
    (destruct (forallb _ (c0 :: pat)) eqn:Ef; [injection H as <-; match goal with |- ok m ?z _ _ => apply (ok_str m z c0 pat) end; [discriminate|exact Ef]|];
     destruct pat as [|c1 pat];
      [injection H as <-; match goal with |- ok m ?z _ _ => apply (ok_class m z (N.eqb c0)) end; [apply class_str|discriminate]|];
     destruct (beqb (c0 :: c1 :: pat) [CR; LF]) eqn:Eb; [|discriminate]; apply beqb_eq in Eb; rewrite Eb; injection H as <-;
     match goal with |- ok m ?z _ _ => apply (ok_crlf m z) end; discriminate).
Qed.

Definition insens_zones (pat : bytes) (z : zone) : option zset :=
  match pat, z with
  | [], _ | _, ZE => None
  | _ :: _, z => if forallb (fun c => negb (is_break c)) pat then Some (insens_zone pat z) else None
  end.

Lemma insens_zones_ok m pat z zs : insens_zones pat z = Some zs -> ok m z zs (Insens pat).
Proof.
  unfold insens_zones. destruct pat as [|c0 pat]; [discriminate|]. intros H.
  destruct z; try discriminate; destruct (forallb _ (c0 :: pat)) eqn:Ef; try discriminate; injection H as <-;
    match goal with |- ok m ?z _ _ => apply (ok_insens m z c0 pat) end; try discriminate; exact Ef.
Qed.

(** [prim] gives the zones of rules that are dealt with separately. *)
Fixpoint chk (prim : rule -> zone -> option zset) (n : nat) (e : expr) (z : zone) {struct n} : option zset :=
  match n with
  | O => None
  | S n' =>
    match e with
    | Str pat => str_zones pat z
    | Insens pat => insens_zones pat z
    | Range lo hi => match z with ZE => None | _ => Some (class_zones (in_range lo hi) z) end
    | AnyChar | Soi => None
    | EndOfInput => Some zempty
    | Call r => match prim r z with Some zs => Some zs | None => chk prim n' (snd (grammar r)) z end
    | NegPred e1 => match chk prim n' e1 z with Some _ => Some (zone1 z) | None => None end
    | Seq a b => match chk prim n' a z with Some s => zbind (chk prim n' b) s | None => None end
    | Alt a b =>
      match chk prim n' a z, chk prim n' b z with Some s, Some t => Some (zunion s t) | _, _ => None end
    | Opt e1 => match chk prim n' e1 z with Some s => Some (zunion (zone1 z) s) | None => None end
    | Rep e1 =>
      let step s := match zbind (chk prim n' e1) s with Some t => zunion s t | None => s end in
      let s := step (step (step (zone1 z))) in
      match zbind (chk prim n' e1) s with
      | Some t => if zsub t s && zmem z s then Some s else None
      | None => None
      end
    end
  end.

Lemma chk_sound m prim : (forall r z zs, prim r z = Some zs -> ok m z zs (Call r)) ->
  forall n e z zs, good e = true -> ascii_expr e = true -> chk prim n e z = Some zs -> ok m z zs e.
Proof.
  intros Hp. induction n as [|n IH]; [discriminate|]. intros e z zs G Ga H. cbn [chk] in H.
  destruct e as [pat|pat|lo hi| | | |r|e|a b|a b|e|e].
  - apply str_zones_ok. exact H.
  - apply insens_zones_ok. exact H.
  - destruct z; try discriminate; injection H as <-; (match goal with |- ok m ?z _ _ => apply (ok_class m z (in_range lo hi)) end); first [apply class_range|discriminate].
  - discriminate.
  - discriminate.
  - injection H as <-. intros c A1 A2 E L V I. rewrite !run_eoi.
    destruct X_head as (x & t & -> & _). destruct Y_head as (y & u & -> & _). destruct A2; constructor.
  - destruct (prim r z) eqn:Er; [injection H as <-; apply Hp; exact Er|].
    apply ok_call. apply IH; [apply good_rule|apply ascii_rule|exact H].
  - destruct (chk prim n e z) eqn:E1; [|discriminate]. injection H as <-. apply (ok_not m z z0); [exact G|].
    apply IH; [apply (good_sub _ G)|exact Ga|exact E1].
  - destruct (chk prim n a z) as [s|] eqn:E1; [|discriminate]. cbn [ascii_expr] in Ga. apply andb_true_iff in Ga.
    apply (ok_seq m z s); [exact G|apply Ga|apply IH; [apply (good_sub _ G)|apply Ga|exact E1]|].
    intros z' M. destruct (zbind_mem _ _ _ _ H M) as (t' & E2 & S). apply (ok_weaken m z' t'); [exact S|].
    apply IH; [apply (good_sub _ G)|apply Ga|exact E2].
  - destruct (chk prim n a z) as [s|] eqn:E1; [|discriminate]. destruct (chk prim n b z) as [t|] eqn:E2; [|discriminate].
    injection H as <-. cbn [ascii_expr] in Ga. apply andb_true_iff in Ga.
    apply ok_alt; [exact G| |].
    + apply (ok_weaken m z s); [apply zunion_l|]. apply IH; [apply (good_sub _ G)|apply Ga|exact E1].
    + apply (ok_weaken m z t); [apply zunion_r|]. apply IH; [apply (good_sub _ G)|apply Ga|exact E2].
  - destruct (chk prim n e z) as [s|] eqn:E1; [|discriminate]. injection H as <-.
    apply ok_opt; [exact G| |].
    + apply (ok_weaken m z s); [apply zunion_r|]. apply IH; [apply (good_sub _ G)|exact Ga|exact E1].
    + eapply zsub_mem; [apply zunion_l|apply zone1_self].
  - revert H. cbv zeta. match goal with |- context [zmem z ?t] => set (s := t) end. clearbody s.
    destruct (zbind (chk prim n e) s) as [t|] eqn:E1; [|discriminate].
    destruct (zsub t s && zmem z s) eqn:E2; [|discriminate]. intros H. injection H as <-. apply andb_true_iff in E2.
    apply ok_rep; [exact G|exact Ga| |apply E2].
    intros z' M. destruct (zbind_mem _ _ _ _ E1 M) as (t' & E3 & S). apply (ok_weaken m z' t'); [eapply zsub_trans; [exact S|apply E2]|].
    apply IH; [apply (good_sub _ G)|exact Ga|exact E3].
Qed.

Definition chk_in prim n e z (zs : zset) : bool := match chk prim n e z with Some t => zsub t zs | None => false end.

Lemma chk_weak m prim n e z zs : (forall r z zs, prim r z = Some zs -> ok m z zs (Call r)) ->
  good e = true -> ascii_expr e = true -> chk_in prim n e z zs = true -> ok m z zs e.
Proof.
  intros Hp G Ga H. unfold chk_in in H. destruct (chk prim n e z) as [t|] eqn:E; [|discriminate].
  apply (ok_weaken m z t); [exact H|]. apply (chk_sound m prim Hp n); assumption.
Qed.

(** ** Rules *)

Definition scans (r : rule) (z : zone) : option zset :=
  match r with
  | R_any_content => Some (scan_zones z)
  | R_any_whitespace => Some (word_scan z)
  | R_any_equals => match z with ZE => None | _ => Some (word_scan z) end
  | R_comment => Some (match z with ZP => zone1 ZP | ZK => zone1 ZK | _ => zempty end)
  | _ => None
  end.

Lemma scans_ok m r z zs : scans r z = Some zs -> ok m z zs (Call r).
Proof.
  destruct r; try discriminate; intros H.
  - injection H as <-. apply ok_comment.
  - injection H as <-. apply ok_any_content.
  - injection H as <-. apply ok_any_whitespace.
  - assert (Hz : z <> ZE) by (intros ->; discriminate). pose proof (ok_any_equals m z Hz) as O.
    destruct z; try discriminate; injection H as <-; exact O.
Qed.

Definition inner_zones (z : zone) : zset :=
  match z with ZP => ZSet true true true true | ZS => ZSet false true true true | ZK => ZSet false false true true | ZE => zempty end.

Lemma inner_zones_sub z z' : zmem z' (inner_zones z) = true -> zsub (inner_zones z') (inner_zones z) = true.
Proof. destruct z, z'; cbn; congruence. Qed.

Lemma ok_inner q : (q = DQUOTE \/ q = SQUOTE) -> forall m z, ok m z (inner_zones z) (Call (inner_rule q)).
Proof.
  intros Hq. assert (Ha : (q < 128)%N) by (destruct Hq; subst; reflexivity).
  assert (G : good (Seq (Rep (plain_quoted q)) (Opt (Seq (Call R_escape) (Call (inner_rule q))))) = true) by (destruct Hq; subst; reflexivity).
  assert (Ga : ascii_expr (Seq (Rep (plain_quoted q)) (Opt (Seq (Call R_escape) (Call (inner_rule q))))) = true) by (destruct Hq; subst; reflexivity).
  induction m as [m IH] using lt_wf_ind. intros z. apply ok_call. rewrite (inner_rule_body q Hq). cbn [snd].
  apply (ok_seq m z (scan_zones z)); [exact G|apply andb_true_iff in Ga; apply Ga| |].
  - apply (ok_until m z (plain_quoted q) (quote_stop q)); [destruct Hq; subst; reflexivity|apply quote_stop_ascii; exact Ha|apply quote_unless|apply blind_quote; exact Hq].
  - intros z' M. apply ok_opt; [apply (good_sub _ G)| |destruct z, z'; cbn in M |- *; congruence].
    apply (ok_seq_strict m z' (inner_zones z')); [destruct Hq; subst; reflexivity|reflexivity|reflexivity| |].
    + apply (chk_weak m scans 30 _ _ _ (scans_ok m)); [reflexivity|reflexivity|]. destruct z'; vm_compute; reflexivity.
    + intros z2 n Hn M2. apply (ok_weaken n z2 (inner_zones z2)); [|apply IH; exact Hn].
      eapply zsub_trans; [apply inner_zones_sub; exact M2|]. apply inner_zones_sub. destruct z, z'; cbn in M |- *; congruence.
Qed.

Lemma ok_breakable m : forall z, ok m z (inner_zones z) (Call R_any_breakable).
Proof.
  induction m as [m IH] using lt_wf_ind. intros z. apply ok_call. cbn [grammar snd].
  apply ok_alt; [reflexivity| |].
  - apply (ok_seq_strict m z (inner_zones z)); [reflexivity|reflexivity|reflexivity| |].
    + apply (chk_weak m scans 30 _ _ _ (scans_ok m)); [reflexivity|reflexivity|]. destruct z; vm_compute; reflexivity.
    + intros z2 n Hn M2. apply ok_opt; [reflexivity| |exact M2].
      apply (ok_weaken n z2 (inner_zones z2)); [apply inner_zones_sub; exact M2|]. apply IH. exact Hn.
  - apply (ok_seq m z (scan_zones z)); [reflexivity|reflexivity|apply ok_any_content|].
    intros z' M. apply ok_opt; [reflexivity| |destruct z, z'; cbn in M |- *; congruence].
    apply (ok_seq_strict m z' (inner_zones z')); [reflexivity|reflexivity|reflexivity| |].
    + apply (chk_weak m scans 30 _ _ _ (scans_ok m)); [reflexivity|reflexivity|]. destruct z'; vm_compute; reflexivity.
    + intros z2 n Hn M2. apply (ok_weaken n z2 (inner_zones z2)); [|apply IH; exact Hn].
      eapply zsub_trans; [apply inner_zones_sub; exact M2|]. apply inner_zones_sub. destruct z, z'; cbn in M |- *; congruence.
Qed.

Definition prims (r : rule) (z : zone) : option zset :=
  match r with
  | R_inner | R_single_quoted_inner | R_any_breakable => Some (inner_zones z)
  | r => scans r z
  end.

Lemma prims_ok m r z zs : prims r z = Some zs -> ok m z zs (Call r).
Proof.
  destruct r; try (apply scans_ok); cbn [prims]; intros H.
  - injection H as <-. apply (ok_inner DQUOTE); auto.
  - injection H as <-. apply (ok_inner SQUOTE); auto.
  - injection H as <-. apply ok_breakable.
Qed.

(** ** Runs that may leave the part before the instruction

    Some expressions can tell the words apart, but only once they have read over the
    beginning of the instruction, and then they cannot fail any more. *)

Definition zall : zset := ZSet true true true true.
Definition past (r : res) : Prop := exists q s f, r = Done q s f /\ length P < q.
Definition wsim (r r' : res) : Prop := sim zall r r' \/ past r.
Definition wok (m : nat) (z : zone) (e : expr) : Prop :=
  forall c A1 A2, A = A1 ++ A2 -> length A2 <= m -> valid_utf8 A2 = true -> inz z A2 ->
    wsim (run c e (length A1) (A2 ++ X ++ B)) (run c e (length A1) (A2 ++ Y ++ B)).
Definition steady (e : expr) : Prop := forall c p s, exists q s' f, run c e p s = Done q s' f.

Lemma zsub_all s : zsub s zall = true.
Proof. destruct s as [[] [] [] []]; reflexivity. Qed.

Lemma ok_wok m z zs e : ok m z zs e -> wok m z e.
Proof. intros H c A1 A2 E L V I. left. apply (sim_weaken zs); [apply zsub_all|]. apply H; assumption. Qed.

Lemma steady_rep e : good (Rep e) = true -> steady (Rep e).
Proof. intros G c p s. apply rep_done. exact G. Qed.

Lemma steady_opt e : good (Opt e) = true -> steady (Opt e).
Proof.
  intros G c p s. destruct (run c (Opt e) p s) as [q s' f| |] eqn:E; [eauto| |].
  - exfalso. apply (opt_not_fail c e p s G E).
  - exfalso. apply (run_total _ _ _ _ G E).
Qed.

Lemma zone_past z A1 A2 : A = A1 ++ A2 -> inz z A2 -> z = ZK \/ z = ZE -> length P < length A1.
Proof.
  intros E I Hz. apply (f_equal (@length N)) in E. unfold before in E. rewrite !app_length in E.
  destruct Hz as [-> | ->]; cbn [inz] in I; [lia|]. subst A2. cbn [length] in E.
  destruct HK as (k0 & K1 & zz & Ek & _). rewrite Ek in E. cbn [length] in E. lia.
Qed.

Lemma out_past (B1 : bytes) : length P < length A + length X + length B1.
Proof. unfold before. rewrite app_length. pose proof length_X. lia. Qed.

Lemma steady_past c e p s : steady e -> length P < p -> past (run c e p s).
Proof.
  intros Hs Hp. destruct (Hs c p s) as (q & s' & f & E). rewrite E. destruct (run_consumes _ _ _ _ _ _ _ E) as (w & _ & ->).
  exists (p + length w), s', f. split; [reflexivity|lia].
Qed.

Lemma wok_steady m z e : z = ZK \/ z = ZE -> steady e -> wok m z e.
Proof. intros Hz Hs c A1 A2 E L V I. right. apply steady_past; [exact Hs|]. apply (zone_past z A1 A2 E I Hz). Qed.

Lemma past_seq c b q s f r' : past (run c b q s) ->
  wsim (match run c b q s with Done q2 s2 f2 => Done q2 s2 (f ++ f2) | Fail => Fail | OutOfFuel => OutOfFuel end) r'.
Proof. intros (q2 & s2 & f2 & -> & H). right. exists q2, s2, (f ++ f2). auto. Qed.

Lemma wsim_seq f r r' : Forall clear f -> wsim r r' ->
  wsim (match r with Done q2 s2 f2 => Done q2 s2 (f ++ f2) | Fail => Fail | OutOfFuel => OutOfFuel end)
    (match r' with Done q2 s2 f2 => Done q2 s2 (map (move_tree g) f ++ f2) | Fail => Fail | OutOfFuel => OutOfFuel end).
Proof.
  intros F' [S|(q & s & f2 & -> & H)]; [left; apply sim_seq; assumption|]. right. eexists _, _, _. split; [reflexivity|exact H].
Qed.

Lemma wok_seq m z z1 a b : good (Seq a b) = true -> ascii_expr a = true -> ok m z z1 a ->
  (forall z', zmem z' z1 = true -> wok m z' b) -> wok m z (Seq a b).
Proof.
  intros G Ga Ha Hb c A1 A2 E L V I. rewrite !run_seq by exact G. specialize (Ha c A1 A2 E L V I).
  inversion Ha as [|A3 A4 z' f E' I' M' F' R1 R2|B1 B2 f E' F' R1 R2].
  - left. constructor.
  - symmetry in R1. assert (V' : valid_utf8 A4 = true) by (eapply valid_left; eassumption).
    assert (L' : length A4 <= m).
    { apply run_consumes in R1. destruct R1 as (w & Ew & _). apply (f_equal (@length N)) in Ew. rewrite !app_length in Ew. lia. }
    cbv beta iota. exact (wsim_seq f _ _ F' (Hb z' M' c A3 A4 E' L' V' I')).
  - cbv beta iota. left. exact (sim_seq zall f _ _ F' (sim_after zall c b B1 B2 E' (proj2 (good_sub _ G)))).
Qed.

Lemma wok_then m z a b : good (Seq a b) = true -> ascii_expr a = true -> wok m z a -> steady b -> wok m ZP b -> wok m ZS b ->
  wok m z (Seq a b).
Proof.
  intros G Ga Ha Hs Hb Hb2 c A1 A2 E L V I. rewrite !run_seq by exact G. destruct (Ha c A1 A2 E L V I) as [S|(q & s & f & -> & Hq)].
  - inversion S as [|A3 A4 z' f E' I' M' F' R1 R2|B1 B2 f E' F' R1 R2].
    + left. constructor.
    + symmetry in R1. assert (V' : valid_utf8 A4 = true) by (eapply valid_left; eassumption).
      assert (L' : length A4 <= m).
      { apply run_consumes in R1. destruct R1 as (w & Ew & _). apply (f_equal (@length N)) in Ew. rewrite !app_length in Ew. lia. }
      cbv beta iota. refine (wsim_seq f (run c b (length A3) (A4 ++ X ++ B)) (run c b (length A3) (A4 ++ Y ++ B)) F' _). destruct z'; [apply (Hb c A3 A4 E' L' V' I')|apply (Hb2 c A3 A4 E' L' V' I')| |]; right; (apply steady_past; [exact Hs|]);
        (eapply zone_past; [exact E'|exact I'|auto]).
    + cbv beta iota. left. exact (sim_seq zall f _ _ F' (sim_after zall c b B1 B2 E' (proj2 (good_sub _ G)))).
  - cbv beta iota. apply past_seq. apply steady_past; assumption.
Qed.

Lemma wok_alt m z a b : good (Alt a b) = true -> wok m z a -> wok m z b -> wok m z (Alt a b).
Proof.
  intros G Ha Hb c A1 A2 E L V I. rewrite !run_alt by exact G. destruct (Ha c A1 A2 E L V I) as [S|(q & s & f & -> & Hq)].
  - inversion S; [apply Hb; assumption|left; econstructor; eassumption|left; constructor; assumption].
  - right. eexists _, _, _. split; [reflexivity|exact Hq].
Qed.

Lemma wok_opt m e : good (Opt e) = true -> wok m ZP e -> wok m ZP (Opt e).
Proof.
  intros G He c A1 A2 E L V I. rewrite !run_opt by exact G. destruct (He c A1 A2 E L V I) as [S|(q & s & f & -> & Hq)].
  - left. inversion S; [eapply sim_here; eassumption || reflexivity|econstructor; eassumption|constructor; assumption].
  - right. eexists _, _, _. split; [reflexivity|exact Hq].
Qed.

Lemma wok_call m z r : wok m z (snd (grammar r)) -> wok m z (Call r).
Proof.
  intros H c A1 A2 E L V I. rewrite !run_call. destruct (H (rule_inner (fst (grammar r)) c) A1 A2 E L V I) as [S|(q & s & f & -> & Hq)].
  - left. inversion S as [|A3 A4 z' f E' I' M' F' R1 R2|B1 B2 f E' F' R1 R2]; [constructor| |].
    + pose proof (move_rule_tokens g (fst (grammar r)) c r (length A1) (length A3) f) as Hm.
      rewrite (moved_in _ _ E), (moved_in _ _ E') in Hm. rewrite <- Hm. econstructor; try eassumption.
      apply rule_tokens_clear; [left; eapply in_le; eassumption|left; eapply in_le; eassumption|exact F'].
    + pose proof (move_rule_tokens g (fst (grammar r)) c r (length A1) (length A + length X + length B1) f) as Hm.
      rewrite (moved_in _ _ E), moved_out in Hm. rewrite <- Hm. constructor; [assumption|].
      apply rule_tokens_clear; [left; eapply in_le; eassumption|right; lia|exact F'].
  - right. eexists _, _, _. split; [reflexivity|exact Hq].
Qed.

Lemma wok_rep m e : good (Rep e) = true -> ascii_expr e = true -> ok m ZP zall e -> ok m ZS zall e ->
  forall z, z = ZP \/ z = ZS -> wok m z (Rep e).
Proof.
  intros G Ge HeP HeS z Hz c A1 A2 E. remember (length A2) as n eqn:En. revert z Hz A1 A2 E En.
  induction n as [n IH] using lt_wf_ind. intros z Hz A1 A2 E En L V I. rewrite !run_rep by exact G.
  assert (L0 : length A2 <= m) by lia.
  assert (S : sim zall (run c e (length A1) (A2 ++ X ++ B)) (run c e (length A1) (A2 ++ Y ++ B))).
  { destruct Hz as [-> | ->]; [apply (HeP c A1 A2 E L0 V I)|apply (HeS c A1 A2 E L0 V I)]. }
  inversion S as [|A3 A4 z' f E' I' M' F' R1 R2|B1 B2 f E' F' R1 R2].
  - left. eapply sim_here; [eassumption|eassumption|destruct Hz as [-> | ->]; reflexivity].
  - symmetry in R1. assert (V' : valid_utf8 A4 = true) by (eapply valid_left; eassumption).
    pose proof (run_strict _ _ _ _ _ _ _ R1 (proj2 (good_sub _ G))) as Lt. rewrite !app_length in Lt.
    assert (Hz' : (z' = ZP \/ z' = ZS) \/ (z' = ZK \/ z' = ZE)) by (destruct z'; auto).
    destruct Hz' as [Hz'|Hz'].
    + specialize (IH (length A4) ltac:(lia) z' Hz' A3 A4 E' eq_refl ltac:(lia) V' I'). apply (wsim_seq f _ _ F') in IH.
      pose proof (rep_done c e (length A3) (A4 ++ X ++ B) G) as (q1 & s1 & f1 & D1).
      pose proof (rep_done c e (length A3) (A4 ++ Y ++ B) G) as (q2 & s2 & f2 & D2). rewrite D1, D2 in *. exact IH.
    + right. destruct (steady_past c (Rep e) (length A3) (A4 ++ X ++ B) (steady_rep e G)) as (q & s & f2 & -> & Hq).
      { apply (zone_past z' A3 A4 E' I' Hz'). }
      eexists _, _, _. split; [reflexivity|exact Hq].
  - left. pose proof (sim_after zall c (Rep e) B1 B2 E' G) as S'.
    inversion S' as [|A5 A6 z2 f2 E2 I2 M2 R3 R4|B3 B4 f2 E2 R3 R4]; [constructor| |].
    + rewrite <- map_app. econstructor; eassumption || (apply Forall_app; auto).
    + rewrite <- map_app. constructor; auto. apply Forall_app; auto.
Qed.

Lemma chk_wok m n e z : good e = true -> ascii_expr e = true -> chk_in prims n e z zall = true -> wok m z e.
Proof. intros G Ga H. eapply ok_wok. eapply chk_weak; [apply prims_ok|exact G|exact Ga|exact H]. Qed.


Lemma wok_from m : wok m ZP (Call R_from).
Proof.
  apply wok_call. cbn [grammar snd].
  apply (wok_seq m ZP (zone1 ZP)); [reflexivity|reflexivity|apply (chk_weak m prims 40 _ _ _ (prims_ok m)); reflexivity|].
  intros z1 M1. apply zone1_mem in M1. subst z1.
  apply (wok_seq m ZP (zone1 ZP)); [reflexivity|reflexivity|apply (chk_weak m prims 40 _ _ _ (prims_ok m)); reflexivity|].
  intros z1 M1. apply zone1_mem in M1. subst z1.
  apply (wok_seq m ZP (ZSet true true false false)); [reflexivity|reflexivity|apply (chk_weak m prims 40 _ _ _ (prims_ok m)); reflexivity|].
  intros z2 M2.
  apply (wok_seq m z2 (ZSet true false true false)); [reflexivity|reflexivity|apply (chk_weak m prims 40 _ _ _ (prims_ok m)); [reflexivity|reflexivity|destruct z2; vm_compute; (reflexivity || discriminate)]|].
  intros z3 M3. destruct z3; try discriminate.
  - apply (chk_wok m 40); reflexivity.
  - apply wok_steady; [auto|apply steady_opt; reflexivity].
Qed.

(** Pairs after the instruction's name *)
Lemma wok_pairs m e : good (rep1 (Seq arg_ws (Opt e))) = true -> ascii_expr e = true ->
  chk_in prims 40 (Seq arg_ws (Opt e)) ZP zall = true -> chk_in prims 40 (Seq arg_ws (Opt e)) ZS zall = true ->
  wok m ZP (rep1 (Seq arg_ws (Opt e))).
Proof.
  intros G Ga C1 C2. unfold rep1 in *.
  assert (Ga' : ascii_expr (Seq arg_ws (Opt e)) = true) by (cbn [ascii_expr] in *; exact Ga).
  destruct (good_sub _ G) as [G1 G2].
  apply (wok_seq m ZP zall); [exact G|exact Ga'|apply (chk_weak m prims 40 _ _ _ (prims_ok m)); assumption|].
  intros z2 _.
  assert (W : forall z, z = ZP \/ z = ZS -> wok m z (Rep (Seq arg_ws (Opt e)))).
  { apply wok_rep; [exact G2|exact Ga'| |]; apply (chk_weak m prims 40 _ _ _ (prims_ok m)); assumption. }
  destruct z2; [apply W; auto|apply W; auto| |]; (apply wok_steady; [auto|apply steady_rep; exact G2]).
Qed.

Lemma wok_env m : wok m ZP (Call R_env).
Proof.
  apply wok_call. cbn [grammar snd].
  apply (wok_seq m ZP (zone1 ZP)); [reflexivity|reflexivity|apply (chk_weak m prims 40 _ _ _ (prims_ok m)); reflexivity|].
  intros z1 M1. apply zone1_mem in M1. subst z1. apply wok_alt; [reflexivity|apply (chk_wok m 40); reflexivity|].
  apply wok_call. cbn [grammar snd]. apply wok_pairs; reflexivity.
Qed.

Lemma wok_label m : wok m ZP (Call R_label).
Proof.
  apply wok_call. cbn [grammar snd].
  apply (wok_seq m ZP (zone1 ZP)); [reflexivity|reflexivity|apply (chk_weak m prims 40 _ _ _ (prims_ok m)); reflexivity|].
  intros z1 M1. apply zone1_mem in M1. subst z1. apply wok_alt; [reflexivity|apply (chk_wok m 40); reflexivity|].
  apply wok_pairs; reflexivity.
Qed.

Lemma wok_step m : wok m ZP (Call R_step).
Proof.
  apply wok_call. cbn [grammar snd].
  apply wok_alt; [reflexivity|apply wok_from|].
  do 2 (apply wok_alt; [reflexivity|apply (chk_wok m 40); reflexivity|]).
  apply wok_alt; [reflexivity|apply wok_label|].
  do 3 (apply wok_alt; [reflexivity|apply (chk_wok m 40); reflexivity|]).
  apply wok_alt; [reflexivity|apply wok_env|apply (chk_wok m 40); reflexivity].
Qed.

Lemma wok_meta m : wok m ZP (Call R_meta_step).
Proof.
  apply wok_call. cbn [grammar snd].
  apply (wok_seq m ZP (ZSet true true false false)); [reflexivity|reflexivity|apply (chk_weak m prims 40 _ _ _ (prims_ok m)); reflexivity|].
  intros z1 M1. destruct z1; try discriminate.
  2: { apply (chk_wok m 40); reflexivity. }
  apply wok_then; [reflexivity|reflexivity| |apply steady_rep; reflexivity|apply (chk_wok m 40); reflexivity|apply (chk_wok m 40); reflexivity].
  apply wok_opt; [reflexivity|]. apply wok_alt; [reflexivity|apply wok_step|apply (chk_wok m 40); reflexivity].
Qed.

(** ** The instruction itself *)

Lemma sim_step z1 zs c a b (A1 A2 : bytes) q s f : good (Seq a b) = true ->
  sim z1 (run c a (length A1) (A2 ++ X ++ B)) (run c a (length A1) (A2 ++ Y ++ B)) ->
  run c a (length A1) (A2 ++ X ++ B) = Done q s f ->
  (forall (A3 A4 : bytes) z, q = length A3 -> s = A4 ++ X ++ B -> A = A3 ++ A4 -> inz z A4 -> zmem z z1 = true ->
    sim zs (run c b (length A3) (A4 ++ X ++ B)) (run c b (length A3) (A4 ++ Y ++ B))) ->
  sim zs (run c (Seq a b) (length A1) (A2 ++ X ++ B)) (run c (Seq a b) (length A1) (A2 ++ Y ++ B)).
Proof.
  intros G S R H. rewrite !run_seq by exact G. rewrite R in S |- *.
  remember (run c a (length A1) (A2 ++ Y ++ B)) as r' eqn:R'. clear R'.
  inversion S as [|A3 A4 z f' E' I' M' F' R1 R2|B1 B2 f' E' F' R1 R2]; subst.
  - exact (sim_seq zs f _ _ F' (H A3 A4 z eq_refl eq_refl E' I' M')).
  - exact (sim_seq zs f _ _ F' (sim_after zs c b _ _ E' (proj2 (good_sub _ G)))).
Qed.

Lemma sim_outside c a b (A1 A2 : bytes) : good (Seq a b) = true ->
  sim zempty (run c a (length A1) (A2 ++ X ++ B)) (run c a (length A1) (A2 ++ Y ++ B)) ->
  sim zempty (run c (Seq a b) (length A1) (A2 ++ X ++ B)) (run c (Seq a b) (length A1) (A2 ++ Y ++ B)).
Proof.
  intros G. rewrite !run_seq by exact G. generalize (run c a (length A1) (A2 ++ X ++ B)) (run c a (length A1) (A2 ++ Y ++ B)).
  intros r r' S. inversion S as [|A7 A8 z' f E' I' M' F' Q1 Q2|B1 B2 f E' F' Q1 Q2]; [constructor|destruct z'; discriminate|].
  exact (sim_seq zempty f _ _ F' (sim_after zempty c b B1 B2 E' (proj2 (good_sub _ G)))).
Qed.

Lemma sim_call zs c r (A1 A2 : bytes) : A = A1 ++ A2 ->
  sim zs (run (rule_inner (fst (grammar r)) c) (snd (grammar r)) (length A1) (A2 ++ X ++ B))
         (run (rule_inner (fst (grammar r)) c) (snd (grammar r)) (length A1) (A2 ++ Y ++ B)) ->
  sim zs (run c (Call r) (length A1) (A2 ++ X ++ B)) (run c (Call r) (length A1) (A2 ++ Y ++ B)).
Proof.
  intros E. rewrite !run_call. generalize (run (rule_inner (fst (grammar r)) c) (snd (grammar r)) (length A1) (A2 ++ X ++ B)).
  generalize (run (rule_inner (fst (grammar r)) c) (snd (grammar r)) (length A1) (A2 ++ Y ++ B)). intros r2 r1 S.
  inversion S as [|A3 A4 z' f E' I' M' F' Q1 Q2|B1 B2 f E' F' Q1 Q2]; [constructor| |].
  - pose proof (move_rule_tokens g (fst (grammar r)) c r (length A1) (length A3) f) as Hm.
    rewrite (moved_in _ _ E), (moved_in _ _ E') in Hm. rewrite <- Hm. econstructor; try eassumption.
      apply rule_tokens_clear; [left; eapply in_le; eassumption|left; eapply in_le; eassumption|exact F'].
  - pose proof (move_rule_tokens g (fst (grammar r)) c r (length A1) (length A + length X + length B1) f) as Hm.
    rewrite (moved_in _ _ E), moved_out in Hm. rewrite <- Hm. constructor; [assumption|].
      apply rule_tokens_clear; [left; eapply in_le; eassumption|right; lia|exact F'].
Qed.


Lemma K_zone : inz ZS K.
Proof. reflexivity. Qed.

Hypothesis HVP : valid_utf8 P = true.
Hypothesis HVK : valid_utf8 K = true.

(** The instruction at [P] reads over the word. *)
Hypothesis HR : exists q s f, run ctx0 (Opt (Alt (Call R_step) comment)) (length P) (K ++ X ++ B) = Done q s f /\ length A + length X <= q.

Lemma step_at_K : sim zempty (run ctx0 (Opt (Alt (Call R_step) comment)) (length P) (K ++ X ++ B))
  (run ctx0 (Opt (Alt (Call R_step) comment)) (length P) (K ++ Y ++ B)).
Proof.
  assert (S : sim zall (run ctx0 (Opt (Alt (Call R_step) comment)) (length P) (K ++ X ++ B))
    (run ctx0 (Opt (Alt (Call R_step) comment)) (length P) (K ++ Y ++ B))).
  { apply (chk_weak (length K) prims 40 (Opt (Alt (Call R_step) comment)) ZS zall (prims_ok _) eq_refl eq_refl eq_refl ctx0 P K eq_refl (le_n _) HVK K_zone). }
  destruct HR as (q & s & f & R & Hq). rewrite R in S.
  remember (run ctx0 (Opt (Alt (Call R_step) comment)) (length P) (K ++ Y ++ B)) as r' eqn:RY. clear RY. rewrite R.
  inversion S as [|A3 A4 z' f' E' I' M' F' Q1 Q2|B1 B2 f' E' F' Q1 Q2]; subst.
  - exfalso. pose proof (f_equal (@length N) E') as El. rewrite !app_length in El. unfold before in *. rewrite !app_length in *.
    pose proof length_X. lia.
  - constructor; auto.
Qed.

(** ** One line *)

Lemma rule_starts r p s q s' f : fst (grammar r) <> Silent -> run ctx0 (Call r) p s = Done q s' f ->
  exists f', f = [Node r p q f'].
Proof.
  intros Hk H. apply call_inv in H. destruct H as (f' & H & ->). exists f'.
  destruct (fst (grammar r)); [reflexivity|congruence|reflexivity|reflexivity].
Qed.

Lemma step_starts p s q s' f : run ctx0 (Opt (Alt (Call R_step) comment)) p s = Done q s' f ->
  Forall (fun t => t_start t = p) f.
Proof.
  intros H. apply opt_inv in H; [|reflexivity]. destruct H as [H|(_ & _ & _ & ->)]; [|constructor].
  apply alt_inv in H; [|reflexivity]. destruct H as [H|[_ H]].
  - apply call_inv in H. destruct H as (f' & H & ->). cbn [grammar fst snd rule_inner rule_tokens] in *.
    do 8 (apply alt_inv in H; [|reflexivity]; destruct H as [H|[_ H]];
      [apply rule_starts in H; [|discriminate]; destruct H as (l & ->); constructor; [reflexivity|constructor]|]).
    apply rule_starts in H; [|discriminate]; destruct H as (l & ->); constructor; [reflexivity|constructor].
  - apply rule_starts in H; [|discriminate]; destruct H as (l & ->); constructor; [reflexivity|constructor].
Qed.

Lemma K_not_blank t : take_while is_blank (K ++ t) = [] /\ drop_while is_blank (K ++ t) = K ++ t.
Proof.
  destruct HK as (k0 & K1 & z & -> & Hk & _). cbn [app take_while drop_while].
  assert (is_blank k0 = false) as ->; [|auto].
  destruct (is_blank k0) eqn:E; [|reflexivity]. unfold is_blank in E. apply orb_true_iff in E.
  destruct E as [E|E]; apply N.eqb_eq in E; subst k0; discriminate.
Qed.

Lemma blanks_before P2 : exists b P3, P2 = b ++ P3 /\ Forall (fun c => is_blank c = true) b /\
  forall t, take_while is_blank (P2 ++ K ++ t) = b /\ drop_while is_blank (P2 ++ K ++ t) = P3 ++ K ++ t.
Proof.
  induction P2 as [|x P2 IH].
  - exists [], []. split; [reflexivity|]. split; [constructor|]. intros t. apply K_not_blank.
  - destruct (is_blank x) eqn:E.
    + destruct IH as (b & P3 & -> & H1 & H2). exists (x :: b), P3. split; [reflexivity|]. split; [auto|].
      intros t. destruct (H2 t) as [H3 H4]. cbn [app take_while drop_while]. rewrite E, H3, H4. auto.
    + exists [], (x :: P2). split; [reflexivity|]. split; [constructor|]. intros t. cbn [app take_while drop_while]. rewrite E. auto.
Qed.

(** A line that begins before the instruction is read alike, or goes past its beginning; the
    line of the instruction is read alike. *)
Lemma meta_cases (A1 A2 : bytes) : A = A1 ++ A2 -> valid_utf8 A2 = true -> length K <= length A2 ->
  sim zempty (run ctx0 (Call R_meta_step) (length A1) (A2 ++ X ++ B)) (run ctx0 (Call R_meta_step) (length A1) (A2 ++ Y ++ B)) \/
  (wsim (run ctx0 (Call R_meta_step) (length A1) (A2 ++ X ++ B)) (run ctx0 (Call R_meta_step) (length A1) (A2 ++ Y ++ B)) /\
   forall q s f, run ctx0 (Call R_meta_step) (length A1) (A2 ++ X ++ B) = Done q s f ->
     Forall (fun t => t_start t <> length P) f).
Proof.
  intros E V I. destruct (in_P A1 A2 E I) as (P2 & -> & EP).
  destruct (blanks_before P2) as (b & P3 & Eb & Hb & Ht).
  assert (W : forall t, run ctx0 (Rep ws) (length A1) ((P2 ++ K) ++ t) = Done (length (A1 ++ b)) (P3 ++ K ++ t) []).
  { intros t. rewrite <- app_assoc, run_ws_star. destruct (Ht t) as [-> ->]. rewrite app_length. reflexivity. }
  destruct P3 as [|x P3].
  - left. apply sim_call; [exact E|]. cbn [grammar fst snd rule_inner].
    rewrite (run_seq ctx0 (Rep ws)) by reflexivity. rewrite (run_seq ctx0 (Rep ws)) by reflexivity. rewrite !W. cbn [app].
    replace (A1 ++ b) with P by (rewrite EP, Eb, app_nil_r; reflexivity).
    refine (sim_seq zempty [] _ _ (Forall_nil _) _). apply sim_outside; [reflexivity|]. exact step_at_K.
  - right. split; [apply (wok_meta (length (P2 ++ K)) ctx0 A1 (P2 ++ K) E (le_n _) V); cbn [inz]; rewrite Eb, !app_length; cbn [length]; lia|].
    intros q s f H. apply call_inv in H. destruct H as (f' & H & ->). cbn [grammar fst snd rule_inner rule_tokens] in *.
    apply seq_inv in H; [|reflexivity]. destruct H as (q1 & s1 & f1 & f2 & H1 & H2 & ->).
    rewrite W in H1. injection H1 as <- <- <-.
    apply seq_inv in H2; [|reflexivity]. destruct H2 as (q2 & s2 & f3 & f4 & H2 & H3 & ->).
    rewrite run_ws_star in H3. injection H3 as _ _ <-. rewrite app_nil_r. cbn [app].
    apply step_starts in H2. eapply Forall_impl; [|exact H2]. intros t Hs. cbn beta in Hs. rewrite Hs, EP, Eb.
    rewrite !app_length. cbn [length]. lia.
Qed.

(** ** The document *)

Notation line := (Seq NEWLINE (Call R_meta_step)).

Lemma starts_after c e p s q s' f t : run c e p s = Done q s' f -> In t f -> p <= t_start t.
Proof.
  intros H Ht. apply run_within in H. rewrite Forall_forall in H. specialize (H t Ht). destruct t as [r a b l].
  apply tree_within_node in H. cbn. lia.
Qed.

Lemma line_cases (A1 A2 : bytes) : A = A1 ++ A2 -> valid_utf8 A2 = true -> length K <= length A2 ->
  sim zempty (run ctx0 line (length A1) (A2 ++ X ++ B)) (run ctx0 line (length A1) (A2 ++ Y ++ B)) \/
  (wsim (run ctx0 line (length A1) (A2 ++ X ++ B)) (run ctx0 line (length A1) (A2 ++ Y ++ B)) /\
   forall q s f, run ctx0 line (length A1) (A2 ++ X ++ B) = Done q s f ->
     Forall (fun t => t_start t <> length P) f).
Proof.
  intros E V I. rewrite !(run_seq ctx0 NEWLINE) by reflexivity.
  assert (S : sim (ZSet true true false false) (run ctx0 NEWLINE (length A1) (A2 ++ X ++ B)) (run ctx0 NEWLINE (length A1) (A2 ++ Y ++ B))).
  { destruct (Nat.eq_dec (length A2) (length K)) as [I'|I'].
    - apply (chk_weak (length A2) prims 40 NEWLINE ZS (ZSet true true false false) (prims_ok _) eq_refl eq_refl eq_refl ctx0 A1 A2 E (le_n _) V I').
    - apply (chk_weak (length A2) prims 40 NEWLINE ZP (ZSet true true false false) (prims_ok _) eq_refl eq_refl eq_refl ctx0 A1 A2 E (le_n _) V). cbn [inz]. lia. }
  assert (T : forall t q s f, run ctx0 NEWLINE (length A1) t = Done q s f -> f = []).
  { intros t q s f H. rewrite run_newline in H. destruct (strip_newline t) as [[? ?]|]; [|discriminate]. injection H as _ _ <-. reflexivity. }
  destruct (run ctx0 NEWLINE (length A1) (A2 ++ X ++ B)) as [q s f| |] eqn:RX; [|left; inversion S; constructor|inversion S].
  pose proof (T _ _ _ _ RX) as Ef. subst f.
  remember (run ctx0 NEWLINE (length A1) (A2 ++ Y ++ B)) as r' eqn:RY. clear RY.
  inversion S as [|A3 A4 z f' E' I' M' F' Q1 Q2|B1 B2 f' E' F' Q1 Q2].
  - subst. assert (I2 : length K <= length A4) by (destruct z; try discriminate; cbn [inz] in I'; lia).
    assert (V' : valid_utf8 A4 = true) by (eapply valid_left; [exact RX|reflexivity|exact V]).
    destruct (meta_cases A3 A4 E' V' I2) as [Sm|[Wm Fm]].
    + left. exact (sim_seq zempty [] _ _ (Forall_nil _) Sm).
    + right. split; [exact (wsim_seq [] _ _ (Forall_nil _) Wm)|]. intros q2 s2 f2 H.
      destruct (run ctx0 (Call R_meta_step) (length A3) (A4 ++ X ++ B)) as [q3 s3 f3| |] eqn:R3; try discriminate.
      injection H as <- <- <-. apply (Fm _ _ _ eq_refl).
  - left. subst. exact (sim_seq zempty [] _ _ (Forall_nil _) (sim_after zempty ctx0 (Call R_meta_step) _ _ E' eq_refl)).
Qed.

Lemma lines_sim t : t_start t = length P -> forall A1 A2 q s f, A = A1 ++ A2 -> valid_utf8 A2 = true -> length K <= length A2 ->
  run ctx0 (Rep line) (length A1) (A2 ++ X ++ B) = Done q s f -> In t f ->
  sim zempty (run ctx0 (Rep line) (length A1) (A2 ++ X ++ B)) (run ctx0 (Rep line) (length A1) (A2 ++ Y ++ B)).
Proof.
  intros Ht A1 A2. remember (length A2) as n eqn:En. revert A1 A2 En.
  induction n as [n IH] using lt_wf_ind. intros A1 A2 En q s f E V I R Hin.
  rewrite !(run_rep ctx0 line) by reflexivity. rewrite run_rep in R by reflexivity.
  rewrite En in I. pose proof (line_cases A1 A2 E V I) as L.
  destruct (run ctx0 line (length A1) (A2 ++ X ++ B)) as [q1 s1 f1| |] eqn:R1;
    [|injection R as _ _ <-; destruct Hin|discriminate].
  remember (run ctx0 line (length A1) (A2 ++ Y ++ B)) as r' eqn:RY. clear RY.
  destruct L as [S|[W F]].
  - inversion S as [|A3 A4 z f' E' I' M' F' Q1 Q2|B1 B2 f' E' F' Q1 Q2]; [destruct z; discriminate|].
    exact (sim_seq zempty f1 _ _ F' (sim_after zempty ctx0 (Rep line) _ _ E' eq_refl)).
  - specialize (F _ _ _ eq_refl).
    destruct (run ctx0 (Rep line) q1 s1) as [q2 s2 f2| |] eqn:R2; try discriminate.
    injection R as <- <- <-. apply in_app_or in Hin. destruct Hin as [Hin|Hin].
    { rewrite Forall_forall in F. specialize (F t Hin). congruence. }
    pose proof (starts_after _ _ _ _ _ _ _ _ R2 Hin) as Hs.
    destruct W as [S|(q3 & s3 & f3 & Q & Hq)]; [|injection Q as <- <- <-; lia].
    inversion S as [|A3 A4 z f' E' I' M' F' Q1 Q2|B1 B2 f' E' F' Q1 Q2]; subst.
    + assert (Hz : (z = ZK \/ z = ZE) \/ length K <= length A4) by (destruct z; auto; cbn [inz] in I'; right; lia). destruct Hz as [Hz|I2].
      * pose proof (zone_past z A3 A4 E' I' Hz). lia.
      * assert (V' : valid_utf8 A4 = true) by (eapply valid_left; [exact R1|reflexivity|exact V]).
        pose proof (run_strict _ _ _ _ _ _ _ R1 eq_refl) as Lt. rewrite !app_length in Lt.
        pose proof (IH (length A4) ltac:(lia) A3 A4 eq_refl _ _ _ E' V' I2 R2 Hin) as S'. rewrite R2 in S'.
        exact (sim_seq zempty f1 _ _ F' S').
    + pose proof (out_past B1). lia.
Qed.

Lemma document_sim t q s f : t_start t = length P -> t_rule t <> R_EOI ->
  run ctx0 (Call R_dockerfile) 0 (A ++ X ++ B) = Done q s [Node R_dockerfile 0 q f] -> In t f ->
  sim zempty (run ctx0 (Call R_dockerfile) 0 (A ++ X ++ B)) (run ctx0 (Call R_dockerfile) 0 (A ++ Y ++ B)).
Proof.
  intros Ht Hr R Hin. apply call_inv in R. destruct R as (f' & R & Ef).
  cbn [grammar fst snd rule_inner rule_tokens wrap emits ctx0 look atom] in Ef. injection Ef as <-.
  cbn [grammar fst snd rule_inner] in R. change (rule_outer Normal ctx0) with ctx0 in R.
  change 0 with (length (@nil N)) at 1 2. apply sim_call; [reflexivity|]. cbn [grammar fst snd rule_inner]. change (rule_outer Normal ctx0) with ctx0.
  apply seq_inv in R; [|reflexivity]. destruct R as (q0 & s0 & f0 & f1 & R0 & R & ->).
  rewrite !(run_seq ctx0 Soi) by reflexivity. rewrite !run_soi. cbn [length Nat.eqb].
  rewrite run_soi in R0. cbn [Nat.eqb] in R0. injection R0 as <- <- <-. cbn [app] in Hin.
  change 0 with (length (@nil N)) in R |- *.
  refine (sim_seq zempty [] _ _ (Forall_nil _) _).
  assert (VA : valid_utf8 A = true) by (unfold before; rewrite valid_utf8_app by exact HVP; exact HVK).
  assert (IA : length K <= length A) by (unfold before; rewrite app_length; lia).
  apply seq_inv in R; [|reflexivity]. destruct R as (q1 & s1 & f2 & f3 & R1 & R & ->).
  destruct (meta_cases [] A eq_refl VA IA) as [Sm|[Wm Fm]]; [apply sim_outside; [reflexivity|exact Sm]|].
  specialize (Fm _ _ _ R1). apply in_app_or in Hin. destruct Hin as [Hin|Hin].
  { rewrite Forall_forall in Fm. specialize (Fm t Hin). congruence. }
  pose proof (starts_after _ _ _ _ _ _ _ _ R Hin) as Hs.
  destruct Wm as [S|(q3 & s3 & f4 & Q & Hq)]; [|rewrite R1 in Q; injection Q as <- <- <-; lia].
  apply (sim_step zall zempty ctx0 _ _ [] A q1 s1 f2); [reflexivity|exact S|exact R1|].
  intros A3 A4 z -> -> E' I' _.
  assert (I2 : length K <= length A4).
  { assert (Hz : (z = ZK \/ z = ZE) \/ length K <= length A4) by (destruct z; auto; cbn [inz] in I'; right; lia).
    destruct Hz as [Hz|Hz]; [|exact Hz]. pose proof (zone_past z A3 A4 E' I' Hz). lia. }
  assert (V' : valid_utf8 A4 = true) by (eapply valid_left; [exact R1|reflexivity|exact VA]).
  apply seq_inv in R; [|reflexivity]. destruct R as (q5 & s5 & f5 & f6 & R5 & R6 & ->).
  apply in_app_or in Hin. destruct Hin as [Hin|Hin].
  2: { exfalso. apply Hr. apply rule_starts in R6; [|discriminate]. destruct R6 as (l & ->). destruct Hin as [<-|[]]. reflexivity. }
  apply sim_outside; [reflexivity|]. apply (lines_sim t Ht A3 A4 _ _ _ E' V' I2 R5 Hin).
Qed.

Theorem worded_document t q f : t_start t = length P -> t_rule t <> R_EOI -> In t f ->
  run ctx0 (Call R_dockerfile) 0 (A ++ X ++ B) = Done q [] [Node R_dockerfile 0 q f] ->
  run ctx0 (Call R_dockerfile) 0 (A ++ Y ++ B) = Done (g q) [] (map (move_tree g) [Node R_dockerfile 0 q f]) /\
  Forall clear [Node R_dockerfile 0 q f].
Proof.
  intros Ht Hr Hin R. pose proof (document_sim t q [] f Ht Hr R Hin) as S. rewrite R in S.
  remember (run ctx0 (Call R_dockerfile) 0 (A ++ Y ++ B)) as r' eqn:RY. clear RY.
  inversion S as [|A3 A4 z f' E' I' M' F' Q1 Q2|B1 B2 f' E' F' Q1 Q2]; subst; [destruct z; discriminate|].
  rewrite moved_out. split; [reflexivity|exact F'].
Qed.

End WordSwap.
