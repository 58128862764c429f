(** Unescaping gives valid text that is not longer, and leaves text without special
    characters alone. *)

From Coq Require Import ZArith.
From Verif Require Import Bytes BytesFacts Enquote.
Local Open Scope nat_scope.

Lemma cont_mod n : is_cont (128 + n mod 64)%N = true.
Proof. apply is_cont_range. pose proof (N.mod_lt n 64 ltac:(lia)) as K. generalize dependent (n mod 64)%N. intros m K. lia. Qed.

Lemma some_inj {A} (x y : A) : Some x = Some y -> x = y.
Proof. congruence. Qed.

Lemma encode_char_valid n b : encode_char n = Some b -> utf8_char b /\ length b <= 4.
Proof.
  unfold encode_char. intros H.
  destruct (n <? 128)%N eqn:E1; [apply some_inj in H; subst b; bool_hyps; split; [constructor; assumption|cbn; lia]|].
  destruct (n <? 2048)%N eqn:E2.
  { apply some_inj in H; subst b. bool_hyps. split; [|cbn; lia]. constructor; [|apply cont_mod].
    pose proof (N.div_lt_upper_bound n 64 32 ltac:(lia) ltac:(lia)). pose proof (N.div_le_lower_bound n 64 2 ltac:(lia) ltac:(lia)).
    generalize dependent (n / 64)%N. intros. lia. }
  destruct (n <? 65536)%N eqn:E3.
  { destruct (in_range 55296 57343 n) eqn:E4; [discriminate|]. apply some_inj in H; subst b. bool_hyps. split; [|cbn; lia].
    assert (Hs : (n < 55296 \/ 57343 < n)%N).
    { unfold in_range in E4. apply andb_false_iff in E4. destruct E4 as [E4|E4]; apply N.leb_gt in E4; lia. }
    pose proof (N.div_lt_upper_bound n 4096 16 ltac:(lia) ltac:(lia)) as B1.
    assert (B2 : (n / 64 = 64 * (n / 4096) + (n / 64) mod 64)%N).
    { rewrite (N.div_mod (n / 64) 64) at 1 by lia. rewrite N.div_div by lia. reflexivity. }
    pose proof (N.mod_lt (n / 64) 64 ltac:(lia)) as B3. pose proof (N.div_mod n 64 ltac:(lia)) as B4. pose proof (N.mod_lt n 64 ltac:(lia)) as B5.
    constructor; try apply cont_mod; generalize dependent (n / 4096)%N; generalize dependent ((n / 64) mod 64)%N; generalize dependent (n mod 64)%N;
      generalize dependent (n / 64)%N; intros; lia. }
  destruct (n <? 1114112)%N eqn:E5; [|discriminate]. apply some_inj in H; subst b. bool_hyps. split; [|cbn; lia].
  pose proof (N.div_lt_upper_bound n 262144 5 ltac:(lia) ltac:(lia)) as B1.
  assert (B2 : (n / 4096 = 64 * (n / 262144) + (n / 4096) mod 64)%N).
  { rewrite (N.div_mod (n / 4096) 64) at 1 by lia. rewrite N.div_div by lia. reflexivity. }
  pose proof (N.mod_lt (n / 4096) 64 ltac:(lia)) as B3. pose proof (N.div_mod n 4096 ltac:(lia)) as B4. pose proof (N.mod_lt n 4096 ltac:(lia)) as B5.
  constructor; try apply cont_mod; generalize dependent (n / 262144)%N; generalize dependent ((n / 4096) mod 64)%N; generalize dependent (n mod 4096)%N;
    generalize dependent (n / 4096)%N; intros; lia.
Qed.

Lemma digits_rest value base (A : forall c v, value c = Some v -> (c < 128)%N) n : forall acc s m rest, digits value base n acc s = Some (m, rest) ->
  exists ds, s = ds ++ rest /\ length ds = n /\ ascii_all ds = true.
Proof.
  induction n as [|n IH]; intros acc s m rest H; cbn [digits] in H.
  - injection H as _ <-. exists []. auto.
  - destruct s as [|c s]; [discriminate|]. destruct (value c) as [v|] eqn:Ev; [|discriminate].
    destruct (IH _ _ _ _ H) as (ds & -> & L & Ha). exists (c :: ds). cbn [app length]. split; [reflexivity|]. split; [lia|].
    unfold ascii_all in *. cbn [forallb]. rewrite Ha. apply andb_true_iff. split; [apply N.ltb_lt, (A c v Ev)|reflexivity].
Qed.

Lemma hex_ascii c v : hex_value c = Some v -> (c < 128)%N.
Proof.
  unfold hex_value, is_digit. destruct (in_range 48 57 c) eqn:E; [bool_hyps; lia|].
  destruct (in_range 97 102 c) eqn:E1; [bool_hyps; lia|]. destruct (in_range 65 70 c) eqn:E2; [bool_hyps; lia|discriminate].
Qed.
Lemma octal_ascii c v : octal_value c = Some v -> (c < 128)%N.
Proof. unfold octal_value. destruct (in_range 48 55 c) eqn:E; [bool_hyps; lia|discriminate]. Qed.

(** An escape sequence: at least as long, with its backslash, as what it stands for *)
Lemma unescape_one_valid s b rest : unescape_one s = Some (b, rest) ->
  exists w, s = w ++ rest /\ w <> [] /\ ascii_all w = true /\ utf8_char b /\ length b <= S (length w).
Proof.
  unfold unescape_one. destruct s as [|c t]; [discriminate|]. intros H.
  destruct ((c =? BSLASH) || (c =? DQUOTE) || (c =? SQUOTE) || (c =? BACKTICK))%bool%N eqn:E0.
  { injection H as <- <-. exists [c].
    assert (Hc : (c < 128)%N) by (bool_hyps; destruct E0 as [E0|E0]; [bool_hyps; destruct E0 as [E0|E0]; [bool_hyps; destruct E0|]|]; bool_hyps; subst; reflexivity).
    split; [reflexivity|]. split; [discriminate|]. split; [cbn; apply N.ltb_lt in Hc; rewrite Hc; reflexivity|]. split; [constructor; exact Hc|cbn; lia]. }
  repeat match type of H with
  | (if (c =? ?k)%N then Some (?x, t) else _) = _ =>
    destruct (c =? k)%N eqn:?; [bool_hyps; subst c; injection H as <- <-; eexists [_]; split; [reflexivity|]; split; [discriminate|];
      split; [reflexivity|]; split; [constructor; reflexivity|cbn; lia]|]
  end.
  cbv zeta in H.
  assert (K : forall value base n s0 acc, (forall c v, value c = Some v -> (c < 128)%N) -> 2 <= n ->
    match digits value base n acc s0 with
    | Some (m, r) => match encode_char m with Some b0 => Some (b0, r) | None => None end
    | None => None
    end = Some (b, rest) -> exists w, s0 = w ++ rest /\ ascii_all w = true /\ utf8_char b /\ length w = n /\ length b <= 4).
  { intros value base n s0 acc A Hn K. destruct (digits value base n acc s0) as [[m r]|] eqn:Ed; [|discriminate].
    destruct (encode_char m) as [b0|] eqn:Ee; [|discriminate]. injection K as <- <-. destruct (digits_rest value base A n _ _ _ _ Ed) as (ds & -> & L & Ha).
    destruct (encode_char_valid _ _ Ee) as [H1 H2]. exists ds. auto. }
  destruct (c =? 120)%N eqn:Ex; [|destruct (c =? 117)%N eqn:Eu; [|destruct (c =? 85)%N eqn:EU; [|destruct (in_range 48 55 c) eqn:Eo; [|discriminate]]]].
  1-3: apply K in H; [|apply hex_ascii|lia]; destruct H as (w & -> & Ha & Hb & Lw & L); bool_hyps; subst c; eexists (_ :: w);
    (split; [reflexivity|]); (split; [discriminate|]); (split; [cbn; exact Ha|]); (split; [exact Hb|]); cbn [length]; lia.
  apply K in H; [|apply octal_ascii|lia]. destruct H as (w & E & Ha & Hb & Lw & L). exists w.
  split; [exact E|]. split; [intros ->; discriminate|]. split; [exact Ha|]. split; [exact Hb|lia].
Qed.

Lemma unescape_valid fuel : forall q s v, (q < 128)%N -> valid_utf8 s = true -> unescape fuel q s = Some v ->
  valid_utf8 v = true /\ length v <= length s.
Proof.
  induction fuel as [fuel IH] using lt_wf_ind. intros q s v Hq Hv H.
  destruct (valid_utf8_cases s Hv) as [->|(ch & t & -> & Hch & Ht)].
  { destruct fuel; cbn [unescape] in H; injection H as <-; auto. }
  assert (Copy : forall ch, Forall (fun c => (128 <= c)%N) ch -> forall fuel v, unescape fuel q (ch ++ t) = Some v ->
    exists f' v', f' <= fuel /\ unescape f' q t = Some v' /\ v = ch ++ v').
  { clear -Hq. intros ch Hc. induction Hc as [|c ch Hc Hch IHc]; intros fuel v H; [exists fuel, v; auto|].
    destruct fuel as [|f]; [discriminate|]. cbn [app unescape] in H.
    destruct (c =? q)%N eqn:E1; [bool_hyps; lia|]. destruct (c =? BSLASH)%N eqn:E2; [bool_hyps; subst; lia|].
    destruct (unescape f q (ch ++ t)) as [v0|] eqn:E; [|discriminate]. injection H as <-.
    destruct (IHc f v0 E) as (f' & v' & Hf & Ev & ->). exists f', v'. auto. }
  destruct ch as [|c ch]; [inversion Hch|].
  destruct (c <? 128)%N eqn:Ec.
  - assert (ch = []) as -> by (bool_hyps; inversion Hch; subst; [reflexivity|lia..]).
    destruct fuel as [|f]; [discriminate|]. cbn [app unescape] in H.
    destruct (c =? q)%N; [discriminate|]. destruct (c =? BSLASH)%N.
    + destruct (unescape_one t) as [[b rest]|] eqn:Eo; [|discriminate].
      destruct (unescape_one_valid _ _ _ Eo) as (w & -> & Hne & Ha & Hb & L).
      destruct (unescape f q rest) as [v0|] eqn:E; [|discriminate]. injection H as <-.
      rewrite valid_utf8_ascii_app in Ht by exact Ha. destruct (IH f ltac:(lia) q rest v0 Hq Ht E) as [V0 L0].
      split; [rewrite valid_utf8_char_app by exact Hb; exact V0|]. cbn [app length]. rewrite !app_length. lia.
    + destruct (unescape f q t) as [v0|] eqn:E; [|discriminate]. injection H as <-.
      destruct (IH f ltac:(lia) q t v0 Hq Ht E) as [V0 L0]. split; [|cbn [app length]; lia].
      cbn [valid_utf8]. rewrite Ec. exact V0.
  - assert (Hall : Forall (fun c => (128 <= c)%N) (c :: ch)).
    { bool_hyps. inversion Hch; subst; repeat constructor; repeat match goal with K : is_cont _ = true |- _ => apply is_cont_range in K end; lia. }
    destruct fuel as [|f]; [discriminate|].
    inversion Hall as [|? ? Hc Hr]; subst. cbn [app unescape] in H. bool_hyps.
    destruct (c =? q)%N eqn:E1; [bool_hyps; lia|]. destruct (c =? BSLASH)%N eqn:E2; [bool_hyps; subst; lia|].
    destruct (unescape f q (ch ++ t)) as [v0|] eqn:E; [|discriminate]. injection H as <-.
    destruct (Copy ch Hr f v0 E) as (f' & v' & Hf & Ev & ->). destruct (IH f' ltac:(lia) q t v' Hq Ht Ev) as [V0 L0].
    split; [|cbn [app length]; rewrite !app_length; lia].
    change (c :: ch ++ v') with ((c :: ch) ++ v'). rewrite valid_utf8_char_app by exact Hch. exact V0.
Qed.

Lemma unquote_valid w v : valid_utf8 w = true -> enquote_unquote w = Some v -> valid_utf8 v = true /\ length v <= length w.
Proof.
  intros Hv H. unfold enquote_unquote in H. destruct w as [|q t]; [discriminate|].
  destruct ((q =? DQUOTE) || (q =? SQUOTE) || (q =? BACKTICK))%bool%N eqn:Eq; [|discriminate].
  assert (Hq : (q < 128)%N) by (bool_hyps; destruct Eq as [Eq|Eq]; [bool_hyps; destruct Eq|]; bool_hyps; subst; reflexivity).
  destruct (rev t) as [|l r] eqn:Er; [discriminate|]. destruct (l =? q)%N eqn:El; [|discriminate]. bool_hyps. subst l.
  assert (Et : t = rev r ++ [q]) by (rewrite <- (rev_involutive t), Er; reflexivity). subst t.
  rewrite valid_utf8_cons_ascii in Hv by exact Hq.
  assert (Hr : valid_utf8 (rev r) = true) by (apply (valid_utf8_app_l _ [q]); [exact Hv|rewrite valid_utf8_cons_ascii by exact Hq; reflexivity]).
  destruct (unescape_valid _ _ _ _ Hq Hr H) as [V L]. split; [exact V|]. cbn [length]. rewrite app_length. lia.
Qed.

(** ** Text without special characters *)
Lemma unescape_plain q s : ~ In q s -> ~ In BSLASH s -> unescape (length s) q s = Some s.
Proof.
  intros Hq Hb. induction s as [|c s IH]; [reflexivity|]. cbn [length unescape].
  destruct (c =? q)%N eqn:E1; [bool_hyps; subst; exfalso; apply Hq; left; reflexivity|].
  destruct (c =? BSLASH)%N eqn:E2; [bool_hyps; subst; exfalso; apply Hb; left; reflexivity|].
  rewrite IH; [reflexivity|intros K; apply Hq; right; exact K|intros K; apply Hb; right; exact K].
Qed.

Lemma unquote_plain q s : q = DQUOTE \/ q = SQUOTE -> ~ In q s -> ~ In BSLASH s -> enquote_unquote (q :: s ++ [q]) = Some s.
Proof.
  intros Hq H1 H2. unfold enquote_unquote. rewrite rev_app_distr. cbn [rev app]. rewrite N.eqb_refl, rev_involutive, rev_length.
  rewrite unescape_plain by assumption. destruct Hq as [-> | ->]; reflexivity.
Qed.
