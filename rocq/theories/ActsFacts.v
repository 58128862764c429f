(** Facts behind PropsActs.v: one act, and an act further to the right. *)

From Coq Require Import String Permutation.
From Verif Require Import Bytes BytesFacts Grammar Peg Result Ast Splicer Image Convert Dockerfile Enquote
  SpecImage SpecSplice SplicerFacts SpecSyntax SpecClear SpecExact SpecMove SpecParts SpecDoc SpecReword SpecArgument SpecJoin SpecChanges SpecValues SpecSteps
  SpecKeys SpecActs PartsFacts DocFacts ParseFacts SelectFacts PropsParse PropsDoc PropsEdit ParseEdit RewordDoc RewordFacts PropsJoin PropsBlocks ChangesFacts
  ValuesDoc PropsValues StepsFacts KeysDoc PropsKeys.
From Verif Require Sound Swap.
Local Open Scope nat_scope.

(** ** The name of a label *)

(** It is not empty, and its last byte is no equals sign. *)
Definition name_end (n : bytes) : Prop := exists a c, n = a ++ [c] /\ c <> EQUALS.

Section Labels.
Variable unq : bytes -> option bytes.

Lemma label_name_end p n x : label_name_at unq p n x -> ss_span x = at_ p n /\ name_end n.
Proof.
  intros [(u & v & (q & body & Hq & -> & _) & _ & _ & ->)|((Hn & Ha & _) & v & _ & ->)]; (split; [reflexivity|]).
  - exists (q :: body), q. split; [reflexivity|]. destruct Hq as [-> | ->]; discriminate.
  - destruct (exists_last Hn) as (a & c & ->). exists a, c. split; [reflexivity|]. rewrite Forall_forall in Ha.
    apply (Ha c). apply in_or_app. right. left. reflexivity.
Qed.
Lemma label_value_long p n x : label_value_at unq p n x -> ss_span x = at_ p n /\ 0 < length n.
Proof.
  intros [(u & v & (q & body & Hq & -> & _) & _ & _ & ->)|((Hn & Ha & _) & v & _ & ->)]; (split; [reflexivity|]); [cbn; lia|].
  destruct n; [congruence|cbn; lia].
Qed.
Lemma name_end_long n : name_end n -> 0 < length n.
Proof. intros (a & c & -> & _). rewrite app_length. cbn. lia. Qed.

Definition name_span (l : label) : span := ss_span (lb_name l).
Definition value_span (l : label) : span := ss_span (lb_value l).

Lemma pairs_facts p w l : spaced (label_pair_at unq) p w l ->
  (forall x, In x l -> (exists wa n wb, w = wa ++ n ++ wb /\ name_span x = at_ (p + length wa) n /\ name_end n) /\
    p <= s_start (name_span x) /\ s_start (name_span x) < s_end (name_span x) /\ s_end (name_span x) < s_start (value_span x) /\
    s_start (value_span x) < s_end (value_span x) /\ s_end (value_span x) <= p + length w) /\
  (forall x y, In x l -> In y l -> s_end (name_span x) <> s_start (name_span y) /\ s_end (name_span x) <> s_start (value_span y)).
Proof.
  induction 1 as [p|p k g w x w2 l Hg Hn Hx _ [IH1 IH2]]; [split; [intros x []|intros x y []]|].
  destruct Hx as (n & v & -> & H1 & H2 & H3). destruct (label_name_end _ _ _ H1) as [N1 N2]. destruct (label_value_long _ _ _ H2) as [V1 V2].
  pose proof (name_end_long _ N2) as N3.
  assert (Own : name_span x = at_ (p + length g) n /\ value_span x = at_ (p + length g + length n + 1) v) by (split; assumption).
  destruct Own as [O1 O2]. unfold at_ in O1, O2. rewrite !app_length in *. cbn [length] in *.
  split.
  - intros y [<-|Hy].
    + split; [exists g, n, (EQUALS :: v ++ w2); split; [rewrite <- !app_assoc; reflexivity|split; [exact O1|exact N2]]|]. rewrite O1, O2. cbn [s_start s_end]. lia.
    + destruct (IH1 y Hy) as ((wa & m & wb & -> & E1 & E2) & B). rewrite !app_length in *. split; [|lia].
      exists (g ++ (n ++ EQUALS :: v) ++ wa), m, wb. split; [rewrite <- !app_assoc; reflexivity|]. split; [|exact E2].
      rewrite E1, !app_length. cbn [length]. f_equal. lia.
  - intros y z Hy Hz. destruct Hy as [<-|Hy]; destruct Hz as [<-|Hz].
    + rewrite O1, O2. cbn [s_start s_end]. lia.
    + destruct (IH1 z Hz) as (_ & B). rewrite O1. cbn [s_start s_end]. lia.
    + destruct (IH1 y Hy) as (_ & B). rewrite O1, O2. cbn [s_start s_end]. lia.
    + apply IH2; assumption.
Qed.

Lemma label_facts p w x : label_at unq p w x ->
  (forall l, In l (label_labels x) -> exists wa n wb, w = wa ++ n ++ wb /\ name_span l = at_ (p + length wa) n /\ name_end n) /\
  (forall l m, In l (label_labels x) -> In m (label_labels x) -> s_end (name_span l) <> s_start (name_span m) /\ s_end (name_span l) <> s_start (value_span m)).
Proof.
  intros (kw & r & -> & _ & _ & [(l & (j & g1 & n & k & g2 & v & -> & _ & _ & _ & H0 & H1 & H2 & _) & El)|(pairs & g & -> & _ & H & _)]).
  - rewrite El. destruct (label_name_end _ _ _ H1) as [N1 N2]. destruct (label_value_long _ _ _ H2) as [V1 V2]. pose proof (name_end_long _ N2) as N3. split.
    + intros y [<-|[]]. exists (kw ++ g1), n, (g2 ++ v). split; [rewrite <- !app_assoc; reflexivity|]. split; [|exact N2].
      unfold name_span. rewrite N1, app_length. f_equal. lia.
    + intros y z [<-|[]] [<-|[]]. unfold name_span, value_span. rewrite N1, V1. unfold at_. cbn [s_start s_end].
      assert (0 < length g2) by (destruct g2; [congruence|cbn; lia]). lia.
  - destruct (pairs_facts _ _ _ H) as [K1 K2]. split; [|exact K2]. intros l Hl. destruct (K1 l Hl) as ((wa & n & wb & -> & E1 & E2) & _).
    exists (kw ++ wa), n, (wb ++ g). split; [rewrite <- !app_assoc; reflexivity|]. split; [|exact E2]. rewrite E1, app_length. f_equal. lia.
Qed.
End Labels.

(** ** Where things are afterwards *)

Lemma renamed_places sp v i : quotable_places (with_name sp v i) = quotable_places i.
Proof.
  assert (S : forall s, ss_span (put_string sp v s) = ss_span s).
  { intros s. unfold put_string. destruct (span_eq_dec (ss_span s) sp); [symmetry; assumption|reflexivity]. }
  destruct i as [x|x|x|x|x|x|x|x|x]; cbn [with_name quotable_places]; try reflexivity.
  - cbn [rename_arg arg_name arg_value]. rewrite S. reflexivity.
  - cbn [label_labels]. induction (label_labels x) as [|l ls IH]; [reflexivity|]. cbn [map flat_map]. rewrite IH. unfold rename_label. cbn [lb_name lb_value]. rewrite S. reflexivity.
  - cbn [env_vars]. induction (env_vars x) as [|l ls IH]; [reflexivity|]. cbn [map flat_map]. rewrite IH. unfold rename_env. cbn [ev_key ev_value]. rewrite S. reflexivity.
Qed.

Lemma act_places a i : quotable_places (act_instruction a i) = map (move_span (act_offset a)) (quotable_places i).
Proof.
  destruct a as [s|sp t v]; cbn [act_instruction]; [apply step_places|]. rewrite places_moved, renamed_places. reflexivity.
Qed.
Lemma act_placed a i : instruction_span (act_instruction a i) = move_span (act_offset a) (instruction_span i).
Proof.
  destruct a as [s|sp t v]; cbn [act_instruction]; [apply step_placed|]. destruct i; reflexivity.
Qed.

Lemma name_moved g i sp : name_place i sp -> name_place (move_instruction g i) (move_span g sp).
Proof.
  destruct i as [x|x|x|x|x|x|x|x|x]; cbn [name_place move_instruction]; intros H; try contradiction.
  - cbn [move_arg arg_name move_string ss_span]. rewrite H. reflexivity.
  - destruct H as (s & Hs & <-). eexists. split; [apply in_map; exact Hs|reflexivity].
  - destruct H as (s & Hs & <-). eexists. split; [apply in_map; exact Hs|reflexivity].
Qed.
Lemma name_reworded a b t i sp : name_place i sp -> name_place (reword_instruction a b t i) (move_span (replacement a b (length t)) sp).
Proof.
  destruct i as [x|x|x|x|x|x|x|x|x]; cbn [name_place reword_instruction]; intros H; try contradiction.
  - cbn [reword_arg arg_name]. rewrite <- H. reflexivity.
  - destruct H as (s & Hs & <-). eexists. split; [apply in_map; exact Hs|reflexivity].
  - destruct H as (s & Hs & <-). eexists. split; [apply in_map; exact Hs|reflexivity].
Qed.
Lemma name_with_value sp0 v i sp : name_place i sp -> name_place (with_value sp0 v i) sp.
Proof.
  destruct i as [x|x|x|x|x|x|x|x|x]; cbn [name_place with_value]; intros H; try contradiction; [exact H| |].
  - destruct H as (s & Hs & <-). eexists. split; [apply in_map; exact Hs|reflexivity].
  - destruct H as (s & Hs & <-). eexists. split; [apply in_map; exact Hs|reflexivity].
Qed.
Lemma name_with_name sp0 v i sp : name_place i sp -> name_place (with_name sp0 v i) sp.
Proof.
  assert (S : forall s, ss_span (put_string sp0 v s) = ss_span s).
  { intros s. unfold put_string. destruct (span_eq_dec (ss_span s) sp0); [symmetry; assumption|reflexivity]. }
  destruct i as [x|x|x|x|x|x|x|x|x]; cbn [name_place with_name]; intros H; try contradiction.
  - cbn [rename_arg arg_name]. rewrite S. exact H.
  - destruct H as (s & Hs & <-). eexists. split; [apply in_map; exact Hs|apply S].
  - destruct H as (s & Hs & <-). eexists. split; [apply in_map; exact Hs|apply S].
Qed.
Lemma value_with_name sp0 v i sp : value_place i sp -> value_place (with_name sp0 v i) sp.
Proof.
  destruct i as [x|x|x|x|x|x|x|x|x]; cbn [value_place with_name]; intros H; try contradiction; try exact H.
  - destruct H as (s & Hs & <-). eexists. split; [apply in_map; exact Hs|reflexivity].
  - destruct H as (s & Hs & <-). eexists. split; [apply in_map; exact Hs|reflexivity].
Qed.

Lemma act_value_place a i sp : value_place i sp -> value_place (act_instruction a i) (move_span (act_offset a) sp).
Proof.
  intros H. destruct a as [s|sp0 t v]; cbn [act_instruction]; [apply (step_place s); exact H|]. apply place_moved, value_with_name. exact H.
Qed.
Lemma act_name_place a i sp : name_place i sp -> name_place (act_instruction a i) (move_span (act_offset a) sp).
Proof.
  intros H. destruct a as [[c|sp0 t v]|sp0 t v]; cbn [act_instruction step_instruction].
  - destruct (changed_cases c i) as [->|[(f & f' & -> & _)|(sp0 & t & Ec & ->)]]; [apply name_moved; exact H|destruct H|].
    replace (act_offset (Step (Change c))) with (replacement (s_start sp0) (s_end sp0) (length t)) by (destruct Ec as [-> | ->]; reflexivity).
    apply name_reworded. exact H.
  - apply name_moved, name_with_value. exact H.
  - apply name_moved, name_with_name. exact H.
Qed.

Lemma act_value_kind unq before a i t v : value_text unq before i t v -> value_text unq before (act_instruction a i) t v.
Proof. destruct a as [s|]; [apply step_text_kind|]. destruct i; intros H; exact H || (destruct H; fail). Qed.
Lemma act_name_kind unq after after' a i t v : (forall x, i = ILabel x -> ~ quoted_text t -> label_over after -> label_over after') ->
  name_text unq after i t v -> name_text unq after' (act_instruction a i) t v.
Proof.
  intros K H. assert (H' : name_text unq after' i t v).
  { destruct i as [x|x|x|x|x|x|x|x|x]; try exact H. destruct H as [H|(H1 & H2 & H3 & H4 & H5)]; [left; exact H|right].
    repeat (split; [assumption|]). split; [|exact H5]. apply (K x eq_refl); [|exact H4]. intros (q & body & [-> | ->] & -> & _); apply H3; [left|right]; eexists; reflexivity. }
  destruct a as [[[ | | | ]|]|]; destruct i; exact H' || (destruct H'; fail).
Qed.

(** ** One of them *)

Section One.
Variable unq : bytes -> option bytes.
Variables (W : bytes) (d : dockerfile).
Hypothesis V : valid_utf8 W = true.
Hypothesis E : parse unq W = Ok d.

Lemma act_bounds a : can_do unq d a -> s_start (act_span a) < s_end (act_span a) /\ s_end (act_span a) <= length W /\
  on_boundaries W (act_span a) /\ valid_utf8 (act_text a) = true.
Proof.
  destruct a as [s|sp t v]; cbn [can_do act_span act_text]; [apply step_bounds; assumption|].
  intros (Vt & _ & i & Hi & Hp & _). destruct (place_bounded unq W d V E i sp Hi (name_places _ _ Hp)) as (L1 & L2 & B). auto.
Qed.

Theorem name_step sp t v : can_do unq d (NewName sp t v) ->
  let W' := firstn (s_start sp) W ++ t ++ skipn (s_end sp) W in
  valid_utf8 W' = true /\ parse unq W' = Ok (name_changed sp t v W' d).
Proof.
  intros Hc. pose proof (act_bounds _ Hc) as (L1 & L2 & Bd & Vt). cbn [act_span act_text] in *. destruct Hc as (_ & Hq & i & Hi & Hp & Hv & Hl).
  rewrite (content_is unq W d E) in *. cbv zeta. pose proof (spliced_valid W V sp t L1 L2 Bd Vt) as Eu. split; [exact Eu|]. pose proof (name_places _ _ Hp) as Hpl.
  set (A := firstn (s_start sp) W) in *. set (B := skipn (s_end sp) W) in *.
  destruct (name_replaced unq W d i sp t v A B V E Hi Hp eq_refl eq_refl Hv (Hq _) (closed_before unq W d V E i Hi Hl)) as (_ & _ & K).
  destruct (K Eu) as (l1 & l2 & d' & El & E' & Ec' & El').
  rewrite E'. f_equal. set (g := replacement (s_start sp) (s_end sp) (length t)) in *.
  assert (Away : forall j, In j (l1 ++ l2) -> with_name sp v j = j).
  { intros j Hj. apply with_name_away. exact (places_apart unq W d l1 i l2 sp j V E El Hpl Hj). }
  assert (Ei : d_instructions d' = map (fun j => move_instruction g (with_name sp v j)) (d_instructions d)).
  { rewrite El', El, map_app. cbn [map]. f_equal; [|f_equal]; apply map_ext_in; intros j Hj; rewrite Away; auto using in_or_app. }
  destruct (parse_global_args _ _ _ E) as (pre & Hpre & Ea). destruct (parse_global_args _ _ _ E') as (pre2 & Hpre2 & Ea2).
  rewrite Ei in Hpre2. apply (before_map (fun j => move_instruction g (with_name sp v j))) in Hpre; [|intros j; destruct j; reflexivity].
  pose proof (before_first_from_fun _ _ _ Hpre Hpre2) as Ep. rewrite <- Ep, args_renamed, <- Ea in Ea2.
  unfold name_changed. cbv zeta. fold g. rewrite <- Ei, <- Ea2, <- Ec'. destruct d'; reflexivity.
Qed.

Theorem one_act a : can_do unq d a ->
  valid_utf8 (act_content a W) = true /\ parse unq (act_content a W) = Ok (done a d) /\
  d_content (done a d) = act_content a W /\ d_instructions (done a d) = map (act_instruction a) (d_instructions d).
Proof.
  intros H. destruct a as [s|sp t v]; cbn [done]; [exact (one_step unq W d V E s H)|].
  destruct (name_step sp t v H) as [H1 H2]. rewrite (content_is unq W d E). split; [exact H1|]. split; [exact H2|]. split; reflexivity.
Qed.

(** ** One further to the right *)

Lemma value_past sp t v a' : can_do unq d (Step (NewValue sp t v)) -> can_do unq d a' -> s_end sp <= s_start (act_span a') ->
  can_do unq (done a' d) (Step (NewValue sp t v)).
Proof.
  intros H H' Lc. pose proof (act_bounds _ H) as (A1 & A2 & _). pose proof (act_bounds _ H') as (B1 & B2 & _). cbn [act_span step_span] in A1, A2.
  destruct (one_act a' H') as (_ & _ & Ec & Ei). destruct H as (Vt & Hq & i & Hi & Hp & Hv & Hl). rewrite (content_is unq W d E) in *.
  pose proof (place_inside unq W d V E i sp Hi (value_places _ _ Hp)) as [I1 I2].
  assert (F : forall k, k <= s_start (act_span a') -> firstn k (act_content a' W) = firstn k W) by (intros k Hk; apply text_front; lia).
  cbn [can_do can_take]. rewrite Ec, Ei, F by lia. split; [exact Vt|]. split; [exact Hq|]. exists (act_instruction a' i). split; [apply in_map; exact Hi|].
  split; [|split].
  - replace sp with (move_span (act_offset a') sp) by (apply span_below; lia). apply act_value_place. exact Hp.
  - apply act_value_kind. exact Hv.
  - rewrite act_placed. unfold move_span, act_offset. cbn [s_start]. rewrite (offset_below _ _ _ B1) by lia. rewrite F by lia. exact Hl.
Qed.

(** No act begins where the name of a label ends, if the name could be followed by this. *)
Lemma place_after x sp j y : In (ILabel x) (d_instructions d) -> name_place (ILabel x) sp -> label_over (skipn (s_end sp) W) -> s_end sp < length W ->
  In j (d_instructions d) -> j <> ILabel x -> s_start (instruction_span j) <= s_start y -> s_start y < s_end y -> s_end y <= s_end (instruction_span j) -> s_start y <> s_end sp.
Proof.
  intros Hi Hp Ho Ll Hj Hne J1 J2 J3 K. pose proof (place_inside unq W d V E _ sp Hi (name_places _ _ Hp)) as [I1 I2].
  destruct (place_bounded unq W d V E _ sp Hi (name_places _ _ Hp)) as (L1 & _).
  destruct (in_order_disjoint _ _ _ _ _ (C06_instructions_in_order unq W d V E) (in_map instruction_span _ _ Hj) (in_map instruction_span _ _ Hi)) as [Es|D].
  - apply Hne. exact (own_instruction unq W d V E j _ Hj Hi Es).
  - unfold disjoint in D. destruct D as [D|D]; [lia|]. assert (Ej : s_start (instruction_span j) = s_end sp) by lia.
    destruct (start_letter unq W d V E j Hj) as (c & r & Er & Hr). rewrite Ej in Er. rewrite Er in Ho. cbn [label_over] in Ho.
    destruct Ho as [Ho|[Ho|Ho]].
    + unfold is_blank in Ho. apply orb_prop in Ho. destruct Ho as [Ho|Ho]; apply N.eqb_eq in Ho; subst c; discriminate.
    + unfold is_newline_byte in Ho. apply orb_prop in Ho. destruct Ho as [Ho|Ho]; apply N.eqb_eq in Ho; subst c; discriminate.
    + subst c. discriminate.
Qed.

Lemma act_after x sp a' : In (ILabel x) (d_instructions d) -> name_place (ILabel x) sp -> label_over (skipn (s_end sp) W) -> can_do unq d a' ->
  s_start (act_span a') <> s_end sp.
Proof.
  intros Hi Hp Ho H' K. pose proof (act_bounds a' H') as (B1 & B2 & _).
  assert (Ll : s_end sp < length W) by lia.
  assert (Pl : forall j, In j (d_instructions d) -> j <> ILabel x -> In (act_span a') (quotable_places j) -> False).
  { intros j Hj Hne Hy. pose proof (place_inside unq W d V E j _ Hj Hy) as [J1 J2]. exact (place_after x sp j (act_span a') Hi Hp Ho Ll Hj Hne J1 B1 J2 K). }
  destruct (parsed_instruction unq W d V E _ Hi) as (p & w & (pre & post & Ew & Epp & _) & R). cbn [instruction_at] in R.
  destruct (label_facts unq p w x R) as [F1 F2]. destruct Hp as (l & Hl & El).
  assert (Own : forall j, In j (d_instructions d) -> In (act_span a') (quotable_places j) -> False).
  { intros j Hj Hy. assert (D : j = ILabel x \/ j <> ILabel x).
    { destruct (span_eq_dec (instruction_span j) (instruction_span (ILabel x))) as [Es|Es]; [left; exact (own_instruction unq W d V E j _ Hj Hi Es)|right; congruence]. }
    destruct D as [->|D]; [|exact (Pl j Hj D Hy)]. cbn [quotable_places] in Hy. apply in_flat_map in Hy. destruct Hy as (m & Hm & Hy).
    destruct (F2 l m Hl Hm) as [G1 G2]. unfold name_span, value_span in *. rewrite El in G1, G2. destruct Hy as [Hy|[Hy|[]]]; rewrite Hy in *; congruence. }
  destruct a' as [[c|sp' t v]|sp' t v]; cbn [can_do can_take act_span step_span] in *.
  - destruct c as [sp' t r|sp' t|sp' t|sp' t]; cbn [can_make change_span] in *.
    + destruct H' as (_ & f & Hf & Ef). apply (Own (IFrom f) Hf). cbn [quotable_places]. apply in_or_app. right. left. exact Ef.
    + destruct H' as (_ & f & al & Hf & Ha & Ef). apply (Own (IFrom f) Hf). cbn [quotable_places]. apply in_or_app. right. right. rewrite Ha. left. exact Ef.
    + destruct H' as (_ & _ & _ & (a & Ha) & _). rewrite (content_is unq W d E), K, <- El in Ha.
      destruct (F1 l Hl) as (wa & n & wb & -> & En & (a0 & c & -> & Hc)). unfold name_span in En. rewrite En in Ha. unfold at_ in Ha. cbn [s_end] in Ha.
      replace W with ((pre ++ wa ++ a0 ++ [c]) ++ wb ++ post) in Ha by (rewrite Ew, <- !app_assoc; reflexivity).
      replace (p + length wa + length (a0 ++ [c])) with (length (pre ++ wa ++ a0 ++ [c])) in Ha by (rewrite !app_length; lia).
      rewrite firstn_app, firstn_all, Nat.sub_diag, firstn_O, app_nil_r, !app_assoc in Ha. apply app_inj_tail in Ha. destruct Ha as [_ ->]. congruence.
    + destruct H' as (_ & _ & _ & _ & j & Hj & Hlo & J1 & J2 & _).
      assert (Hne : j <> ILabel x) by (intros ->; exact Hlo).
      exact (place_after x sp j sp' Hi (ex_intro _ l (conj Hl El)) Ho Ll Hj Hne ltac:(lia) B1 J2 K).
  - destruct H' as (_ & _ & j & Hj & Hy & _). exact (Own j Hj (value_places _ _ Hy)).
  - destruct H' as (_ & _ & j & Hj & Hy & _). exact (Own j Hj (name_places _ _ Hy)).
Qed.

Lemma name_past sp t v a' : can_do unq d (NewName sp t v) -> can_do unq d a' -> s_end sp <= s_start (act_span a') ->
  can_do unq (done a' d) (NewName sp t v).
Proof.
  intros H H' Lc. pose proof (act_bounds _ H) as (A1 & A2 & _). pose proof (act_bounds _ H') as (B1 & B2 & _). cbn [act_span step_span] in A1, A2.
  destruct (one_act a' H') as (_ & _ & Ec & Ei). destruct H as (Vt & Hq & i & Hi & Hp & Hv & Hl). rewrite (content_is unq W d E) in *.
  pose proof (place_inside unq W d V E i sp Hi (name_places _ _ Hp)) as [I1 I2].
  assert (F : forall k, k <= s_start (act_span a') -> firstn k (act_content a' W) = firstn k W) by (intros k Hk; apply text_front; lia).
  cbn [can_do]. rewrite Ec, Ei, F by lia. split; [exact Vt|]. split; [exact Hq|]. exists (act_instruction a' i). split; [apply in_map; exact Hi|].
  split; [|split].
  - replace sp with (move_span (act_offset a') sp) by (apply span_below; lia). apply act_name_place. exact Hp.
  - apply (act_name_kind unq (skipn (s_end sp) W)); [|exact Hv]. intros x -> _ Ho.
    pose proof (act_after x sp a' Hi Hp Ho H') as Ne.
    pose proof (text_nth W (act_text a') (s_start (act_span a')) (s_end (act_span a')) ltac:(lia) (s_end sp) ltac:(lia)) as K. rewrite !nth_skipn in K.
    unfold act_content. destruct (skipn (s_end sp) (firstn _ W ++ act_text a' ++ skipn _ W)) as [|c w]; [exact I|].
    destruct (skipn (s_end sp) W) as [|c' w']; [discriminate|]. cbn [hd_error] in K. injection K as <-. exact Ho.
  - rewrite act_placed. unfold move_span, act_offset. cbn [s_start]. rewrite (offset_below _ _ _ B1) by lia. rewrite F by lia. exact Hl.
Qed.

Lemma change_past c sp t v : can_make d c -> can_do unq d (NewName sp t v) -> s_end (change_span c) <= s_start sp ->
  can_make (done (NewName sp t v) d) c.
Proof.
  intros H H' Lc. pose proof (change_step unq W d V E c H) as ((A1 & A2 & _ & A4 & _) & _). pose proof (act_bounds _ H') as (B1 & B2 & _). cbn [act_span] in B1, B2.
  destruct (one_act _ H') as (_ & _ & Ec & Ei). set (s' := NewName sp t v) in *. set (lo := s_start sp) in *. set (hi := s_end sp) in *.
  assert (Below : move_span (act_offset s') (change_span c) = change_span c) by (apply span_below; cbn; fold lo hi; lia).
  assert (Quotes : forall i, not_in_quotes W (change_span c) i -> not_in_quotes (act_content s' W) (change_span c) (act_instruction s' i)).
  { intros i HQ y Hy Hr Hq. rewrite act_places in Hy. apply in_map_iff in Hy. destruct Hy as (y0 & <- & Hy).
    destruct (around_moved _ _ _ B1 _ _ _ A1 Lc Hr) as [Hr0 Ls]. apply (HQ y0 Hy Hr0).
    eapply quoted_moved; [exact B1| |exact Ls|exact Hq]. lia. }
  assert (Ll : lo <= length W) by lia.
  assert (Front : forall k, k <= lo -> firstn k (act_content s' W) = firstn k W) by (intros k Hk; apply text_front; assumption).
  assert (Same : forall x, s_end x <= lo -> text_at (act_content s' W) x = text_at W x) by (intros x Hx; apply text_same; assumption).
  destruct c as [sp0 t0 r|sp0 t0|sp0 t0|sp0 t0]; cbn [can_make change_span] in *; rewrite ?Ec, ?Ei, ?(content_is unq W d E) in *.
  - destruct H as (Ht & f & Hi & Es). split; [exact Ht|]. exists (move_from (act_offset s') f). split.
    + apply (in_map (act_instruction s')) in Hi. exact Hi.
    + cbn [move_from from_image move_string ss_span]. rewrite Es. exact Below.
  - destruct H as (Ht & f & al & Hi & Hal & Es). split; [exact Ht|]. exists (move_from (act_offset s') f), (move_string (act_offset s') al). split; [|split].
    + apply (in_map (act_instruction s')) in Hi. exact Hi.
    + cbn [move_from from_alias]. rewrite Hal. reflexivity.
    + cbn [move_string ss_span]. rewrite Es. exact Below.
  - destruct H as (HY & HX & L2 & (a & Ha) & HQ). split; [exact HY|]. rewrite Same by assumption.
    split; [exact HX|]. split; [unfold act_content; rewrite app_length, firstn_length; cbn [s' act_span]; fold lo; lia|].
    split; [exists a; rewrite Front by lia; exact Ha|].
    intros i Hi. apply in_map_iff in Hi. destruct Hi as (i0 & <- & Hi). apply Quotes, HQ, Hi.
  - destruct H as (HY & HX & Hb & Ha & i & Hi & Hl & L1 & L2 & HQ). split; [exact HY|]. rewrite Same by assumption.
    split; [exact HX|]. split; [rewrite Front by lia; exact Hb|]. split.
    + destruct (Nat.eq_dec (s_end sp0) lo) as [El|Nl].
      * exfalso. destruct H' as (_ & _ & j & Hj & Hp & Hv & _). pose proof (place_inside unq W d V E j sp Hj (name_places _ _ Hp)) as [I1 I2]. fold lo hi in I1, I2.
        destruct (in_order_disjoint _ _ _ _ _ (C06_instructions_in_order unq W d V E) (in_map instruction_span _ _ Hi) (in_map instruction_span _ _ Hj)) as [Es|D].
        -- assert (i = j) as <- by exact (own_instruction unq W d V E i j Hi Hj Es). destruct i; try (destruct Hp; fail); destruct Hl.
        -- unfold disjoint in D. destruct D as [D|D]; [|lia]. assert (s_start (instruction_span j) = lo) as Ej by lia.
           destruct (start_letter unq W d V E j Hj) as (c & r & Er & Hr). rewrite Ej, <- El in Er. rewrite Er in Ha. cbn [word_after] in Ha.
           rewrite (letter_plain c Hr) in Ha. discriminate.
      * pose proof (text_nth W t lo hi Ll (s_end sp0) ltac:(lia)) as K. rewrite !nth_skipn in K.
        unfold act_content. cbn [s' act_span act_text]. fold lo hi.
        destruct (skipn (s_end sp0) (firstn lo W ++ t ++ skipn hi W)) as [|x w]; [exact I|].
        destruct (skipn (s_end sp0) W) as [|x' w']; [discriminate|]. cbn [hd_error] in K. injection K as <-. exact Ha.
    + exists (act_instruction s' i). split; [apply in_map; exact Hi|]. rewrite act_placed.
      assert (O1 : s_start (instruction_span i) <= lo) by lia. split; [|split; [|split]].
      * destruct i; exact Hl.
      * unfold move_span, act_offset. cbn [s_start]. rewrite (offset_below _ _ _ B1) by exact O1. exact L1.
      * unfold move_span, act_offset. cbn [s_end s' act_span act_text]. fold lo hi.
        destruct (Nat.le_gt_cases (s_end (instruction_span i)) lo) as [K|K]; [rewrite (offset_below _ _ _ B1) by exact K; exact L2|].
        pose proof (offset_above lo hi (length t) B1 _ K). lia.
      * apply Quotes, HQ.
Qed.

Theorem act_kept a a' : can_do unq d a -> can_do unq d a' -> s_end (act_span a) <= s_start (act_span a') -> can_do unq (done a' d) a.
Proof.
  intros H H' L. destruct a as [[c|sp t v]|sp t v]; [|apply value_past; assumption|apply name_past; assumption].
  destruct a' as [s'|sp t v]; [exact (step_kept unq W d V E (Change c) s' H H' L)|]. apply change_past; assumption.
Qed.
End One.

(** ** Any number of them *)

Theorem acts_done unq W d : valid_utf8 W = true -> parse unq W = Ok d -> forall l b, in_order b (length W) (map act_span l) -> b <= length W ->
  (forall a, In a l -> can_do unq d a) ->
  valid_utf8 (d_content (all_done l d)) = true /\ parse unq (d_content (all_done l d)) = Ok (all_done l d) /\
  d_content (all_done l d) = firstn b W ++ replaced W b (map act_edit l) /\
  forall a, can_do unq d a -> s_end (act_span a) <= b -> can_do unq (all_done l d) a.
Proof.
  intros V E l. induction l as [|c1 l IH]; intros b Ho Hb Hc; cbn [all_done fold_right map replaced].
  - rewrite (parse_content _ _ _ E). split; [exact V|]. split; [exact E|]. split; [symmetry; apply firstn_skipn|]. auto.
  - cbn [map in_order] in Ho. destruct Ho as (L1 & L2 & L3 & Ho). destruct (IH _ Ho L3) as (V' & E' & T' & K'); [intros c H; apply Hc; right; exact H|].
    fold (all_done l d). set (D := all_done l d) in *. pose proof (Hc c1 (or_introl eq_refl)) as H1. pose proof (K' c1 H1 (le_n _)) as H1'.
    destruct (one_act unq _ D V' E' c1 H1') as (V2 & E2 & Ec & _). rewrite Ec. split; [exact V2|]. split; [exact E2|]. split.
    + unfold act_content. rewrite T'. cbn [act_edit].
      set (a := s_start (act_span c1)) in *. set (e := s_end (act_span c1)) in *.
      rewrite firstn_app, firstn_firstn, firstn_length, Nat.min_l, Nat.min_l by lia. replace (a - e) with 0 by lia. rewrite firstn_O, app_nil_r.
      rewrite skipn_app, firstn_length, (Nat.min_l e) by lia. rewrite skipn_all2 by (rewrite firstn_length; lia). rewrite Nat.sub_diag. cbn [skipn app].
      rewrite (app_assoc (firstn b W)). f_equal. unfold slice. rewrite firstn_skipn_comm. replace (b + (a - b)) with a by lia.
      rewrite <- (firstn_skipn b (firstn a W)) at 1. rewrite firstn_firstn, Nat.min_l by lia. reflexivity.
    + intros c Hc0 Lc. apply (act_kept unq _ D V' E' c c1); [apply K'; [exact Hc0|lia]|exact H1'|lia].
Qed.
