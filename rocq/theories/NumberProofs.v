(** Lemmas about [ModelNumber]. *)
From Coq Require Import Reals Lra List Arith Lia NArith ZArith Ascii Bool SpecFloat.
From Flocq Require Import Core.Core IEEE754.BinarySingleNaN.
From Verif Require Import Base Num ModelText SpecText TextProofs ParserProofs B64Proofs ModelNumber SpecNumber.
Import ListNotations.
Local Open Scope nat_scope.
Local Open Scope list_scope.

(** *** The grammar *)
Lemma is_digit_true c : is_digit c = true <-> decimal_digit c.
Proof.
  unfold is_digit. destruct (digit c) as [d|] eqn:E; (split; [intros H|intros H]); try discriminate; auto.
  - apply digit_some in E. apply E.
  - apply digit_none in E. contradiction.
Qed.
Lemma is_digit_false c : is_digit c = false <-> ~ decimal_digit c.
Proof. rewrite <- is_digit_true. destruct (is_digit c); split; congruence. Qed.
Lemma digit_number c : decimal_digit c -> number_char c. Proof. intros H; left; exact H. Qed.
Lemma minus_number : number_char "-". Proof. unfold number_char. tauto. Qed.
Lemma plus_number : number_char "+". Proof. unfold number_char. tauto. Qed.
Lemma dot_number : number_char ".". Proof. unfold number_char. tauto. Qed.
Lemma e_number c : ceq c "e" || ceq c "E" = true -> number_char c.
Proof. intros H. apply orb_true_iff in H as [H|H]; apply ceq_true in H as ->; unfold number_char, decimal_digit; cbn; lia. Qed.

Lemma digits_value_eq ds : Forall decimal_digit ds -> digits_value ds = decimal_value ds.
Proof.
  unfold digits_value, decimal_value. generalize 0%N at 2 3. induction ds as [|c ds IH]; intros v H; [reflexivity|]. inversion H; subst.
  cbn [fold_left]. rewrite (digit_of c) by assumption. apply IH. assumption.
Qed.

Lemma span_local p t rest : heads (fun c => p c = false) rest -> span p (t ++ rest) = (fst (span p t), snd (span p t) ++ rest).
Proof.
  intros Hr. induction t as [|c t IH]; cbn [app span].
  - destruct rest as [|c r]; [reflexivity|]. cbn in Hr. cbn [span]. rewrite Hr. reflexivity.
  - destruct (p c); [|reflexivity]. rewrite IH. destruct (span p t). reflexivity.
Qed.
Lemma stops_digit rest : heads (fun c => ~ number_char c) rest -> heads (fun c => is_digit c = false) rest.
Proof. apply heads_impl. intros c H. apply is_digit_false. intros Hd. apply H. apply digit_number. exact Hd. Qed.

Section Local.
Context (rest : text) (Hr : heads (fun c => ~ number_char c) rest).
Lemma rest_ceq c d r : rest = c :: r -> number_char d -> ceq c d = false.
Proof. intros -> Hd. cbn in Hr. destruct (ceq c d) eqn:E; [|reflexivity]. apply ceq_true in E as ->. contradiction. Qed.
Lemma sign_local t : sign (t ++ rest) = (fst (sign t), snd (sign t) ++ rest).
Proof.
  destruct t as [|c t]; cbn [app sign].
  - destruct rest as [|c r] eqn:E; [reflexivity|]. cbn [sign]. rewrite <- E in *. rewrite (rest_ceq c "-" r E minus_number), (rest_ceq c "+" r E plus_number). rewrite E. reflexivity.
  - destruct (ceq c "-"); [reflexivity|]. destruct (ceq c "+"); reflexivity.
Qed.
Lemma digit1_local t : digit1 (t ++ rest) = match digit1 t with Some (a, b) => Some (a, b ++ rest) | None => None end.
Proof. unfold digit1. rewrite span_local by (apply stops_digit; exact Hr). destruct (span is_digit t) as [[|c a] b]; reflexivity. Qed.
Lemma mantissa_local t : mantissa (t ++ rest) = match mantissa t with Some (i, f, r) => Some (i, f, r ++ rest) | None => None end.
Proof.
  unfold mantissa. rewrite digit1_local. destruct (digit1 t) as [[i r]|].
  - destruct r as [|c r]; cbn [app].
    + destruct rest as [|c r] eqn:E; [reflexivity|]. rewrite <- E in *. rewrite (rest_ceq c "." r E dot_number), E. reflexivity.
    + destruct (ceq c "."); [|reflexivity]. rewrite span_local by (apply stops_digit; exact Hr). destruct (span is_digit r); reflexivity.
  - destruct t as [|c t]; cbn [app].
    + destruct rest as [|c r] eqn:E; [reflexivity|]. rewrite <- E in *. rewrite (rest_ceq c "." r E dot_number). reflexivity.
    + destruct (ceq c "."); [|reflexivity]. rewrite digit1_local. destruct (digit1 t) as [[? ?]|]; reflexivity.
Qed.
Lemma exponent_local t : exponent (t ++ rest) = match exponent t with Some (e, r) => Some (e, r ++ rest) | None => None end.
Proof.
  unfold exponent. destruct t as [|c t]; cbn [app].
  - destruct rest as [|c r] eqn:E; [reflexivity|]. rewrite <- E in *. destruct (ceq c "e" || ceq c "E") eqn:Ee; [|rewrite E; reflexivity].
    apply e_number in Ee. rewrite E in Hr. cbn in Hr. contradiction.
  - destruct (ceq c "e" || ceq c "E"); [|reflexivity]. rewrite sign_local. destruct (sign t) as [neg r]. cbn [fst snd]. rewrite digit1_local. destruct (digit1 r) as [[? ?]|]; reflexivity.
Qed.
Lemma float_local t : recognize_float (t ++ rest) = match recognize_float t with Some (d, r) => Some (d, r ++ rest) | None => None end.
Proof.
  unfold recognize_float. rewrite sign_local. destruct (sign t) as [neg r]. cbn [fst snd]. rewrite mantissa_local. destruct (mantissa r) as [[[i f] r']|]; [|reflexivity].
  rewrite exponent_local. destruct (exponent r') as [[e r'']|]; reflexivity.
Qed.
Lemma lower_number c d : number_char c -> ceq (to_lower c) (to_lower d) = true -> number_char d.
Proof.
  intros Hc H. apply ceq_true in H. unfold to_lower in H.
  assert (Hid : forall x, N_of_ascii (if ((65 <=? N_of_ascii x) && (N_of_ascii x <=? 90))%N then ascii_of_N (N_of_ascii x + 32) else x) =
     if ((65 <=? N_of_ascii x) && (N_of_ascii x <=? 90))%N then (N_of_ascii x + 32)%N else N_of_ascii x).
  { clear. intros x. destruct ((65 <=? N_of_ascii x) && (N_of_ascii x <=? 90))%N eqn:E; [|reflexivity]. apply andb_true_iff in E as [E1 E2]. apply N.leb_le in E1, E2. apply N_ascii_embedding. lia. }
  apply (f_equal N_of_ascii) in H. rewrite !Hid in H.
  assert (Hn : forall x, number_char x <-> (let n := N_of_ascii x in (48 <= n <= 57 \/ 65 <= n <= 90 \/ 97 <= n <= 122 \/ n = 43 \/ n = 45 \/ n = 46)%N)).
  { intros x. unfold number_char, decimal_digit.
    assert (Hch : forall y n, N_of_ascii y = n -> (N_of_ascii x = n <-> x = y)).
    { intros y n Hy. split; [|intros ->; exact Hy]. intros Hx. rewrite <- (ascii_N_embedding x), <- (ascii_N_embedding y). congruence. }
    cbv zeta. rewrite (Hch "+"%char 43%N), (Hch "-"%char 45%N), (Hch "."%char 46%N) by reflexivity. tauto. }
  rewrite Hn in *. cbv zeta in *.
  destruct ((65 <=? N_of_ascii c) && (N_of_ascii c <=? 90))%N eqn:E1; destruct ((65 <=? N_of_ascii d) && (N_of_ascii d <=? 90))%N eqn:E2;
    rewrite ?andb_true_iff, ?andb_false_iff, ?N.leb_le, ?N.leb_gt in *; lia.
Qed.
Lemma tag_local tag : Forall number_char tag -> forall t, tag_no_case tag (t ++ rest) = match tag_no_case tag t with Some r => Some (r ++ rest) | None => None end.
Proof.
  induction 1 as [|c tag Hc _ IH]; intros t; [destruct t; reflexivity|]. destruct t as [|d t]; cbn [app tag_no_case].
  - destruct rest as [|d r]; [reflexivity|]. destruct (ceq (to_lower c) (to_lower d)) eqn:E; [|reflexivity]. cbn in Hr. exfalso. apply Hr. eapply lower_number; eassumption.
  - destruct (ceq _ _); [apply IH|reflexivity].
Qed.
End Local.

Lemma tag_consumes tag : Forall number_char tag -> forall t r, tag_no_case tag t = Some r -> exists p, t = p ++ r /\ length p = length tag /\ Forall number_char p.
Proof.
  induction 1 as [|c tag Hc _ IH]; intros t r; cbn [tag_no_case]; [intros H; injection H as <-; exists []; repeat split; constructor|].
  destruct t as [|d t]; [discriminate|]. destruct (ceq (to_lower c) (to_lower d)) eqn:E; [|discriminate]. intros H. destruct (IH t r H) as (p & -> & Hl & Hp).
  exists (d :: p). split; [reflexivity|]. split; [cbn; congruence|]. constructor; [eapply lower_number; eassumption|exact Hp].
Qed.

Lemma sign_spec t neg r : sign t = (neg, r) -> exists s, t = s ++ r /\ signed neg s.
Proof.
  unfold sign. destruct t as [|c t]; [intros H; injection H as <- <-; exists []; split; [reflexivity|constructor]|].
  destruct (ceq c "-") eqn:E; [intros H; injection H as <- <-; apply ceq_true in E as ->; exists ["-"%char]; split; [reflexivity|constructor]|].
  destruct (ceq c "+") eqn:E2; [intros H; injection H as <- <-; apply ceq_true in E2 as ->; exists ["+"%char]; split; [reflexivity|constructor]|].
  intros H; injection H as <- <-. exists []. split; [reflexivity|constructor].
Qed.
Lemma span_digits t a b : span is_digit t = (a, b) -> t = a ++ b /\ digits a /\ heads (fun c => ~ decimal_digit c) b.
Proof.
  intros H. apply span_spec in H as (-> & Ha & Hb). split; [reflexivity|]. split.
  - eapply Forall_impl; [|exact Ha]. intros c. apply is_digit_true.
  - eapply heads_impl; [|exact Hb]. intros c. apply is_digit_false.
Qed.
Lemma digit1_spec t a b : digit1 t = Some (a, b) -> t = a ++ b /\ a <> [] /\ digits a.
Proof.
  unfold digit1. destruct (span is_digit t) as [[|c x] y] eqn:E; [discriminate|]. intros H; injection H as <- <-. apply span_digits in E as (-> & Ha & _).
  split; [reflexivity|]. split; [discriminate|exact Ha].
Qed.
(** what is recognised is a decimal number *)
Lemma float_spec t d r : recognize_float t = Some (d, r) -> exists s m x, t = (s ++ m ++ x) ++ r /\ signed (d_neg d) s /\
  digits (d_int d) /\ digits (d_frac d) /\ d_int d ++ d_frac d <> [] /\ pointed (d_int d) (d_frac d) m /\ scaled_by (d_exp d) x.
Proof.
  unfold recognize_float. destruct (sign t) as [neg r1] eqn:Es. apply sign_spec in Es as (s & -> & Hs).
  destruct (mantissa r1) as [[[i f] r2]|] eqn:Em; [|discriminate]. destruct (exponent r2) as [[e r3]|] eqn:Ee; [|discriminate]. intros H; injection H as <- <-. cbn [d_neg d_int d_frac d_exp].
  assert (Hm : exists m, r1 = m ++ r2 /\ digits i /\ digits f /\ i ++ f <> [] /\ pointed i f m).
  { unfold mantissa in Em. destruct (digit1 r1) as [[i' r']|] eqn:Ed.
    - apply digit1_spec in Ed as (-> & Hne & Hd). assert (Hne' : forall f : text, i' ++ f <> []) by (intros f0; destruct i'; [congruence|discriminate]).
      destruct r' as [|c r'].
      { injection Em as <- <- <-. exists i'. split; [reflexivity|]. split; [exact Hd|]. split; [constructor|]. split; [apply Hne'|]. constructor. reflexivity. }
      destruct (ceq c ".") eqn:Ec.
      + apply ceq_true in Ec as ->. destruct (span is_digit r') as [f' r''] eqn:Ef. injection Em as <- <- <-. apply span_digits in Ef as (-> & Hf & _).
        exists (i' ++ "."%char :: f'). split; [rewrite <- app_assoc; reflexivity|]. split; [exact Hd|]. split; [exact Hf|]. split; [apply Hne'|constructor].
      + injection Em as <- <- <-. exists i'. split; [reflexivity|]. split; [exact Hd|]. split; [constructor|]. split; [apply Hne'|]. constructor. reflexivity.
    - destruct r1 as [|c r1]; [discriminate|]. destruct (ceq c ".") eqn:Ec; [|discriminate]. apply ceq_true in Ec as ->. destruct (digit1 r1) as [[f' r']|] eqn:Ef; [|discriminate].
      injection Em as <- <- <-. apply digit1_spec in Ef as (-> & Hne & Hf). exists ("."%char :: f'). split; [reflexivity|]. split; [constructor|]. split; [exact Hf|]. split; [exact Hne|]. exact (pointed_some [] f'). }
  assert (Hx : exists x, r2 = x ++ r3 /\ scaled_by e x).
  { unfold exponent in Ee. destruct r2 as [|c r2]; [injection Ee as <- <-; exists []; split; [reflexivity|constructor]|].
    destruct (ceq c "e" || ceq c "E") eqn:Ec; [|injection Ee as <- <-; exists []; split; [reflexivity|constructor]].
    destruct (sign r2) as [neg2 r4] eqn:Es. apply sign_spec in Es as (s2 & -> & Hs2). destruct (digit1 r4) as [[ds r5]|] eqn:Ed; [|discriminate]. apply digit1_spec in Ed as (-> & Hne & Hd).
    injection Ee as <- <-. exists (c :: s2 ++ ds). split; [cbn; rewrite <- app_assoc; reflexivity|]. rewrite digits_value_eq by exact Hd. constructor; try assumption.
    apply orb_true_iff in Ec as [Ec|Ec]; apply ceq_true in Ec as ->; [left|right; left]; reflexivity. }
  destruct Hm as (m & -> & H1 & H2 & H3 & H4). destruct Hx as (x & -> & H5). exists s, m, x. split; [rewrite <- !app_assoc; reflexivity|]. auto 10.
Qed.

Lemma signed_chars neg s : signed neg s -> Forall number_char s.
Proof. intros []; [constructor|..]; (constructor; [|constructor]); [apply plus_number|apply minus_number]. Qed.
Lemma digits_chars d : digits d -> Forall number_char d.
Proof. intros H. eapply Forall_impl; [|exact H]. exact digit_number. Qed.
Lemma pointed_chars i f m : digits i -> digits f -> pointed i f m -> Forall number_char m.
Proof. intros Hi Hf []; [apply digits_chars, Hi|]. apply Forall_app. split; [apply digits_chars, Hi|]. constructor; [apply dot_number|apply digits_chars, Hf]. Qed.
Lemma scaled_chars k x : scaled_by k x -> Forall number_char x.
Proof.
  intros []; [constructor|]. constructor.
  - destruct H as [<-|[<-|[]]]; apply e_number; reflexivity.
  - apply Forall_app. split; [eapply signed_chars; eassumption|apply digits_chars; assumption].
Qed.

(** ... and decimal numbers are recognised *)
Lemma sign_app neg s r : signed neg s -> heads (fun c => decimal_digit c \/ c = "."%char) r -> r <> [] -> sign (s ++ r) = (neg, r).
Proof.
  intros [] Hr Hne; try reflexivity. cbn [app]. destruct r as [|c r]; [congruence|]. cbn in Hr. unfold sign.
  assert (H : c <> "-"%char /\ c <> "+"%char) by (split; intros ->; destruct Hr as [Hr|Hr]; try discriminate; unfold decimal_digit in Hr; cbn in Hr; lia).
  destruct (ceq c "-") eqn:E; [apply ceq_true in E; tauto|]. destruct (ceq c "+") eqn:E2; [apply ceq_true in E2; tauto|]. reflexivity.
Qed.
Lemma span_all_digits a b : digits a -> heads (fun c => ~ decimal_digit c) b -> span is_digit (a ++ b) = (a, b).
Proof.
  intros Ha Hb. apply span_app; [eapply Forall_impl; [|exact Ha]; intros c; apply is_digit_true|]. eapply heads_impl; [|exact Hb]. intros c. apply is_digit_false.
Qed.
Lemma digit1_app a b : a <> [] -> digits a -> heads (fun c => ~ decimal_digit c) b -> digit1 (a ++ b) = Some (a, b).
Proof. intros Hne Ha Hb. unfold digit1. rewrite span_all_digits by assumption. destruct a; [congruence|reflexivity]. Qed.
Lemma float_app neg s i f m k x : signed neg s -> digits i -> digits f -> i ++ f <> [] -> pointed i f m -> scaled_by k x ->
  recognize_float (s ++ m ++ x) = Some (mkDecimal neg i f k, []).
Proof.
  intros Hs Hi Hf Hne Hm Hx. unfold recognize_float.
  assert (Hdot : ~ decimal_digit ".") by (unfold decimal_digit; cbn; lia).
  assert (Hxh : heads (fun c => ~ decimal_digit c /\ c <> "."%char) x).
  { destruct Hx; [exact I|]. cbn. destruct H as [<-|[<-|[]]]; (split; [unfold decimal_digit; cbn; lia|discriminate]). }
  assert (Hxd : heads (fun c => ~ decimal_digit c) x) by (eapply heads_impl; [|exact Hxh]; intros c [H _]; exact H).
  assert (Hmh : heads (fun c => decimal_digit c \/ c = "."%char) (m ++ x) /\ m ++ x <> []).
  { destruct Hm; (destruct i as [|c i]; [|inversion Hi; subst; split; [left; assumption|discriminate]]).
    - subst f. cbn in Hne. congruence.
    - split; [right; reflexivity|discriminate]. }
  destruct Hmh as [Hmh Hmn]. rewrite (sign_app neg s (m ++ x) Hs Hmh Hmn).
  assert (Hman : mantissa (m ++ x) = Some (i, f, x)).
  { unfold mantissa. destruct Hm as [->|].
    - rewrite digit1_app; [|rewrite app_nil_r in Hne; exact Hne|exact Hi|exact Hxd]. destruct x as [|c x]; [reflexivity|]. cbn in Hxh.
      destruct (ceq c ".") eqn:E; [apply ceq_true in E; tauto|reflexivity].
    - rewrite <- app_assoc. cbn [app]. destruct i as [|c i].
      + cbn [app]. unfold digit1 at 1. cbn [span]. replace (is_digit ".") with false by reflexivity. replace (ceq "." ".") with true by reflexivity.
        rewrite digit1_app; [reflexivity|exact Hne|exact Hf|exact Hxd].
      + rewrite digit1_app; [|discriminate|exact Hi|exact Hdot]. replace (ceq "." ".") with true by reflexivity. rewrite span_all_digits by assumption. reflexivity. }
  rewrite Hman. destruct Hx as [|c neg2 s2 ds Hc Hs2 Hds Hd]; [reflexivity|]. cbn [exponent].
  replace (ceq c "e" || ceq c "E") with true by (destruct Hc as [<-|[<-|[]]]; reflexivity).
  rewrite (sign_app neg2 s2 ds Hs2); [|destruct ds; [congruence|inversion Hd; subst; left; assumption]|exact Hds].
  rewrite <- (app_nil_r ds) at 1. rewrite digit1_app; [|exact Hds|exact Hd|exact I]. rewrite digits_value_eq by exact Hd. reflexivity.
Qed.

(** *** The parser *)
Section Double.
Context (N : NumOps) (value : decimal -> N) (exceptions : list (text * N)).
Hypothesis Hex : Forall (fun e => fst e <> [] /\ Forall number_char (fst e)) exceptions.
Lemma double_local t rest : heads (fun c => ~ number_char c) rest ->
  nom_double value exceptions (t ++ rest) = match nom_double value exceptions t with Some (w, r) => Some (w, r ++ rest) | None => None end.
Proof.
  intros Hr. unfold nom_double. rewrite (float_local rest Hr). destruct (recognize_float t) as [[d r]|]; [reflexivity|].
  induction exceptions as [|[tag x] es IH]; [reflexivity|]. inversion Hex as [|? ? [_ He] Hes]; subst. cbn [exception fst] in *. rewrite (tag_local rest Hr tag He). destruct (tag_no_case tag t); [reflexivity|exact (IH Hes)].
Qed.
Lemma double_consumes t w r : nom_double value exceptions t = Some (w, r) -> exists p, t = p ++ r /\ p <> [] /\ Forall number_char p.
Proof.
  unfold nom_double. destruct (recognize_float t) as [[d r1]|] eqn:E.
  - intros H; injection H as <- <-. apply float_spec in E as (s & m & x & -> & Hs & Hi & Hf & Hne & Hm & Hx). exists (s ++ m ++ x). split; [reflexivity|]. split.
    + intros H. apply app_eq_nil in H as [_ H]. apply app_eq_nil in H as [H _]. destruct Hm as [E|]; [rewrite E, app_nil_r in Hne; congruence|]. apply app_eq_nil in H as [_ H]. discriminate.
    + apply Forall_app. split; [eapply signed_chars; eassumption|]. apply Forall_app. split; [eapply pointed_chars; [| |exact Hm]; assumption|eapply scaled_chars; eassumption].
  - intros H. clear E. induction exceptions as [|[tag x] es IH]; [discriminate|]. inversion Hex as [|? ? [Hn He] Hes]; subst. cbn [exception fst] in *. destruct (tag_no_case tag t) as [l|] eqn:Et; [|auto].
    injection H as <- <-. destruct (tag_consumes tag He t l Et) as (p & -> & Hl & Hp). exists p. split; [reflexivity|]. split; [|exact Hp]. intros ->. destruct tag; [congruence|discriminate].
Qed.
Lemma double_float t d r : recognize_float t = Some (d, r) -> nom_double value exceptions t = Some (value d, r).
Proof. intros H. unfold nom_double. rewrite H. reflexivity. Qed.
End Double.

(** *** The value *)
Local Open Scope R_scope.
Local Instance Hprec64' : FLX.Prec_gt_0 prec64 := eq_refl.
Local Instance Hmax64' : Prec_lt_emax prec64 emax64 := eq_refl.

Lemma powerRZ_split k : powerRZ 10 k = IZR (10 ^ Z.max k 0) / IZR (10 ^ Z.max (- k) 0).
Proof.
  destruct k as [|p|p].
  - cbn. field.
  - rewrite Z.max_l, Z.max_r by lia. cbn [powerRZ]. rewrite <- (positive_nat_Z p), <- pow_IZR, Z.pow_0_r. field.
  - replace (- Z.neg p)%Z with (Z.pos p) by reflexivity. rewrite Z.max_r, Z.max_l by lia. cbn [powerRZ]. rewrite <- (positive_nat_Z p), <- pow_IZR, Z.pow_0_r. field.
    apply pow_nonzero. lra.
Qed.

Lemma digits_app a b : digits a -> digits b -> digits (a ++ b).
Proof. intros Ha Hb. apply Forall_app. split; assumption. Qed.

Lemma decimal_nearest (neg : bool) i f k v : digits i -> digits f ->
  v = (if neg then -1 else 1) * IZR (Z.of_N (decimal_value (i ++ f))) * powerRZ 10 (k - Z.of_nat (length f)) ->
  nearest_double neg v (b64_of_decimal (mkDecimal neg i f k)).
Proof.
  intros Hi Hf ->. unfold b64_of_decimal. cbn [d_neg d_int d_frac d_exp]. rewrite digits_value_eq by (apply digits_app; assumption).
  set (e := (k - Z.of_nat (length f))%Z). set (n := Z.of_N (decimal_value (i ++ f))). assert (Hn : (0 <= n)%Z) by apply N2Z.is_nonneg.
  assert (Hp : forall x, (0 < 10 ^ Z.max x 0)%Z) by (intros x; apply Z.pow_pos_nonneg; lia).
  destruct n as [|m|m]; [| |lia].
  - unfold nearest_double. rewrite Rmult_0_r, Rmult_0_l, b64_rnd_0, Rabs_R0. rewrite Rlt_bool_true by apply bpow_gt_0. split; [split; reflexivity|]. split; reflexivity.
  - pose proof (Hp e) as He. pose proof (Hp (- e)%Z) as He'. rewrite powerRZ_split.
    assert (Ha : (0 < Z.pos m * 10 ^ Z.max e 0)%Z) by (apply Z.mul_pos_pos; [reflexivity|exact He]).
    assert (Hv : (if neg then -1 else 1) * IZR (Z.pos m) * (IZR (10 ^ Z.max e 0) / IZR (10 ^ Z.max (- e) 0)) =
      F2R (Float radix2 (cond_Zopp neg (Z.pos m * 10 ^ Z.max e 0)) 0) / F2R (Float radix2 (cond_Zopp false (10 ^ Z.max (- e) 0)) 0)).
    { unfold F2R. cbn [Fnum Fexp bpow cond_Zopp]. rewrite !Rmult_1_r. destruct neg; cbn [cond_Zopp]; rewrite ?opp_IZR, mult_IZR; field; apply not_0_IZR; lia. }
    rewrite Hv. destruct (Z.pos m * 10 ^ Z.max e 0)%Z as [|a|a]; try lia. destruct (10 ^ Z.max (- e) 0)%Z as [|b|b]; try lia.
    pose proof (Bdiv_correct_aux prec64 emax64 Hprec64' Hmax64' mode_NE neg a 0 false b 0) as H. cbv zeta in H.
    destruct (SFdiv_core_binary prec64 emax64 (Z.pos a) 0 (Z.pos b) 0) as [[mz ez] lz]. rewrite <- binary_round_aux_eq in H. rewrite xorb_false_r in H.
    destruct H as [Hval H]. unfold nearest_double, b64_rnd. 
    change (Rlt_bool (Rabs (round radix2 (FLT_exp (-1074) 53) ZnearestE (F2R (Float radix2 (cond_Zopp neg (Z.pos a)) 0) / F2R (Float radix2 (cond_Zopp false (Z.pos b)) 0)))) (bpow radix2 1024))
      with (Rlt_bool (Rabs (round radix2 (fexp prec64 emax64) (round_mode mode_NE) (F2R (Float radix2 (cond_Zopp neg (Z.pos a)) 0) / F2R (Float radix2 (cond_Zopp false (Z.pos b)) 0)))) (bpow radix2 emax64)).
    destruct (Rlt_bool _ _).
    + destruct H as (H1 & H2 & H3). split; [split; [exact Hval|exact H2]|]. split; [exact H1|exact H3].
    + exact H.
Qed.

Lemma b64_exceptions_chars : Forall (fun e : text * B64 => fst e <> [] /\ Forall number_char (fst e)) b64_exceptions.
Proof.
  assert (H : forall c : ascii, ((97 <=? N_of_ascii c)%N && (N_of_ascii c <=? 122)%N)%bool = true -> number_char c).
  { intros c Hc. apply andb_true_iff in Hc as [H1 H2]. apply N.leb_le in H1, H2. right. right. left. split; assumption. }
  unfold b64_exceptions. repeat (apply Forall_cons; [split; [discriminate|]; apply Forall_forall; intros c Hc; apply H; repeat (destruct Hc as [<-|Hc]; [reflexivity|]); destruct Hc|]). apply Forall_nil.
Qed.

Lemma b64_double_reads neg v t rest : decimal_number neg v t -> heads (fun c => ~ number_char c) rest ->
  exists x, b64_double (t ++ rest) = Some (x, rest) /\ nearest_double neg v x.
Proof.
  intros (s & i & f & m & k & x & -> & Hs & Hi & Hf & Hne & Hm & Hx & Hv) Hr. unfold b64_double. rewrite double_local by (exact Hr || exact b64_exceptions_chars).
  rewrite (double_float _ _ _ _ _ _ (float_app neg s i f m k x Hs Hi Hf Hne Hm Hx)). eexists. split; [reflexivity|]. apply decimal_nearest; assumption.
Qed.

Lemma b64_eq x y : b64_fin x -> b64_fin y -> b64_val x = b64_val y -> sign_SF x = sign_SF y -> x = y.
Proof.
  intros Hx Hy Hv Hs. destruct (b64_lift x Hx) as (bx & <- & Fx & Vx). destruct (b64_lift y Hy) as (b & <- & Fy & Vy). f_equal. apply B2R_Bsign_inj; try assumption; [congruence|].
  destruct bx, b; exact Hs.
Qed.
Lemma nearest_self neg v x y : nearest_double neg v y -> b64_fin x -> b64_rnd v = b64_val x -> neg = sign_SF x -> y = x.
Proof.
  unfold nearest_double. intros H Hx Hv Hs. rewrite Hv in H.
  rewrite Rlt_bool_true in H.
  - destruct H as (Hy & H1 & H2). apply b64_eq; try assumption. congruence.
  - pose proof (b64_bound x Hx). pose proof (bpow_gt_0 radix2 971). lra.
Qed.

(** Rust's way to print numbers, as far as it is documented, is one that is read back *)
Lemma displays_number_text show : displays show -> number_text B64 b64_fin b64_double show.
Proof.
  intros H. split.
  - intros w Hw. destruct (H w Hw) as (s & i & f & m & v & Heq & Hs & Hi & Hf & Hne & Hm & _). rewrite Heq. split.
    + intros E. apply app_eq_nil in E as [_ E]. destruct Hm; [congruence|]. apply app_eq_nil in E as [_ E]. discriminate.
    + apply Forall_app. split; [|exact (pointed_chars i f m Hi Hf Hm)]. destruct Hs as [->| ->]; [constructor|]. constructor; [exact minus_number|constructor].
  - intros w Hw. destruct (H w Hw) as (s & i & f & m & v & _ & _ & _ & _ & _ & _ & Hd & Hv).
    destruct (b64_double_reads _ v (show w) [] Hd I) as (y & Hy & Hn). rewrite app_nil_r in Hy. rewrite Hy. do 2 f_equal. exact (nearest_self _ v w y Hn Hw Hv eq_refl).
  - intros t rest Hr. apply double_local; [exact b64_exceptions_chars|exact Hr].
  - intros t w r. apply double_consumes. exact b64_exceptions_chars.
Qed.

(** *** Printing exactly *)
Lemma decimal_value_snoc ds c : decimal_value (ds ++ [c]) = (decimal_value ds * 10 + (N_of_ascii c - 48))%N.
Proof. unfold decimal_value. rewrite fold_left_app. reflexivity. Qed.
Lemma decimal_value_app a b : decimal_value (a ++ b) = (decimal_value a * 10 ^ N.of_nat (length b) + decimal_value b)%N.
Proof.
  induction b as [|c b IH] using rev_ind; [rewrite app_nil_r; cbn; lia|].
  rewrite app_assoc, !decimal_value_snoc, IH, app_length. cbn [length]. replace (N.of_nat (length b + 1)) with (N.succ (N.of_nat (length b))) by lia. rewrite N.pow_succ_r'. lia.
Qed.
Lemma digit_char_spec n : decimal_digit (digit_char n) /\ (N_of_ascii (digit_char n) - 48 = n mod 10)%N.
Proof.
  assert (H : (n mod 10 < 10)%N) by (apply N.mod_lt; discriminate). unfold decimal_digit, digit_char. revert H. generalize (n mod 10)%N. intros r H. rewrite N_ascii_embedding by lia. lia.
Qed.
Lemma fixed_digits_acc k : forall n acc, fixed_digits k n acc = fixed_digits k n [] ++ acc.
Proof. induction k as [|k IH]; intros n acc; [reflexivity|]. cbn [fixed_digits]. rewrite IH, (IH _ [digit_char n]), <- app_assoc. reflexivity. Qed.
Lemma fixed_digits_spec k : forall n, digits (fixed_digits k n []) /\ length (fixed_digits k n []) = k /\ decimal_value (fixed_digits k n []) = (n mod 10 ^ N.of_nat k)%N.
Proof.
  induction k as [|k IH]; intros n; [split; [constructor|split; [reflexivity|]]; cbn; rewrite N.mod_1_r; reflexivity|].
  cbn [fixed_digits]. rewrite fixed_digits_acc. destruct (IH (n / 10)%N) as (H1 & H2 & H3). destruct (digit_char_spec n) as [Hd Hv]. split; [|split].
  - apply digits_app; [exact H1|]. constructor; [exact Hd|constructor].
  - rewrite app_length, H2. cbn. lia.
  - rewrite decimal_value_snoc, H3, Hv. rewrite Nat2N.inj_succ, N.pow_succ_r'. rewrite N.mod_mul_r; [rewrite N.add_comm; f_equal; apply N.mul_comm|discriminate|apply N.pow_nonzero; discriminate].
Qed.
Lemma all_digits_acc fuel : forall n acc, all_digits fuel n acc = all_digits fuel n [] ++ acc.
Proof. induction fuel as [|fuel IH]; intros n acc; [reflexivity|]. cbn [all_digits]. destruct (n <? 10)%N; [reflexivity|]. rewrite IH, (IH _ [digit_char n]), <- app_assoc. reflexivity. Qed.
Lemma all_digits_spec fuel : forall n, (n < 10 ^ N.of_nat (S fuel))%N -> digits (all_digits fuel n []) /\ all_digits fuel n [] <> [] /\ decimal_value (all_digits fuel n []) = n.
Proof.
  assert (H1 : forall n, (n < 10)%N -> digits [digit_char n] /\ [digit_char n] <> [] /\ decimal_value [digit_char n] = n).
  { intros n Hn. destruct (digit_char_spec n) as [Hd Hv]. split; [constructor; [exact Hd|constructor]|]. split; [discriminate|].
    change (decimal_value ([] ++ [digit_char n]) = n). rewrite decimal_value_snoc, Hv, N.mod_small by exact Hn. reflexivity. }
  induction fuel as [|fuel IH]; intros n Hn; cbn [all_digits]; [apply H1; exact Hn|].
  destruct (n <? 10)%N eqn:E; [apply N.ltb_lt in E; apply H1; exact E|]. rewrite all_digits_acc.
  destruct (IH (n / 10)%N) as (I1 & I2 & I3). { rewrite Nat2N.inj_succ, N.pow_succ_r' in Hn. apply N.div_lt_upper_bound; [discriminate|exact Hn]. }
  destruct (digit_char_spec n) as [Hd Hv]. split; [|split].
  - apply digits_app; [exact I1|]. constructor; [exact Hd|constructor].
  - intros H. apply app_eq_nil in H as [_ H]. discriminate.
  - rewrite decimal_value_snoc, I3, Hv. rewrite (N.div_mod' n 10) at 3. lia.
Qed.
Lemma digits_of_spec n : digits (digits_of n) /\ digits_of n <> [] /\ decimal_value (digits_of n) = n.
Proof.
  apply all_digits_spec. rewrite Nat2N.inj_succ, N2Nat.id. destruct (N.eq_dec n 0) as [->|Hn]; [reflexivity|].
  eapply N.lt_le_trans; [apply N.log2_spec; lia|]. apply N.pow_le_mono_l. discriminate.
Qed.

Lemma sign_text_signed s : signed s (sign_text s). Proof. destruct s; constructor. Qed.
Lemma sign_text_cases s : sign_text s = [] \/ sign_text s = ["-"%char]. Proof. destruct s; auto. Qed.
Lemma finite_value s m e : b64_val (S754_finite s m e) = (if s then -1 else 1) * IZR (Z.pos m) * bpow radix2 e.
Proof. unfold b64_val, SF2R, F2R. cbn [Fnum Fexp]. destruct s; cbn [cond_Zopp]; [rewrite opp_IZR|]; ring. Qed.

Lemma shows x s i f m : b64_fin x -> b64_show x = s ++ m -> s = sign_text (sign_SF x) -> digits i -> digits f -> i <> [] -> pointed i f m ->
  (if sign_SF x then -1 else 1) * IZR (Z.of_N (decimal_value (i ++ f))) * powerRZ 10 (0 - Z.of_nat (length f)) = b64_val x ->
  exists s i f m v, b64_show x = s ++ m /\ (s = [] \/ s = ["-"%char]) /\ digits i /\ digits f /\ i <> [] /\ pointed i f m /\
    decimal_number (sign_SF x) v (b64_show x) /\ b64_rnd v = b64_val x.
Proof.
  intros Hx He -> Hi Hf Hne Hm Hv. exists (sign_text (sign_SF x)), i, f, m, (b64_val x). split; [exact He|]. split; [apply sign_text_cases|]. do 4 (split; [assumption|]). split.
  - exists (sign_text (sign_SF x)), i, f, m, 0%Z, []. split; [rewrite app_nil_r; exact He|]. split; [apply sign_text_signed|]. split; [exact Hi|]. split; [exact Hf|]. split.
    + intros E. apply app_eq_nil in E as [E _]. contradiction.
    + split; [exact Hm|]. split; [constructor|]. symmetry. exact Hv.
  - apply b64_rnd_val. exact Hx.
Qed.
Lemma nil_pointed i : pointed i [] i. Proof. constructor. reflexivity. Qed.
Lemma b64_show_displays : displays b64_show.
Proof.
  intros x Hx. destruct x as [s|s| |s m e]; try (destruct Hx; discriminate).
  - apply (shows (S754_zero s) (sign_text s) (lit "0") [] (lit "0") Hx eq_refl eq_refl); [|constructor|discriminate|apply nil_pointed|].
    + constructor; [|constructor]. unfold decimal_digit. cbn. lia.
    + cbn [sign_SF]. change (decimal_value (lit "0" ++ [])) with 0%N. cbn [Z.of_N]. rewrite Rmult_0_r, Rmult_0_l. reflexivity.
  - assert (Hpos : (0 <= e)%Z -> exists s' i f m' v, b64_show (S754_finite s m e) = s' ++ m' /\ (s' = [] \/ s' = ["-"%char]) /\ digits i /\ digits f /\ i <> [] /\ pointed i f m' /\
      decimal_number s v (b64_show (S754_finite s m e)) /\ b64_rnd v = b64_val (S754_finite s m e)).
    { intros He. destruct (digits_of_spec (N.pos m * 2 ^ Z.to_N e)) as (H1 & H2 & H3).
      apply (shows (S754_finite s m e) (sign_text s) (digits_of (N.pos m * 2 ^ Z.to_N e)) [] (digits_of (N.pos m * 2 ^ Z.to_N e)) Hx); [destruct e; [reflexivity|reflexivity|lia]|reflexivity|exact H1|constructor|exact H2|apply nil_pointed|].
      rewrite app_nil_r, H3. cbn [sign_SF length]. rewrite finite_value. change (0 - Z.of_nat 0)%Z with 0%Z. cbn [powerRZ]. rewrite Rmult_1_r, Rmult_assoc. f_equal.
      rewrite N2Z.inj_mul, mult_IZR, N2Z.inj_pow, Z2N.id by exact He. cbn [Z.of_N]. f_equal. rewrite <- (IZR_Zpower radix2) by exact He. reflexivity. }
    destruct e as [|e|k]; [apply Hpos; lia|apply Hpos; lia|]. clear Hpos.
    set (n := (N.pos m * 5 ^ N.pos k)%N). set (D := (10 ^ N.pos k)%N).
    destruct (digits_of_spec (n / D)) as (H1 & H2 & H3). destruct (fixed_digits_spec (Pos.to_nat k) n) as (F1 & F2 & F3). rewrite positive_nat_N in F3.
    apply (shows (S754_finite s m (Z.neg k)) (sign_text s) (digits_of (n / D)) (fixed_digits (Pos.to_nat k) n []) (digits_of (n / D) ++ "."%char :: fixed_digits (Pos.to_nat k) n []) Hx eq_refl eq_refl H1 F1 H2); [constructor|].
    rewrite decimal_value_app, H3, F2, F3, positive_nat_N. fold D. rewrite N.mul_comm, <- N.div_mod' by (unfold D; apply N.pow_nonzero; discriminate).
    rewrite finite_value. cbn [sign_SF]. rewrite !Rmult_assoc. f_equal. rewrite positive_nat_Z. cbn [Z.sub Z.opp Z.add powerRZ bpow].
    unfold n. rewrite N2Z.inj_mul, N2Z.inj_pow, mult_IZR, Rmult_assoc. f_equal. change (Z.of_N (N.pos k)) with (Z.pos k). change (Z.of_N 5) with 5%Z.
    rewrite <- (positive_nat_Z k), <- pow_IZR. change (Z.pow_pos radix2 k) with (2 ^ Z.pos k)%Z. rewrite <- (positive_nat_Z k), <- pow_IZR.
    replace 10 with (5 * 2) by lra. rewrite Rpow_mult_distr. field. split; apply pow_nonzero; lra.
Qed.
