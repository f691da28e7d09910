(** Proofs about the command-line options. *)
From Coq Require Import Ascii String.
From Verif Require Import Base Num BaseProofs ModelText TextProofs ModelCluster ModelClassify ModelOpt SpecOpt.
Open Scope list_scope.

(** *** Characters *)
Lemma code_eq (c d : ascii) : N_of_ascii c = N_of_ascii d -> c = d.
Proof. intros H. rewrite <- (ascii_N_embedding c), <- (ascii_N_embedding d), H. reflexivity. Qed.
Lemma code_lt c : (N_of_ascii c < 256)%N.
Proof. destruct c as [[] [] [] [] [] [] [] []]; vm_compute; reflexivity. Qed.
Lemma to_lower_code c : N_of_ascii (to_lower c) =
  if (65 <=? N_of_ascii c)%N && (N_of_ascii c <=? 90)%N then (N_of_ascii c + 32)%N else N_of_ascii c.
Proof.
  unfold to_lower. destruct ((65 <=? N_of_ascii c)%N && (N_of_ascii c <=? 90)%N) eqn:E; auto.
  apply andb_prop in E. destruct E as [E1 E2]. apply N.leb_le in E1, E2. apply N_ascii_embedding. lia.
Qed.
Lemma to_lower_same c d : to_lower c = to_lower d <-> same_letter c d.
Proof.
  unfold same_letter. split.
  - intros H. apply (f_equal N_of_ascii) in H. rewrite !to_lower_code in H.
    destruct ((65 <=? N_of_ascii c)%N && (N_of_ascii c <=? 90)%N) eqn:E;
    destruct ((65 <=? N_of_ascii d)%N && (N_of_ascii d <=? 90)%N) eqn:E';
    try (apply andb_prop in E; destruct E as [E1 E2]; apply N.leb_le in E1, E2);
    try (apply andb_prop in E'; destruct E' as [E3 E4]; apply N.leb_le in E3, E4).
    + left. apply code_eq. lia.
    + right. exists (N_of_ascii c - 65)%N. lia.
    + right. exists (N_of_ascii d - 65)%N. lia.
    + left. apply code_eq. lia.
  - intros [->|(n & Hn & H)]; auto. apply code_eq. rewrite !to_lower_code.
    destruct (N.leb_spec 65 (N_of_ascii c)), (N.leb_spec (N_of_ascii c) 90), (N.leb_spec 65 (N_of_ascii d)), (N.leb_spec (N_of_ascii d) 90); cbn; lia.
Qed.
Lemma same_text s t : map to_lower s = map to_lower t <-> same_ignoring_case s t.
Proof.
  revert t. induction s as [|c s IH]; intros [|d t]; cbn; split; intros H; try discriminate; try (inversion H; fail); try constructor; auto.
  - apply to_lower_same. congruence.
  - apply IH. congruence.
  - inversion H; subst. f_equal; [apply to_lower_same; auto|apply IH; auto].
Qed.
Lemma digit_code c d : digit c = Some d <-> (d < 10)%N /\ N_of_ascii c = (48 + d)%N.
Proof.
  unfold digit. destruct (N.leb_spec 48 (N_of_ascii c)), (N.leb_spec (N_of_ascii c) 57); cbn [andb]; split; intros E; try discriminate; try lia.
  - injection E as <-. lia.
  - f_equal. lia.
Qed.
Lemma digit_lower c : is_digit c = true -> to_lower c = c.
Proof.
  unfold is_digit. destruct (digit c) as [d|] eqn:E; [|discriminate]. intros _. apply digit_code in E. apply code_eq. rewrite to_lower_code.
  destruct (N.leb_spec 65 (N_of_ascii c)); cbn; auto. lia.
Qed.
Lemma digits_lower t : forallb is_digit t = true -> map to_lower t = t.
Proof. induction t as [|c t IH]; cbn; auto. intros H. apply andb_prop in H. destruct H as [H1 H2]. rewrite digit_lower, IH; auto. Qed.

(** *** Numbers *)
Fixpoint value_from (v : BinNums.N) (t : text) : BinNums.N :=
  match t with [] => v | c :: t => value_from (v * 10 + match digit c with Some d => d | None => 0 end)%N t end.
Lemma value_app v a b : value_from v (a ++ b) = value_from (value_from v a) b.
Proof. revert v. induction a; intros v; cbn; auto. Qed.
Lemma value_ge v t : (v <= value_from v t)%N.
Proof. revert v. induction t as [|c t IH]; intros v; cbn; [lia|]. etransitivity; [|apply IH]. destruct (digit c); lia. Qed.
Lemma decimal_value t n : decimal t n -> t <> [] /\ forallb is_digit t = true /\ value_from 0 t = n.
Proof.
  induction 1 as [c d Hd Hc|t n c d _ (H1 & H2 & H3) Hd Hc].
  - assert (E : digit c = Some d) by (apply digit_code; auto). cbn. unfold is_digit. rewrite E. split; [discriminate|auto].
  - assert (E : digit c = Some d) by (apply digit_code; auto). split; [destruct t; discriminate|]. split.
    + rewrite forallb_app, H2. cbn. unfold is_digit. rewrite E. auto.
    + rewrite value_app, H3. cbn [value_from]. rewrite E. lia.
Qed.
Lemma value_decimal t : t <> [] -> forallb is_digit t = true -> decimal t (value_from 0 t).
Proof.
  induction t as [|c t IH] using rev_ind; [congruence|]. intros _ H. rewrite forallb_app in H. apply andb_prop in H. destruct H as [H1 H2].
  cbn in H2. rewrite Bool.andb_true_r in H2. unfold is_digit in H2. destruct (digit c) as [d|] eqn:E; [|discriminate].
  pose proof (proj1 (digit_code c d) E) as [Hd Hc]. rewrite value_app. cbn [value_from]. rewrite E.
  destruct t as [|a t].
  - cbn. constructor; auto.
  - replace (value_from 0 (a :: t) * 10 + d)%N with (10 * value_from 0 (a :: t) + d)%N by lia. constructor; auto. apply IH; auto. discriminate.
Qed.
Lemma uint_digits_spec bound v t n : uint_digits bound v t = Some n <-> forallb is_digit t = true /\ value_from v t = n /\ (t = [] \/ (n < bound)%N).
Proof.
  revert v. induction t as [|c t IH]; intros v; cbn.
  - split; [intros H; injection H as ->; auto|]. intros (_ & -> & _). auto.
  - unfold is_digit at 1. destruct (digit c) as [d|] eqn:E; [|split; [discriminate|intros (H & _); discriminate]].
    destruct (N.ltb_spec (v * 10 + d) bound) as [H|H].
    + rewrite IH. cbn [andb]. split; intros (A & B & C); split; auto; split; auto.
      * right. destruct C as [->|C]; auto. cbn in B. lia.
      * right. destruct C; [discriminate|auto].
    + split; [discriminate|]. intros (_ & B & [C|C]); [discriminate|]. pose proof (value_ge (v * 10 + d) t). lia.
Qed.
Lemma plus_not_digit : is_digit "+" = false.
Proof. reflexivity. Qed.
(** Digits, after an optional '+'. *)
Lemma uint_from_str_spec bound t n : uint_from_str bound t = Some n <->
  (n < bound)%N /\ (decimal t n \/ exists t', t = "+"%char :: t' /\ decimal t' n).
Proof.
  assert (Hd : forall u, u <> [] -> (uint_digits bound 0 u = Some n <-> (n < bound)%N /\ decimal u n)).
  { intros u Hu. rewrite uint_digits_spec. split.
    - intros (A & <- & [B|B]); [congruence|]. split; auto. apply value_decimal; auto.
    - intros (A & B). apply decimal_value in B. intuition. }
  unfold uint_from_str. destruct t as [|c [|c' t]].
  - split; [discriminate|]. intros (_ & [H|(t' & H & _)]); [|discriminate]. apply decimal_value in H. tauto.
  - rewrite Hd by discriminate. split; [tauto|]. intros (A & [B|(t' & E & B)]); auto. injection E as -> <-. apply decimal_value in B. tauto.
  - cbn [tl]. destruct (ceq c "+") eqn:E.
    + apply ceq_true in E. subst c. rewrite Hd by discriminate. split.
      * intros (A & B). split; auto. right. eauto.
      * intros (A & [B|(t' & B & C)]); [|injection B as <-; auto]. apply decimal_value in B. cbn [forallb] in B. rewrite plus_not_digit in B. destruct B as (_ & B & _). discriminate.
    + rewrite Hd by discriminate. split; [tauto|]. intros (A & [B|(t' & B & C)]); auto. injection B as -> <-. discriminate.
Qed.

(** *** The regular expression *)
Lemma text_eqb_spec a b : text_eqb a b = true <-> a = b.
Proof. unfold text_eqb. destruct (list_eq_dec ascii_dec a b); intuition congruence. Qed.
Lemma span_spec p t a b : span p t = (a, b) -> t = a ++ b /\ forallb p a = true /\ match b with [] => True | c :: _ => p c = false end.
Proof.
  revert a b. induction t as [|c t IH]; intros a b; cbn; [intros E; injection E as <- <-; auto|].
  destruct (p c) eqn:Ec.
  - destruct (span p t) as [a' b'] eqn:E'. intros E. injection E as <- <-. destruct (IH _ _ eq_refl) as (-> & H1 & H2). cbn. rewrite Ec. auto.
  - intros E. injection E as <- <-. auto.
Qed.
Lemma span_of p a b : forallb p a = true -> match b with [] => True | c :: _ => p c = false end -> span p (a ++ b) = (a, b).
Proof.
  induction a as [|c a IH]; cbn.
  - intros _ H. destruct b as [|c b]; cbn; [auto|]. rewrite H. auto.
  - intros H Hb. apply andb_prop in H. destruct H as [-> H]. rewrite IH; auto.
Qed.
Definition lvl_text (lvl : option text) : text := match lvl with Some l => l | None => [] end.
Lemma captures_spec s algo lvl : captures s = Some (algo, lvl) ->
  s = algo ++ lvl_text lvl /\ match lvl with
    | None => True
    | Some l => exists ds, l = "_"%char :: ds /\ ds <> [] /\ forallb is_digit ds = true end.
Proof.
  unfold captures. destruct (span is_alnum s) as [a b] eqn:E. apply span_spec in E. destruct E as (-> & H1 & H2).
  destruct a as [|x a]; [discriminate|]. destruct b as [|c b]; [intros E; injection E as <- <-; auto|].
  destruct (ceq c "_") eqn:Ec; [|discriminate]. apply ceq_true in Ec. subst c. destruct b as [|y b]; [discriminate|].
  destruct (forallb is_digit (y :: b)) eqn:Ed; [|discriminate]. intros E. injection E as <- <-. split; auto. exists (y :: b). split; auto. split; [discriminate|auto].
Qed.
Lemma captures_level name ds : forallb is_alnum name = true -> name <> [] -> forallb is_digit ds = true -> ds <> [] ->
  captures (name ++ lit "_" ++ ds) = Some (name, Some ("_"%char :: ds)).
Proof.
  intros H1 H2 H3 H4. unfold captures. rewrite span_of; [|auto|reflexivity]. cbn [lit list_ascii_of_string app].
  destruct name; [congruence|]. destruct ds as [|c ds]; [congruence|]. rewrite H3. reflexivity.
Qed.
Lemma captures_name name : forallb is_alnum name = true -> name <> [] -> captures name = Some (name, None).
Proof. intros H1 H2. unfold captures. rewrite <- (app_nil_r name) at 1. rewrite span_of; auto. destruct name; [congruence|auto]. Qed.

(** *** Compression *)
Definition all_names : list string := bzip2_names ++ gzip_names ++ lz4_names ++ zstd_names.
Lemma names_ok name : In name all_names -> map to_lower (lit name) = lit name /\ forallb is_alnum (lit name) = true /\ lit name <> [].
Proof. cbn. intuition; subst; cbn; auto; try discriminate. Qed.

Lemma lower_level name ds : In name all_names -> forallb is_digit ds = true -> map to_lower (lit name ++ lit "_" ++ ds) = lit name ++ lit "_" ++ ds.
Proof. intros H1 H2. rewrite !map_app, (proj1 (names_ok name H1)), (digits_lower ds H2). reflexivity. Qed.

Lemma with_level_spec make default max name lvl c s : (max < 256)%N -> In name all_names ->
  captures (map to_lower s) = Some (lit name, lvl) ->
  with_level make default max (lit name) lvl = Good c ->
  (same_ignoring_case s (lit name) /\ c = make default) \/
  (exists ds n, decimal ds n /\ (n <= max)%N /\ same_ignoring_case s (lit name ++ lit "_" ++ ds) /\ c = make n).
Proof.
  intros Hmax Hn Hc. apply captures_spec in Hc. destruct Hc as [Hs Hl]. unfold with_level. destruct lvl as [l|].
  - destruct Hl as (ds & -> & Hne & Hd). cbn [skipn]. destruct (uint_from_str 256 ds) as [n|] eqn:En; [|discriminate].
    destruct (N.leb_spec n max); [|discriminate]. intros E. injection E as <-. right. exists ds, n. split; [|split; [|split]]; auto.
    + apply uint_from_str_spec in En. destruct En as (_ & [En|(t' & -> & _)]); auto. discriminate.
    + apply same_text. rewrite lower_level; auto.
  - intros E. injection E as <-. left. split; auto. apply same_text. cbn [lvl_text] in Hs. rewrite app_nil_r in Hs. rewrite Hs. symmetry. apply names_ok; auto.
Qed.

Lemma parse_compr_means s c : parse_compr s = Good c -> means s c.
Proof.
  unfold parse_compr. destruct (captures (map to_lower s)) as [[algo lvl]|] eqn:E; [|discriminate].
  destruct (text_eqb algo (lit "bzip2") || text_eqb algo (lit "bz2")) eqn:E1.
  { destruct lvl; [discriminate|]. intros H. injection H as <-. constructor. apply captures_spec in E. destruct E as [E _].
    cbn [lvl_text] in E. rewrite app_nil_r in E. apply Bool.orb_prop in E1.
    destruct E1 as [E1|E1]; apply text_eqb_spec in E1; subst algo; [exists "bzip2"%string|exists "bz2"%string]; (split; [cbn; auto|apply same_text; exact E1]). }
  clear E1.
  assert (Hlvl : forall make default max names, (max < 256)%N -> incl names all_names -> (exists name, In name names /\ algo = lit name) ->
    with_level make default max algo lvl = Good c -> (named names s /\ c = make default) \/ exists n, with_number names max s n /\ c = make n).
  { intros make default max names Hmax Hincl (name & Hin & ->) H. destruct (with_level_spec make default max name lvl c s Hmax (Hincl _ Hin) E H) as [[A ->]|(ds & n & A & B & C & ->)].
    - left. split; auto. exists name. auto.
    - right. exists n. split; auto. exists name, ds. auto. }
  assert (Hor : forall a b, text_eqb algo (lit a) || text_eqb algo (lit b) = true -> exists name, In name [a; b] /\ algo = lit name).
  { intros a b H. apply Bool.orb_prop in H. destruct H as [H|H]; apply text_eqb_spec in H; [exists a|exists b]; cbn; auto. }
  destruct (text_eqb algo (lit "gzip") || text_eqb algo (lit "gz")) eqn:E1.
  { intros H. apply Hlvl with (names := gzip_names) in H; [|reflexivity|intros x; cbn; intuition|apply Hor; exact E1].
    destruct H as [[H ->]|(n & H & ->)]; constructor; auto. }
  clear E1. destruct (text_eqb algo (lit "lz4")) eqn:E1.
  { intros H. apply Hlvl with (names := lz4_names) in H; [|reflexivity|intros x; cbn; intuition|apply text_eqb_spec in E1; exists "lz4"%string; cbn; auto].
    destruct H as [[H ->]|(n & H & ->)]; constructor; auto. }
  clear E1. destruct (text_eqb algo (lit "zstd") || text_eqb algo (lit "zstandard")) eqn:E1; [|discriminate].
  intros H. apply Hlvl with (names := zstd_names) in H; [|reflexivity|intros x; cbn; intuition|apply Hor; exact E1].
  destruct H as [[H ->]|(n & H & ->)]; constructor; auto.
Qed.

Lemma named_captures names s : incl names all_names -> named names s -> exists name, In name names /\ captures (map to_lower s) = Some (lit name, None).
Proof.
  intros Hi (name & Hn & H). exists name. split; auto. apply same_text in H. rewrite H. destruct (names_ok name (Hi _ Hn)) as (H1 & H2 & H3). rewrite H1. apply captures_name; auto.
Qed.
Lemma number_captures names max s n : (max < 256)%N -> incl names all_names -> with_number names max s n ->
  exists name ds, In name names /\ captures (map to_lower s) = Some (lit name, Some ("_"%char :: ds)) /\ uint_from_str 256 ds = Some n /\ (n <=? max)%N = true.
Proof.
  intros Hmax Hi (name & ds & Hn & Hd & Hle & H). exists name, ds. split; auto. apply same_text in H. rewrite H.
  destruct (decimal_value _ _ Hd) as (D1 & D2 & _). destruct (names_ok name (Hi _ Hn)) as (H1 & H2 & H3).
  rewrite lower_level; auto. split; [apply captures_level; auto|]. split; [apply uint_from_str_spec; split; [lia|auto]|]. apply N.leb_le. auto.
Qed.

Lemma means_parse_compr s c : means s c -> parse_compr s = Good c.
Proof.
  intros H. unfold parse_compr. destruct H as [s H|s H|s n H|s H|s n H|s H|s n H].
  1,2,4,6: apply named_captures in H; [|intros x; cbn; intuition]; destruct H as (name & Hin & ->); cbn in Hin; intuition; subst; reflexivity.
  all: apply number_captures in H; [|reflexivity|intros x; cbn; intuition]; destruct H as (name & ds & Hin & -> & E1 & E2);
    cbn in Hin; intuition; subst name; unfold with_level; cbn [skipn]; rewrite E1, E2; reflexivity.
Qed.
