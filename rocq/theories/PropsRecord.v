(** Properties C53 and C54: what is read from a record is what the record says. *)
From Coq Require Import Reals Lia Permutation Lra R_Ifp.
From Verif Require Import Base BaseProofs Num ModelEvent SpecEvent EventProofs ModelText SpecText SpecFormats SpecHepMC TextProofs ParserProofs
  ModelHepMC ModelLHEF ModelStripper SpecRecord RecordProofs TextExamples PropsHepMC.

(** HepMC: the first weight, and with the feature "multiweight" all weights whose name is wanted;
    exactly the particles with status 1, with momenta in GeV. *)
Theorem C53_hepmc : forall (N : NumOps) (D Dn : N -> Prop) double show sort mw names record w ws contents,
  cmp_on N D -> sort_ok sort -> number_text N Dn double show ->
  hepmc_record double record (w :: ws) contents ->
  (mw = true -> all_named names (w :: ws) contents) ->
  (forall x, In x (hepmc_outgoing contents) -> mom_in D (in_gev (hepmc_mev contents) (snd x))) ->
  exists ev, parse_hepmc double mw sort names record = Ok ev /\ ev_id ev = 0 /\
    ev_weights ev = w :: (if mw then named_weights names (w :: ws) contents else []) /\
    grouped (ev_out ev) /\
    Permutation (map (fun x => (fst x, in_gev (hepmc_mev contents) (snd x))) (hepmc_outgoing contents)) (particles_of (ev_out ev)).
Proof.
  intros N D Dn double show sort mw names record w ws contents HD Hs HT Hr Hall Hin.
  apply (hepmc_read N D Dn double show sort HT mw names record w ws contents); auto. apply Forall_forall. exact Hin.
Qed.
Print Assumptions C53_hepmc.

(** LHEF: the weight, and exactly the particles with status 1. *)
Theorem C53_lhef : forall (N : NumOps) (D Dn : N -> Prop) double show sort mw record w contents,
  cmp_on N D -> sort_ok sort -> number_text N Dn double show ->
  lhef_record double record w contents -> 2 <= length contents ->
  (forall x, In x (lhef_outgoing contents) -> mom_in D (in_gev false (snd x))) ->
  exists ev, parse_lhef double mw sort record = Ok ev /\ ev_id ev = 0 /\ ev_weights ev = [w] /\
    grouped (ev_out ev) /\
    Permutation (map (fun x => (fst x, in_gev false (snd x))) (lhef_outgoing contents)) (particles_of (ev_out ev)).
Proof.
  intros N D Dn double show sort mw record w contents HD Hs HT Hr Hn Hin.
  apply (lhef_read N D Dn double show sort HT mw record w contents); auto. apply Forall_forall. exact Hin.
Qed.
Print Assumptions C53_lhef.
(** With less than two particles the program panics. *)
Theorem C53_lhef_few : forall (N : NumOps) double sort mw record (w : N) contents,
  lhef_record double record w contents -> length contents < 2 ->
  parse_lhef double mw sort record = Panic.
Proof. intros N double sort mw record w contents Hr Hn. exact (lhef_read_few N double sort mw record w contents Hr Hn). Qed.
Print Assumptions C53_lhef_few.

(** STRIPPER XML: the weight, and exactly the particles with status 0, if there is a blank before
    each energy ... *)
Theorem C54_stripper_partial : forall (N : NumOps) (D Dn : N -> Prop) double show sort mw record w contents,
  cmp_on N D -> sort_ok sort -> number_text N Dn double show ->
  xml_record double blanks record w contents ->
  (forall x, In x (xml_outgoing contents) -> mom_in D (in_gev false (snd x))) ->
  exists ev, parse_stripper_xml double mw sort record = Ok ev /\ ev_id ev = 0 /\ ev_weights ev = [w] /\
    grouped (ev_out ev) /\
    Permutation (map (fun x => (fst x, in_gev false (snd x))) (xml_outgoing contents)) (particles_of (ev_out ev)).
Proof.
  intros N D Dn double show sort mw record w contents HD Hs HT Hr Hin.
  apply (xml_read N D Dn double show sort HT mw record w contents); auto. apply Forall_forall. exact Hin.
Qed.
Print Assumptions C54_stripper_partial.

(** *** Examples *)
Definition blankb (c : ascii) : bool := ceq c SP || ceq c TAB.
Definition wordb (t : text) : bool := negb (match t with [] => true | _ => false end) && forallb (fun c => negb (is_ws c)) t.
Lemma wordb_word t : wordb t = true -> word t.
Proof.
  unfold wordb. rewrite andb_true_iff, forallb_forall. intros [H1 H2]. split; [destruct t; discriminate|].
  apply Forall_forall. intros c Hc. apply is_ws_false. specialize (H2 c Hc). destruct (is_ws c); [discriminate|reflexivity].
Qed.
Definition wtext (l : list text) : text := concat (map (cons SP) l).
Lemma word_list_wtext l : forallb wordb l = true -> word_list l (wtext l).
Proof.
  induction l as [|e l IH]; cbn [forallb]; [constructor|]. rewrite andb_true_iff. intros [He Hl].
  change (wtext (e :: l)) with ([SP] ++ e ++ wtext l). constructor; [split; [discriminate|repeat constructor]|apply wordb_word, He| |apply IH, Hl].
  destruct l; [exact I|left; reflexivity].
Qed.
Lemma no_newline t : existsb (ceq NL) t = false -> ~ In newline t.
Proof.
  intros H Hin. assert (existsb (ceq NL) t = true); [|congruence]. apply existsb_exists. exists newline. split; [exact Hin|reflexivity].
Qed.
Lemma digits_ok t : forallb (fun c => (48 <=? N_of_ascii c)%N && (N_of_ascii c <=? 57)%N) t = true -> Forall decimal_digit t.
Proof. rewrite forallb_forall, Forall_forall. intros H c Hc. specialize (H c Hc). apply andb_true_iff in H as [H1 H2]. apply N.leb_le in H1, H2. split; assumption. Qed.

(** Real numbers written as integers *)
Definition r_double : parser RN := fun t => match z_double t with Some (z, r) => Some (IZR z, r) | None => None end.
Definition r_show (x : RN) : text := z_show (Int_part x).
Definition integer (x : RN) : Prop := exists z, x = IZR z.
Lemma Int_part_IZR z : Int_part (IZR z) = z.
Proof. unfold Int_part. rewrite <- (up_tech (IZR z) z); [lia|lra|rewrite plus_IZR; lra]. Qed.
Lemma r_text : number_text RN integer r_double r_show.
Proof.
  destruct z_text as [H1 H2 H3 H4]. split.
  - intros w [z ->]. apply H1. exact I.
  - intros w [z ->]. unfold r_double, r_show. rewrite H2 by exact I. rewrite Int_part_IZR. reflexivity.
  - intros t rest Hr. unfold r_double. rewrite (H3 _ _ Hr). destruct (z_double t) as [[z r]|]; reflexivity.
  - intros t w r. unfold r_double. destruct (z_double t) as [[z r']|] eqn:E; [|discriminate]. intros H; injection H as _ <-. exact (H4 _ _ _ E).
Qed.

Lemma r_num z t : z_double t = Some (z, []) -> num_word r_double (IZR z) t.
Proof. unfold num_word, r_double. intros ->. reflexivity. Qed.
Lemma int_ok z (sign ds : text) : (sign = [] /\ z = Z.of_N (decimal_value ds) \/ sign = ["-"%char] /\ z = (- Z.of_N (decimal_value ds))%Z) ->
  ds <> [] -> forallb (fun c => (48 <=? N_of_ascii c)%N && (N_of_ascii c <=? 57)%N) ds = true -> (- 2 ^ 31 <= z < 2 ^ 31)%Z -> int_word z (sign ++ ds).
Proof. intros H H1 H2 H3. exists sign, ds. split; [reflexivity|]. split; [exact H1|]. split; [apply digits_ok, H2|]. split; [exact H3|]. tauto. Qed.
Ltac int_lit s d := apply (int_ok _ (lit s) (lit d)); [first [left; split; reflexivity|right; split; reflexivity]|discriminate|reflexivity|cbn [fst snd]; lia].

(** A record with two weights in MeV *)
Definition hr_a : text := wtext (map lit ["12"; "-1"; "1e2"; "0.1"; "0.1"; "0"; "0"; "1"; "1"; "2"]%string).
Definition hr_pre : text := "E"%char :: hr_a ++ lit " 1" ++ lit " 77" ++ lit " 2".
Definition hr_n : text := "N"%char :: lit " 2" ++ (lit " " ++ QUOTE :: lit "a" ++ QUOTE :: (lit " " ++ QUOTE :: lit "b" ++ QUOTE :: [])) ++ [].
Definition hr_u : text := "U"%char :: wtext [lit "MEV"] ++ lit " MM".
Definition hr_p (bar id px py pz e m st : string) : text :=
  "P"%char :: wtext [lit bar; lit id; lit px; lit py; lit pz; lit e; lit m; lit st] ++ lit " 0 0".
Definition hr_lines : list text := [hr_n; hr_u; lit "V -1 0 0 0 0 0 0 1 0"; hr_p "1" "22" "3000" "4000" "0" "5000" "0" "1";
  hr_p "2" "-11" "3000" "4000" "12000" "13000" "1" "2"; hr_p "3" "-11" "6000" "8000" "0" "10000" "1" "1"].
Definition hr_contents : list (hepmc_content RN) := [HNames [lit "a"; lit "b"]; HUnit true; HOther;
  HParticle 22 (IZR 5000) (IZR 3000) (IZR 4000) (IZR 0) 1; HParticle (-11) (IZR 13000) (IZR 3000) (IZR 4000) (IZR 12000) 2;
  HParticle (-11) (IZR 10000) (IZR 6000) (IZR 8000) (IZR 0) 1].
Definition hr_record : text := (hr_pre ++ wtext [lit "3"; lit "4"] ++ []) ++ concat (map (cons newline) hr_lines) ++ [newline].

Lemma hr_particle bar id px py pz e m st idz (pxz pyz pzz ez : Z) stz :
  existsb (ceq NL) (hr_p bar id px py pz e m st) = false ->
  forallb wordb (map lit [bar; id; px; py; pz; e; m; st]) = true ->
  int_word idz (lit id) -> int_word stz (lit st) ->
  z_double (lit px) = Some (pxz, []) -> z_double (lit py) = Some (pyz, []) -> z_double (lit pz) = Some (pzz, []) -> z_double (lit e) = Some (ez, []) ->
  hepmc_line r_double (hr_p bar id px py pz e m st) (HParticle idz (IZR ez : RN) (IZR pxz) (IZR pyz) (IZR pzz) stz).
Proof.
  intros Hn Hw Hid Hst Hx Hy Hz He. split; [apply no_newline, Hn|].
  exists (lit bar), (lit id), (lit px), (lit py), (lit pz), (lit e), (lit m), (lit st), (wtext (map lit [bar; id; px; py; pz; e; m; st])), (lit " 0 0").
  split; [reflexivity|]. split; [apply word_list_wtext, Hw|]. split; [left; left; reflexivity|].
  split; [exact Hid|]. split; [apply r_num, Hx|]. split; [apply r_num, Hy|]. split; [apply r_num, Hz|]. split; [apply r_num, He|exact Hst].
Qed.

Lemma number_lit v ds : ds <> [] -> forallb (fun c => (48 <=? N_of_ascii c)%N && (N_of_ascii c <=? 57)%N) ds = true -> decimal_value ds = v ->
  number_entry v (SP :: ds).
Proof. intros H1 H2 H3. exists [SP], ds. split; [reflexivity|]. split; [split; [discriminate|repeat constructor]|]. split; [exact H1|]. split; [apply digits_ok, H2|exact H3]. Qed.

Example C53_hepmc_case : cmp_on RN (fun _ => True) /\ sort_ok isort /\ number_text RN integer r_double r_show /\
  hepmc_record r_double hr_record [IZR 3; IZR 4] hr_contents /\ all_named [lit "b"] [IZR 3 : RN; IZR 4] hr_contents /\
  (forall x, In x (hepmc_outgoing hr_contents) -> mom_in (fun _ : RN => True) (in_gev (hepmc_mev hr_contents) (snd x))) /\
  named_weights [lit "b"] [IZR 3 : RN; IZR 4] hr_contents = [IZR 4] /\
  hepmc_mev hr_contents = true /\ map fst (hepmc_outgoing hr_contents) = [22; -11]%Z.
Proof.
  split; [exact RN_cmp|]. split; [exact isort_ok|]. split; [exact r_text|].
  split; [|split; [|split; [|split; [|split; reflexivity]]]].
  - exists 2%N, hr_pre, [lit "3"; lit "4"], (wtext [lit "3"; lit "4"]), [], hr_lines, [newline].
    split; [reflexivity|]. split.
    { exists hr_a, (lit " 1"), 1%N, (lit " 77"), (lit " 2"). split; [reflexivity|].
      split; [apply (entries_of (map lit ["12"; "-1"; "1e2"; "0.1"; "0.1"; "0"; "0"; "1"; "1"; "2"]%string)), word_list_wtext; reflexivity|].
      split; [apply (number_lit 1 (lit "1")); [discriminate|reflexivity|reflexivity]|]. split; [lia|].
      split; [apply (entries_of [lit "77"] (wtext [lit "77"])), word_list_wtext; reflexivity|].
      split; [apply (number_lit 2 (lit "2")); [discriminate|reflexivity|reflexivity]|]. lia. }
    split; [apply word_list_wtext; reflexivity|]. split; [exact I|]. split; [intros []|]. split; [reflexivity|].
    split; [constructor; [apply r_num; reflexivity|constructor; [apply r_num; reflexivity|constructor]]|].
    split; [|right; exists []; split; [reflexivity|constructor]].
    constructor; [|constructor; [|constructor; [|constructor; [|constructor; [|constructor; [|constructor]]]]]].
    + split; [apply no_newline; reflexivity|].
      exists 2%N, (lit " 2"), (lit " " ++ QUOTE :: lit "a" ++ QUOTE :: (lit " " ++ QUOTE :: lit "b" ++ QUOTE :: [])), [].
      split; [reflexivity|]. split; [apply (number_lit 2 (lit "2")); [discriminate|reflexivity|reflexivity]|]. split; [lia|].
      split; [|split; [reflexivity|exact I]].
      apply (quoted_list_cons (lit " ") (lit "a")); [split; [discriminate|repeat constructor]|intros [H|[]]; discriminate|].
      apply (quoted_list_cons (lit " ") (lit "b") [] []); [split; [discriminate|repeat constructor]|intros [H|[]]; discriminate|constructor].
    + split; [apply no_newline; reflexivity|]. exists (wtext [lit "MEV"]), (lit " MM"). split; [reflexivity|]. split; [left; left; reflexivity|]. apply word_list_wtext. reflexivity.
    + split; [apply no_newline; reflexivity|]. exists "V"%char, (lit " -1 0 0 0 0 0 0 1 0"). split; [reflexivity|]. left; reflexivity.
    + apply hr_particle; try reflexivity; [int_lit ""%string "22"%string|int_lit ""%string "1"%string].
    + apply hr_particle; try reflexivity; [int_lit "-"%string "11"%string|int_lit ""%string "2"%string].
    + apply hr_particle; try reflexivity; [int_lit "-"%string "11"%string|int_lit ""%string "1"%string].
  - intros l [H|H]; [injection H as <-|].
    + intros n [<-|[]]. right; left; reflexivity.
    + repeat (destruct H as [H|H]; [discriminate|]). contradiction.
  - intros x _. repeat constructor.
  - reflexivity.
Qed.

(** An LHEF record with three particles *)
Definition lr_line (id st px py pz e : string) : text :=
  (lit " ") ++ lit id ++ wtext [lit st; lit "0"; lit "0"; lit "501"; lit "0"; lit px; lit py; lit pz; lit e] ++ lit " 0. 0. 9.".
Definition lr_lines : list text := [lr_line "21" "-1" "0" "0" "7" "7"; lr_line "11" "1" "3" "4" "12" "13"; lr_line "-11" "1" "-3" "-4" "0" "5"].
Definition lr_contents : list (Z * Z * option (RN * RN * RN * RN)) :=
  [(21, -1, None); (11, 1, Some (IZR 13, IZR 3, IZR 4, IZR 12)); (-11, 1, Some (IZR 5, IZR (-3), IZR (-4), IZR 0))]%Z.
Definition lr_record : text := [NL] ++ lit "<event>" ++ newline :: lit " " ++ lit "3" ++ wtext [lit "1"; lit "5"] ++ lit " 0 0 0" ++
  concat (map (cons newline) lr_lines) ++ [newline] ++ lit "# comment </event>".
Lemma lr_particle id st px py pz e idz (pxz pyz pzz ez : Z) stz :
  existsb (ceq NL) (lr_line id st px py pz e) = false -> existsb (ceq CR) (lr_line id st px py pz e) = false ->
  forallb wordb (map lit [st; "0"; "0"; "501"; "0"; px; py; pz; e]%string) = true ->
  int_word idz (lit id) -> int_word stz (lit st) ->
  z_double (lit px) = Some (pxz, []) -> z_double (lit py) = Some (pyz, []) -> z_double (lit pz) = Some (pzz, []) -> z_double (lit e) = Some (ez, []) ->
  lhef_line r_double (lr_line id st px py pz e) idz stz (Some (IZR ez : RN, IZR pxz, IZR pyz, IZR pzz)).
Proof.
  intros Hn Hc Hw Hid Hst Hx Hy Hz He. split; [apply no_newline, Hn|]. split.
  { intros Hin. assert (existsb (ceq CR) (lr_line id st px py pz e) = true); [|congruence]. apply existsb_exists. eexists; split; [exact Hin|reflexivity]. }
  exists (lit " "), (lit id). eexists. split; [reflexivity|]. split; [repeat constructor|]. split; [exact Hid|].
  exists (lit st), (lit "0"), (lit "0"), (lit "501"), (lit "0"), (lit px), (lit py), (lit pz), (lit e). eexists _, (lit " 0. 0. 9.").
  split; [reflexivity|]. split; [apply word_list_wtext, Hw|]. split; [left; left; reflexivity|]. split; [exact Hst|].
  split; [apply r_num, Hx|]. split; [apply r_num, Hy|]. split; [apply r_num, Hz|apply r_num, He].
Qed.
Example C53_lhef_case : lhef_record r_double lr_record (IZR 5) lr_contents /\ 2 <= length lr_contents /\
  (forall x, In x (lhef_outgoing lr_contents) -> mom_in (fun _ : RN => True) (in_gev false (snd x))) /\ map fst (lhef_outgoing lr_contents) = [11; -11]%Z.
Proof.
  split; [|split; [cbn; lia|split; [intros x _; repeat constructor|reflexivity]]].
  exists [NL], (lit "<event>"), (lit " "), (lit "3"), (wtext [lit "1"; lit "5"]), (lit "1"), (lit "5"), (lit " 0 0 0"), lr_lines, ([newline] ++ lit "# comment </event>").
  split; [reflexivity|]. split; [constructor; [left; right; left; reflexivity|constructor]|]. split; [discriminate|]. split; [apply no_newline; reflexivity|].
  split; [cbn; intros H; repeat (destruct H as [H|H]); discriminate|]. split; [repeat constructor|]. split; [discriminate|]. split; [apply digits_ok; reflexivity|].
  split; [reflexivity|]. split; [cbn; lia|]. split; [apply word_list_wtext; reflexivity|]. split; [apply r_num; reflexivity|].
  split; [left; left; reflexivity|]. split; [apply no_newline; reflexivity|]. split; [|eexists; reflexivity].
  constructor; [|constructor; [|constructor; [|constructor]]].
  - split; [apply no_newline; reflexivity|]. split; [intros H; repeat (destruct H as [H|H]; [discriminate|]); contradiction|].
    exists (lit " "), (lit "21"). eexists. split; [reflexivity|]. split; [repeat constructor|]. split; [int_lit ""%string "21"%string|].
    exists (lit "-1"), (wtext [lit "-1"]). eexists. split; [reflexivity|]. split; [apply word_list_wtext; reflexivity|]. split; [left; left; reflexivity|].
    split; [int_lit "-"%string "1"%string|discriminate].
  - apply lr_particle; try reflexivity; [int_lit ""%string "11"%string|int_lit ""%string "1"%string].
  - apply lr_particle; try reflexivity; [int_lit "-"%string "11"%string|int_lit ""%string "1"%string].
Qed.

(** A STRIPPER XML record with an incoming and an outgoing particle; [gap] is before the energy *)
Definition xr_p1 : text := [NL] ++ lit "<p" ++ lit " " ++ lit "id=" ++ [QUOTE] ++ lit "1" ++ lit ",21" ++ [QUOTE] ++ lit "> 7,0,0,7 </p>".
Definition xr_p2 (gap : text) : text := [NL] ++ lit "<p" ++ lit " " ++ lit "id=" ++ [QUOTE] ++ lit "0" ++
  ("," :: lit "22" ++ [QUOTE; ">"] ++ gap ++ lit "17" ++ "," :: lit "8" ++ "," :: lit "0" ++ "," :: lit "15" ++ lit " " ++ lit "</p>")%char.
Definition xr_contents (N : NumOps) (f : Z -> N) : list (Z * option (Z * (N * N * N * N))) := [(1, None); (0, Some (22, (f 17, f 8, f 0, f 15)))]%Z.
Definition xr_record (gap : text) : text := subevent_start ++ lit " " ++ lit "w=" ++ [QUOTE] ++ lit "5" ++ [QUOTE] ++ lit " nreweight=0" ++ [">"%char] ++
  concat [xr_p1; xr_p2 gap] ++ lit "</se>".
Lemma xr_ok (N : NumOps) double (f : Z -> N) (gap : text) (P : text -> Prop) :
  (forall t z, z_double t = Some (z, []) -> num_word double (f z) t) -> P gap ->
  xml_record double P (xr_record gap) (f 5%Z) (xr_contents N f).
Proof.
  intros Hf Hg. exists (lit " "), (lit "5"), (lit " nreweight=0"), [xr_p1; xr_p2 gap], (lit "</se>").
  split; [reflexivity|]. split; [split; [discriminate|repeat constructor]|]. split; [apply Hf; reflexivity|].
  split; [intros H; repeat (destruct H as [H|H]; [discriminate|]); contradiction|].
  split; [|exists [], (lit "</se>"); split; [reflexivity|]; split; [constructor|]; split; [cbn; intros H; repeat (destruct H as [H|H]); discriminate|intros [b Hb]; discriminate]].
  constructor; [|constructor; [|constructor]].
  - exists [NL], (lit " "), (lit "1"), (lit ",21" ++ [QUOTE] ++ lit "> 7,0,0,7 </p>"). split; [reflexivity|]. split; [constructor; [right; right; left; reflexivity|constructor]|].
    split; [repeat constructor|]. split; [int_lit ""%string "1"%string|]. split; [discriminate|].
    split; [cbn; unfold decimal_digit; cbn; lia|].
    split; [exists (lit ",21" ++ [QUOTE] ++ lit "> 7,0,0,7 "); reflexivity|].
    intros a b H. do 14 (destruct a as [|c a]; [cbn in H; discriminate H|cbn in H; injection H as <- H]).
    destruct a as [|c a]; [|exfalso; apply (f_equal (@length _)) in H; cbn in H; rewrite app_length in H; cbn in H; lia].
    cbn in H. injection H as H. symmetry; exact H.
  - exists [NL], (lit " "), (lit "0"). eexists. split; [reflexivity|]. split; [constructor; [right; right; left; reflexivity|constructor]|].
    split; [repeat constructor|]. split; [int_lit ""%string "0"%string|]. split; [reflexivity|].
    exists (lit "22"), (lit "17"), (lit "8"), (lit "0"), (lit "15"), gap, (lit " "). split; [reflexivity|]. split; [exact Hg|]. split; [repeat constructor|].
    split; [int_lit ""%string "22"%string|]. split; [apply Hf; reflexivity|]. split; [apply Hf; reflexivity|]. split; apply Hf; reflexivity.
Qed.
Example C54_case : xml_record r_double blanks (xr_record (lit " ")) (IZR 5) (xr_contents RN IZR) /\
  (forall x, In x (xml_outgoing (xr_contents RN IZR)) -> mom_in (fun _ : RN => True) (in_gev false (snd x))) /\ map fst (xml_outgoing (xr_contents RN IZR)) = [22%Z].
Proof.
  split; [|split; [intros x _; repeat constructor|reflexivity]].
  apply xr_ok; [|split; [discriminate|repeat constructor]]. intros t z H. apply r_num, H.
Qed.

(** ... otherwise the first digit of the energy is lost: here 17 is read as 7. *)
Theorem C54_stripper_refuted : exists (N : NumOps) (D : N -> Prop) double show sort record w contents,
  cmp_on N D /\ sort_ok sort /\ number_text N D double show /\
  xml_record double (Forall blank) record w contents /\
  (forall x, In x (xml_outgoing contents) -> mom_in D (in_gev false (snd x))) /\
  exists ev, parse_stripper_xml double false sort record = Ok ev /\
    ~ Permutation (map (fun x => (fst x, in_gev false (snd x))) (xml_outgoing contents)) (particles_of (ev_out ev)).
Proof.
  exists ZN, (fun _ => True), z_double, z_show, isort, (xr_record []), 5%Z, (xr_contents ZN (fun z => z)).
  split; [|split; [exact isort_ok|split; [exact z_text|split; [apply (xr_ok ZN z_double (fun z => z) [] (Forall blank)); [intros t z H; exact H|constructor]|split; [intros x _; repeat constructor|]]]]].
  - split; [split; [split; [intros x y _ _; cbn; rewrite !Z.leb_le; lia|intros x y z _ _ _; cbn; rewrite !Z.leb_le; lia]|intros x y _ _; cbn; rewrite Z.ltb_antisym; reflexivity]|].
    intros x y _ _. cbn. destruct (Z.eqb_spec x y), (Z.leb_spec x y), (Z.leb_spec y x); cbn; lia || reflexivity.
  - exists (mkEvent 0 [5%Z : ZN] [(22%Z, [mkFV (N:=ZN) 8 7 8 0 15]%Z)]). split; [vm_cast_no_check (eq_refl (Ok (mkEvent 0 [5%Z : ZN] [(22%Z, [mkFV (N:=ZN) 8 7 8 0 15]%Z)])))|].
    intros H. apply Permutation_length_1 in H. discriminate.
Qed.
Print Assumptions C54_stripper_refuted.
