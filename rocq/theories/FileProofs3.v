(** Rewriting whole STRIPPER XML files and reading them again; scale factors. *)
From Verif Require Import Base BaseProofs Num ModelEvent ModelText SpecText SpecFormats TextProofs ReaderProofs ParserProofs
  ModelHepMC ModelStripper FormatProofs FileProofs FileProofs2.
From Coq Require Import Lia Permutation.

Definition only_first (x : text) : Prop := forall a b, x = a ++ subevent_mark ++ b -> a = [].
Definition at_start (x : text) : Prop := x = [] \/ begins_with subevent_mark x.

Lemma piece_step (x y X Y : text) : only_first x -> at_start X -> at_start Y ->
  (y <> [] \/ ~ occurs subevent_mark x) -> forall s, x = y ++ s -> Y = s ++ X -> s = [].
Proof.
  intros Hx HX HY Hy s -> HYs. destruct s as [|c s]; [reflexivity|]. exfalso.
  destruct HY as [->|[Y' ->]]; [discriminate|].
  destruct (app_split_mid _ _ _ _ HYs) as [(q & Hq & HX')|(q & Hq & HX')].
  - (* mark = (c :: s) ++ q *) destruct q as [|d q].
    + rewrite app_nil_r in Hq. assert (y = []) as ->.
      { apply (Hx y []). rewrite <- Hq, app_nil_r. reflexivity. }
      destruct Hy as [Hy|Hy]; [congruence|]. apply Hy. exists [], []. rewrite <- Hq, app_nil_r. reflexivity.
    + destruct HX as [->|[X' ->]]; [discriminate|]. unfold subevent_mark in Hq, HX'. cbn in HX'. injection HX' as <- _.
      cbn in Hq. injection Hq as <- Hq. destruct s as [|e s]; [discriminate|]. injection Hq as <- Hq. destruct s as [|e s]; [discriminate|].
      injection Hq as _ Hq. destruct s; discriminate.
  - assert (y = []) as ->.
    { apply (Hx y q). rewrite Hq. reflexivity. }
    destruct Hy as [Hy|Hy]; [congruence|]. apply Hy. exists [], q. exact Hq.
Qed.
Lemma piece_unique (x y X Y : text) : only_first x -> only_first y -> at_start X -> at_start Y ->
  (y <> [] \/ ~ occurs subevent_mark x) -> (x <> [] \/ ~ occurs subevent_mark y) -> x ++ X = y ++ Y -> x = y /\ X = Y.
Proof.
  intros Hx Hy HX HY Hyx Hxy E. destruct (app_split_mid _ _ _ _ E) as [(s & Hs & Hq)|(s & Hs & Hq)].
  - pose proof (piece_step x y X Y Hx HX HY Hyx s Hs Hq). subst s. rewrite app_nil_r in Hs. auto.
  - pose proof (piece_step y x Y X Hy HY HX Hxy s Hs Hq). subst s. rewrite app_nil_r in Hs. auto.
Qed.
Lemma concat_at_start rs : (forall r, In r rs -> begins_with subevent_mark r) -> at_start (concat rs).
Proof.
  destruct rs as [|r rs]; [left; reflexivity|]. intros H. right. destruct (H r (or_introl eq_refl)) as [b ->].
  exists (b ++ concat rs). cbn [concat]. rewrite <- app_assoc. reflexivity.
Qed.
Lemma stripper_records_unique : forall rs rs',
  (forall r, In r rs -> begins_with subevent_mark r /\ only_first r) -> (forall r, In r rs' -> begins_with subevent_mark r /\ only_first r) ->
  concat rs = concat rs' -> rs = rs'.
Proof.
  induction rs as [|r rs IH]; intros [|r' rs'] H H' E; cbn [concat] in E; [reflexivity| | |].
  - destruct (H' r' (or_introl eq_refl)) as [[b ->] _]. discriminate.
  - destruct (H r (or_introl eq_refl)) as [[b ->] _]. discriminate.
  - destruct (H r (or_introl eq_refl)) as [[b Hb] Ho]. destruct (H' r' (or_introl eq_refl)) as [[b' Hb'] Ho'].
    assert (Hne : r <> []) by (subst r; discriminate). assert (Hne' : r' <> []) by (subst r'; discriminate).
    destruct (piece_unique r r' (concat rs) (concat rs')) as [<- E']; auto.
    + apply concat_at_start. intros z Hz. apply H. right. exact Hz.
    + apply concat_at_start. intros z Hz. apply H'. right. exact Hz.
    + f_equal. apply IH; auto; intros z Hz; [apply H|apply H']; right; exact Hz.
Qed.
Lemma stripper_parts_unique file h1 r1 h2 r2 : stripper_parts file h1 r1 -> stripper_parts file h2 r2 -> h1 = h2 /\ r1 = r2.
Proof.
  intros (E1 & _ & O1 & R1) (E2 & _ & O2 & R2). rewrite E1 in E2.
  assert (Hof : forall h, ~ occurs subevent_start h -> only_first h).
  { intros h Hh a b ->. exfalso. apply Hh. exists a, b. reflexivity. }
  destruct (piece_unique h1 h2 (concat r1) (concat r2)) as [<- E]; auto.
  - apply concat_at_start. intros z Hz. apply R1. exact Hz.
  - apply concat_at_start. intros z Hz. apply R2. exact Hz.
  - split; [reflexivity|]. apply stripper_records_unique; assumption.
Qed.

Lemma parts_not_finish file h rs : stripper_parts file h rs -> (forall r, In r rs -> 3 < length r) -> ~ finishes_with subevent_mark file.
Proof.
  intros (-> & Hne & _ & Hr) Hl. destruct (exists_last Hne) as (rs0 & r & ->). rewrite concat_app, app_assoc. cbn [concat]. rewrite app_nil_r.
  assert (Hin : In r (rs0 ++ [r])) by (apply in_or_app; right; left; reflexivity).
  intros [a Ha]. destruct (app_split_mid _ _ _ _ Ha) as [(s & Hs & Hq)|(s & Hs & Hq)].
  - assert (Hlen := f_equal (@length _) Hq). rewrite app_length in Hlen. specialize (Hl r Hin). change (length subevent_mark) with 3 in Hlen. unfold text in *. lia.
  - destruct (Hr r Hin) as [_ Ho]. assert (s = []) as -> by (apply (Ho s []); rewrite app_nil_r; exact Hq).
    specialize (Hl r Hin). rewrite Hq in Hl. cbn in Hl. lia.
Qed.

Lemma stripper_read_parts checks n file h rs : stripper_parts file h rs -> ~ finishes_with subevent_mark file ->
  exists r, stripper_open checks n file = Some r /\ sr_header r = h /\ sr_file r = file /\ sr_rem r = n /\
    (forallb utf8 rs = true -> (checks = true -> N.of_nat (length rs) <= n)%N -> exists e, stripper_records checks r = Some (rs, e)) /\
    (forall l e, stripper_records checks r = Some (l, e) -> l = rs /\ forallb utf8 rs = true).
Proof.
  intros Hp Hend. unfold stripper_open. destruct (stripper_init_spec checks file) as [[Hno _]|(h' & rest & Hfile & Hno & ->)].
  - exfalso. apply Hno. destruct Hp as (-> & Hne & _ & Hr). destruct rs as [|r rs]; [congruence|]. destruct (Hr r (or_introl eq_refl)) as [[b ->] _].
    apply occurs_app_r. exists [], (b ++ concat rs). cbn [concat]. rewrite <- app_assoc. reflexivity.
  - exists (mkSReader file rest n h'). split; [reflexivity|]. cbn [sr_header sr_file sr_rem].
    assert (Hend' : ~ finishes_with subevent_mark (se rest)).
    { intros [a Ha]. apply Hend. exists (h' ++ a). rewrite Hfile, Ha, app_assoc. reflexivity. }
    assert (Hne : rest <> []).
    { intros ->. apply Hend'. exists []. reflexivity. }
    destruct (stripper_rest_spec checks (S (length rest)) (mkSReader file rest n h')) as (rs' & Hc & Hne' & Hr' & Hok & Honly); cbn [sr_source]; auto.
    cbn [sr_source sr_rem] in *.
    assert (Hp' : stripper_parts file h' rs').
    { split; [rewrite Hfile, Hc; reflexivity|]. auto. }
    destruct (stripper_parts_unique _ _ _ _ _ Hp Hp') as [-> ->]. do 3 (split; [reflexivity|]). split.
    + exact Hok.
    + intros l e H. apply Honly. unfold stripper_records in H. cbn [sr_source] in H. rewrite H. reflexivity.
Qed.

Lemma stripper_parts_exist checks n file r : stripper_open checks n file = Some r -> occurs subevent_start file -> ~ finishes_with subevent_start file ->
  exists rs, stripper_parts file (sr_header r) rs /\
    (forallb utf8 rs = true -> (checks = true -> N.of_nat (length rs) <= n)%N -> exists e, stripper_records checks r = Some (rs, e)) /\
    (forall l e, stripper_records checks r = Some (l, e) -> l = rs /\ forallb utf8 rs = true).
Proof.
  intros Ho Hocc Hend. pose proof Ho as Ho'. unfold stripper_open in Ho. destruct (stripper_init_spec checks file) as [[Hno _]|(h' & rest & Hfile & Hno & E)]; [contradiction|].
  rewrite E in Ho. injection Ho as <-. cbn [sr_header].
  assert (Hend' : ~ finishes_with subevent_mark (se rest)).
  { intros [a Ha]. apply Hend. exists (h' ++ a). rewrite Hfile, Ha, app_assoc. reflexivity. }
  assert (Hne : rest <> []).
  { intros ->. apply Hend'. exists []. reflexivity. }
  destruct (stripper_rest_spec checks (S (length rest)) (mkSReader file rest n h')) as (rs' & Hc & Hne' & Hr' & Hok & Honly); cbn [sr_source]; auto.
  exists rs'. assert (Hp' : stripper_parts file h' rs').
  { split; [rewrite Hfile; cbn [sr_source] in Hc; rewrite Hc; reflexivity|]. auto. }
  split; [exact Hp'|]. split; [exact Hok|]. intros l e H. apply Honly. unfold stripper_records in H. cbn [sr_source] in H. rewrite H. reflexivity.
Qed.

(** *** After any history a rewound reader is a new one, except for the number of remaining events *)
Inductive stripper_reach (checks : bool) : sreader -> sreader -> Prop :=
| sreach_refl r : stripper_reach checks r r
| sreach_read r record r1 r2 : stripper_read_raw checks r = SRecord record r1 -> stripper_reach checks r1 r2 -> stripper_reach checks r r2
| sreach_utf8 r r1 r2 : stripper_read_raw checks r = SUtf8Error r1 -> stripper_reach checks r1 r2 -> stripper_reach checks r r2
| sreach_end r r2 : stripper_read_raw checks r = SEnd -> stripper_reach checks (mkSReader (sr_file r) [] (sr_rem r) (sr_header r)) r2 -> stripper_reach checks r r2
| sreach_rewind r r1 r2 : stripper_rewind checks r = Some r1 -> stripper_reach checks r1 r2 -> stripper_reach checks r r2.

Lemma stripper_reach_file checks r r' : stripper_reach checks r r' -> sr_file r' = sr_file r /\ sr_header r' = sr_header r.
Proof.
  induction 1 as [| |r r1 r2 H Hr IH|r r2 H Hr IH|r r1 r2 H Hr IH].
  - auto.
  - destruct (stripper_read_file _ _ _ _ H). intuition congruence.
  - assert (sr_file r1 = sr_file r /\ sr_header r1 = sr_header r); [|intuition congruence].
    unfold stripper_read_raw in H. repeat match type of H with context[match ?x with _ => _ end] => destruct x; try discriminate end; injection H as <-; auto.
  - exact IH.
  - assert (sr_file r1 = sr_file r /\ sr_header r1 = sr_header r); [|intuition congruence].
    unfold stripper_rewind in H. destruct (stripper_init checks (sr_file r)) as [[h s]|]; [|discriminate]. injection H as <-. auto.
Qed.
Lemma stripper_rewind_open checks n file r r' : stripper_open checks n file = Some r -> stripper_reach checks r r' ->
  stripper_rewind checks r' = stripper_open checks (sr_rem r') file.
Proof.
  intros Ho Hr. destruct (stripper_reach_file _ _ _ Hr) as [Hf Hh]. unfold stripper_open, stripper_rewind in *.
  destruct (stripper_init checks file) as [[h s]|] eqn:E; [|discriminate]. injection Ho as <-. cbn [sr_file sr_header] in *.
  rewrite Hf, E, Hh. reflexivity.
Qed.

(** reading all records counts down *)
Lemma stripper_rest_count checks : forall fuel r l e, stripper_rest checks fuel r = Some (l, e) ->
  (N.of_nat (length l) <= sr_rem r)%N -> sr_rem e = (sr_rem r - N.of_nat (length l))%N /\ stripper_reach checks r e.
Proof.
  induction fuel as [|fuel IH]; intros r l e H; cbn [stripper_rest] in H; [discriminate|].
  destruct (stripper_read_raw checks r) as [|record r1| |] eqn:E; try discriminate.
  - injection H as <- <-. intros _. cbn. split; [lia|]. apply sreach_end; [exact E|]. apply sreach_refl.
  - destruct (stripper_rest checks fuel r1) as [[l' e']|] eqn:E1; [|discriminate]. injection H as <- <-. cbn [length]. intros Hle.
    assert (Hrem : sr_rem r1 = (sr_rem r - 1)%N).
    { destruct (stripper_read_raw_spec checks r) as [[_ H]|(rec & rest & _ & _ & _ & H)]; rewrite E in H; [discriminate|].
      destruct (utf8 rec); [|discriminate]. unfold usize_pred in H. destruct (sr_rem r =? 0)%N eqn:E0.
      - apply N.eqb_eq in E0. lia.
      - injection H as _ ->. reflexivity. }
    destruct (IH _ _ _ E1) as [H1 H2]; [lia|]. split; [lia|]. eapply sreach_read; eauto.
Qed.
Lemma stripper_no_rem r l e : sr_rem r = 0%N -> stripper_records true r = Some (l, e) -> l = [].
Proof.
  intros H0. unfold stripper_records. cbn [stripper_rest]. destruct (stripper_read_raw true r) as [|record r1| |] eqn:E; try discriminate.
  - intros H; injection H as <- <-. reflexivity.
  - destruct (stripper_read_raw_spec true r) as [[_ H]|(rec & rest & _ & _ & _ & H)]; rewrite E in H; [discriminate|].
    destruct (utf8 rec); [|discriminate]. unfold usize_pred in H. rewrite H0 in H. discriminate.
Qed.

Section File.
Context (N : NumOps) (D : N -> Prop) (double : parser N) (show : N -> text) (sort : sorter).
Hypothesis HT : number_text N D double show.

Lemma stripper_loop checks mw scale : forall ws fuel r out n records e,
  stripper_rest checks fuel r = Some (records, e) ->
  stripper_update_loop double show checks mw scale ws r out n =
    bind (update_list (stripper_update double show mw scale) ws records) (fun l => Ok (out ++ concat l, n + length l)).
Proof.
  induction ws as [|w ws IH]; intros fuel r out n records e H; cbn [stripper_update_loop update_list].
  - cbn. rewrite app_nil_r, Nat.add_0_r. reflexivity.
  - destruct fuel as [|fuel]; [discriminate|]. cbn [stripper_rest] in H.
    destruct (stripper_read_raw checks r) as [|record r1| |]; try discriminate.
    + injection H as <- <-. cbn. rewrite app_nil_r, Nat.add_0_r. reflexivity.
    + destruct (stripper_rest checks fuel r1) as [[l e']|] eqn:E; [|discriminate]. injection H as <- <-.
      destruct (stripper_update double show mw scale w record) as [r'|e0|]; cbn [bind]; try reflexivity.
      rewrite (IH _ _ _ _ _ _ E). destruct (update_list (stripper_update double show mw scale) ws l) as [l'|e0|]; cbn [bind]; try reflexivity.
      cbn [concat length]. rewrite <- app_assoc. do 2 f_equal. lia.
Qed.
Lemma stripper_update_all_list checks mw scale ws n file r records e : stripper_open checks n file = Some r ->
  stripper_records checks r = Some (records, e) ->
  stripper_update_all double show checks mw scale ws r =
    bind (update_list (stripper_update double show mw scale) ws records) (fun l => Ok (sr_header r ++ concat l, length l)).
Proof.
  intros Ho H. unfold stripper_update_all. rewrite (stripper_rewind_open checks n file r r Ho (sreach_refl _ _)).
  assert (E : stripper_open checks (sr_rem r) file = Some r).
  { unfold stripper_open in *. destruct (stripper_init checks file) as [[h s]|]; [|discriminate]. injection Ho as <-. reflexivity. }
  rewrite E. exact (stripper_loop checks mw scale ws _ r (sr_header r) 0 records e H).
Qed.

Lemma quote_not_mark : ~ In QUOTE subevent_mark.
Proof. vm_compute. intuition discriminate. Qed.

(** replacing the weight keeps the shape of a record *)
Lemma stripper_replaced_record pre num post w : D w -> stripper_weight (pre ++ num ++ post) pre num post ->
  utf8 (pre ++ num ++ post) = true -> only_first (pre ++ num ++ post) ->
  utf8 (pre ++ show w ++ post) = true /\ begins_with subevent_mark (pre ++ show w ++ post) /\ only_first (pre ++ show w ++ post) /\
  3 < length (pre ++ show w ++ post).
Proof.
  intros Hw (_ & (s & Hpre & Hs) & Hn & [b Hb]) Hu Ho. destruct (nt_show _ _ _ _ HT w Hw) as [Hsne Hsn].
  assert (Hnum : forall x, Forall number_char x -> Forall is_ascii x) by (intros x Hx; eapply Forall_impl; [exact number_ascii|exact Hx]).
  assert (Hpa : Forall is_ascii pre).
  { rewrite Hpre. apply Forall_app. split; [repeat constructor|]. apply Forall_app. split; [|repeat constructor].
    destruct Hs as [_ Hs]. eapply Forall_impl; [|exact Hs]. intros c Hc. apply whitespace_ascii. left. exact Hc. }
  split; [|split; [|split]].
  - rewrite !utf8_ascii_app in * by auto. exact Hu.
  - exists (s ++ lit "w=" ++ [QUOTE] ++ show w ++ post). rewrite Hpre. rewrite <- !app_assoc. reflexivity.
  - intros u v H.
    assert (Hpre' : pre = (subevent_mark ++ s ++ lit "w=") ++ [QUOTE]) by (rewrite Hpre, <- !app_assoc; reflexivity).
    set (a := subevent_mark ++ s ++ lit "w=") in *.
    rewrite Hpre', <- app_assoc in H. cbn [app] in H.
    assert (Hlt : ~ In "<"%char (show w)) by (intros Hin; rewrite Forall_forall in Hsn; exact (lt_not_number (Hsn _ Hin))).
    destruct (occurs_gap "<" (tl subevent_mark) a post u v (show w) QUOTE quote_not_mark Hlt H) as [(v' & Ha & Hv)|(u' & Hb' & Hu')].
    + apply (Ho u (v' ++ [QUOTE] ++ num ++ post)). rewrite Hpre', Ha, <- !app_assoc. reflexivity.
    + exfalso. assert (E : pre ++ num ++ u' = []).
      { apply (Ho _ v). rewrite Hb', <- !app_assoc. reflexivity. }
      rewrite Hpre' in E. unfold a in E. discriminate.
  - rewrite Hpre. unfold text in *. rewrite <- !app_assoc. cbn. destruct Hs as [Hs _]. destruct s; [congruence|]. cbn. lia.
Qed.

(** events are read with rescaled weights *)
Definition read_scaled (mw : bool) (scale : N) (record : text) : res (Event N) :=
  bind (rescale_weight double show scale record) (parse_stripper_xml double mw sort).

Lemma stripper_one mw scale record pre num post v ev w :
  stripper_weight record pre num post -> double num = Some (v, []) -> D (nmul scale v) ->
  read_scaled mw scale record = Ok ev -> D (ndiv w scale) -> D w -> nmul scale (ndiv w scale) = w ->
  stripper_update double show mw scale [w] record = Ok (pre ++ show (ndiv w scale) ++ post) /\
  ev_weights ev = [nmul scale v] /\
  read_scaled mw scale (pre ++ show (ndiv w scale) ++ post) = Ok (mkEvent (ev_id ev) [w] (ev_out ev)).
Proof.
  intros Hsw Hd HDv Hev HDq HDw Hscale. unfold read_scaled in *. unfold rescale_weight in *.
  rewrite (stripper_replace N D double show HT record pre num post v _ Hsw Hd) in Hev. cbn [bind] in Hev.
  pose proof (stripper_weight_other N D double show HT record pre num post (ndiv w scale) Hsw HDq) as Hsw2.
  assert (Hpost : begins_with [QUOTE] post) by (apply Hsw).
  assert (Hpre : exists s, pre = subevent_start ++ s ++ lit "w=" ++ [QUOTE] /\ blanks s) by (apply Hsw).
  assert (Hre : forall x v1 ev1, D v1 -> D x -> parse_stripper_xml double mw sort (pre ++ show v1 ++ post) = Ok ev1 ->
    parse_stripper_xml double mw sort (pre ++ show x ++ post) = Ok (mkEvent (ev_id ev1) [x] (ev_out ev1))).
  { intros x v1 ev1 Hv1 Hx. apply (stripper_read_back N D double show sort HT mw pre (show v1) (show x) post v1 x ev1 Hpre Hpost);
      apply (nt_round _ _ _ _ HT); assumption. }
  split; [|split].
  - unfold stripper_update. cbn [weights_is_empty]. change (central [w]) with (Some w). cbv iota.
    rewrite (stripper_replace N D double show HT record pre num post v _ Hsw Hd). cbn [bind]. destruct mw; reflexivity.
  - pose proof (Hre _ _ _ HDv HDv Hev) as H. rewrite Hev in H. injection H as H. rewrite H. reflexivity.
  - rewrite (stripper_replace N D double show HT _ pre (show (ndiv w scale)) post (ndiv w scale) _ Hsw2 (nt_round _ _ _ _ HT _ HDq)).
    cbn [bind]. rewrite Hscale. exact (Hre _ _ _ HDv HDw Hev).
Qed.

Lemma stripper_file checks mw scale n file r records e ws :
  stripper_open checks n file = Some r -> occurs subevent_start file -> ~ finishes_with subevent_start file ->
  stripper_records checks r = Some (records, e) -> (checks = true -> N.of_nat (length records) <= n)%N ->
  length ws = length records ->
  (forall w, In w ws -> D w /\ D (ndiv w scale) /\ nmul scale (ndiv w scale) = w) ->
  (forall x, In x records -> exists pre num post v, stripper_weight x pre num post /\ double num = Some (v, []) /\ D (nmul scale v)) ->
  (forall x, In x records -> exists ev, read_scaled mw scale x = Ok ev) ->
  exists file' records' r', stripper_update_all double show checks mw scale (map (fun w => [w]) ws) r = Ok (file', length records) /\
    stripper_open checks n file' = Some r' /\ sr_header r' = sr_header r /\
    (exists e', stripper_records checks r' = Some (records', e')) /\ length records' = length records /\
    forall i w x x', nth_error ws i = Some w -> nth_error records i = Some x -> nth_error records' i = Some x' ->
      (exists pre num post, stripper_weight x pre num post /\ x' = pre ++ show (ndiv w scale) ++ post) /\
      exists ev, read_scaled mw scale x = Ok ev /\ read_scaled mw scale x' = Ok (mkEvent (ev_id ev) [w] (ev_out ev)).
Proof.
  intros Ho Hocc Hend Hrec Hn Hlen HD Hweights Hparse.
  destruct (stripper_parts_exist checks n file r Ho Hocc Hend) as (rs & Hparts & _ & Honly).
  destruct (Honly _ _ Hrec) as [-> Hu]. clear Honly. rewrite forallb_forall in Hu.
  destruct Hparts as (Hfile & Hne & Hoh & Hb).
  set (P := fun (wl : list N) x x' => exists w, wl = [w] /\ D (ndiv w scale) /\
    (exists pre num post, stripper_weight x pre num post /\ x' = pre ++ show (ndiv w scale) ++ post) /\
    exists ev, read_scaled mw scale x = Ok ev /\ read_scaled mw scale x' = Ok (mkEvent (ev_id ev) [w] (ev_out ev))).
  destruct (update_list_forall2 (stripper_update double show mw scale) P (map (fun w => [w]) ws) rs) as (l & Hl & Hll & Hall).
  { rewrite map_length. exact Hlen. }
  { intros wl x Hwl Hx. apply in_map_iff in Hwl as (w & <- & Hw). destruct (HD w Hw) as (HDw & HDq & Hsc).
    destruct (Hweights x Hx) as (pre & num & post & v & Hsw & Hd & HDv). destruct (Hparse x Hx) as [ev Hev].
    destruct (stripper_one mw scale x pre num post v ev w Hsw Hd HDv Hev HDq HDw Hsc) as (H1 & _ & H3).
    exists (pre ++ show (ndiv w scale) ++ post). split; [exact H1|]. exists w. split; [reflexivity|]. split; [exact HDq|]. split; [eauto|]. exists ev. auto. }
  assert (Hnth : forall i x', nth_error l i = Some x' -> exists w x, nth_error ws i = Some w /\ nth_error rs i = Some x /\ P [w] x x').
  { intros i x' Hx'. assert (Hi : i < length l) by (apply nth_error_Some; congruence).
    destruct (nth_error ws i) as [w|] eqn:Ew; [|apply nth_error_None in Ew; unfold text in *; lia].
    destruct (nth_error rs i) as [x|] eqn:Er; [|apply nth_error_None in Er; unfold text in *; lia].
    exists w, x. split; [reflexivity|]. split; [reflexivity|]. apply (Hall i); auto. apply map_nth_error with (f := fun w => [w]). exact Ew. }
  assert (Hgood : forall x', In x' l -> utf8 x' = true /\ begins_with subevent_mark x' /\ only_first x' /\ 3 < length x').
  { intros x' Hin. destruct (In_nth_error _ _ Hin) as [i Hi]. destruct (Hnth i x' Hi) as (w & x & _ & Ex & (w' & E1 & HDq & (pre & num & post & Hsw & ->) & _)).
    injection E1 as <-. assert (Hinx : In x rs) by (eapply nth_error_In; exact Ex). pose proof Hsw as Hsw2. destruct Hsw2 as [Hx _]. subst x.
    apply (stripper_replaced_record pre num post); auto. intros a b. apply (Hb _ Hinx). }
  set (file' := sr_header r ++ concat l).
  assert (Hlne : l <> []) by (intros ->; destruct rs; [congruence|discriminate]).
  assert (Hparts' : stripper_parts file' (sr_header r) l).
  { split; [reflexivity|]. split; [exact Hlne|]. split; [exact Hoh|]. intros x' Hx'. destruct (Hgood x' Hx') as (_ & G1 & G2 & _). split; [exact G1|exact G2]. }
  assert (Hend' : ~ finishes_with subevent_mark file').
  { eapply parts_not_finish; [exact Hparts'|]. intros x' Hx'. apply Hgood. exact Hx'. }
  destruct (stripper_read_parts checks n file' _ l Hparts' Hend') as (r' & Ho' & Hh' & _ & _ & Hok & _).
  exists file', l, r'. split; [|split; [exact Ho'|split; [exact Hh'|split; [|split; [exact Hll|]]]]].
  - rewrite (stripper_update_all_list checks mw scale _ n file r rs e Ho Hrec). rewrite Hl. cbn [bind]. rewrite Hll. reflexivity.
  - apply Hok.
    + apply forallb_forall. intros x' Hx'. apply Hgood. exact Hx'.
    + intros Hc. specialize (Hn Hc). unfold text in *. rewrite Hll. exact Hn.
  - intros i w x x' Ew Ex Ex'. destruct (Hnth i x' Ex') as (w2 & x2 & Ew2 & Ex2 & (w3 & E3 & _ & Hrep & Hev)).
    pose proof (eq_trans (eq_sym Ew) Ew2) as Ew3. pose proof (eq_trans (eq_sym Ex) Ex2) as Ex3. injection Ew3 as <-. injection Ex3 as <-. injection E3 as <-. auto.
Qed.
End File.
Arguments read_scaled {N}.
