(** The readers split files without losing a byte. *)
From Verif Require Import Base BaseProofs ModelText SpecText SpecFormats TextProofs ModelHepMC ModelLHEF ModelStripper.
From Coq Require Import Lia.

Lemma removelast_snoc {A} (l : list A) x : removelast (l ++ [x]) = l.
Proof. apply removelast_last. Qed.

Lemma Ec_ascii : is_ascii "E"%char. Proof. reflexivity. Qed.
Lemma LTc_ascii : is_ascii "<"%char. Proof. reflexivity. Qed.
Lemma GTc_ascii : is_ascii ">"%char. Proof. reflexivity. Qed.

Lemma event_mark_last : exists m', event_mark = m' ++ ["E"%char].
Proof. exists [NL]. reflexivity. Qed.

(** *** HepMC *)

(** One record, in terms of the text: [E :: src] is what remains of the file. *)
Lemma hepmc_read_raw_spec src :
  (src = [] /\ hepmc_read_raw src = RawEnd) \/
  (src <> [] /\ ~ occurs event_mark ("E"%char :: src) /\
   hepmc_read_raw src = if utf8 ("E"%char :: src) then RawRecord ("E"%char :: src) [] else RawPanic) \/
  (exists y rest, src = y ++ NL :: "E"%char :: rest /\
     let record := "E"%char :: y ++ [NL] in
     ~ occurs event_mark record /\
     hepmc_read_raw src = if utf8 record then RawRecord record rest else RawPanic).
Proof.
  unfold hepmc_read_raw.
  pose proof (scan_spec "E" event_mark event_mark_last (S (length src)) ["E"%char] src (Nat.lt_succ_diag_r _)) as H.
  destruct (scan (S (length src)) "E" event_mark ["E"%char] src) as [rec rest|rec].
  - destruct H as (x & -> & -> & [Hx [a Ha]] & Hmin). right; right.
    destruct (exists_last Hx) as (x1 & c & ->).
    assert (Hx1 : exists y, x1 = y ++ [NL] /\ c = "E"%char).
    { assert (E : ("E"%char :: x1) ++ [c] = (a ++ [NL]) ++ ["E"%char]).
      { rewrite <- app_assoc. cbn in Ha |- *. exact Ha. }
      apply app_inj_tail in E as [E ->]. destruct x1 as [|d x1'] eqn:Ex1.
      - destruct a as [|? [|? ?]]; discriminate.
      - rewrite <- Ex1 in *. assert (Hne : x1 <> []) by congruence.
        destruct (exists_last Hne) as (y & d' & Hy). exists y. rewrite Hy in E.
        rewrite app_comm_cons in E. apply app_inj_tail in E as [_ ->]. auto. }
    destruct Hx1 as (y & -> & ->).
    exists y, rest. split; [rewrite <- !app_assoc; reflexivity|]. cbn zeta.
    split.
    + intros (p & q & Hpq).
      (* a prefix of the record that completes the marker *)
      destruct p as [|e p]; cbn in Hpq; [discriminate|]. injection Hpq as <- Hpq.
      apply (Hmin (p ++ event_mark) (q ++ ["E"%char])).
      * unfold event_mark. rewrite Hpq, <- !app_assoc. reflexivity.
      * destruct q; discriminate.
      * split; [destruct p; discriminate|]. exists ("E"%char :: p). reflexivity.
    + replace (removelast (["E"%char] ++ (y ++ [NL]) ++ ["E"%char])) with ("E"%char :: y ++ [NL]); [reflexivity|].
      rewrite app_assoc, removelast_snoc. reflexivity.
  - destruct H as [-> Hmin].
    destruct src as [|c src]; [left; auto|]. right; left. split; [discriminate|]. split.
    + intros (p & q & Hpq). destruct p as [|e p]; cbn in Hpq; [discriminate|]. injection Hpq as <- Hpq.
      apply (Hmin (p ++ event_mark) q).
      * rewrite Hpq. unfold event_mark. rewrite <- app_assoc. reflexivity.
      * split; [destruct p; discriminate|]. exists ("E"%char :: p). reflexivity.
    + reflexivity.
Qed.

(** All records, in terms of the text *)
Lemma hepmc_rest_spec file header : forall fuel src, length src < fuel ->
  ~ finishes_with event_mark ("E"%char :: src) -> src <> [] ->
  exists records,
    "E"%char :: src = concat records /\ records <> [] /\
    (forall r, In r records -> begins_with ["E"%char] r /\ ~ occurs event_mark r) /\
    all_but_last (finishes_with [NL]) records /\
    hepmc_rest fuel (mkReader file src header) = if forallb utf8 records then Some records else None.
Proof.
  induction fuel as [|fuel IH]; intros src Hl Hend Hne; [lia|].
  cbn [hepmc_rest]. unfold hepmc_next. cbn [rd_source rd_file rd_header].
  destruct (hepmc_read_raw_spec src) as [[-> _]|[(_ & Hno & Hraw)|(y & rest & Hsrc & Hno & Hraw)]]; [congruence| |].
  - exists ["E"%char :: src]. split; [cbn; rewrite app_nil_r; reflexivity|]. split; [discriminate|].
    split; [intros r [<-|[]]; split; [exists src; reflexivity|exact Hno]|].
    split; [intros a x b Hab Hb; destruct a as [|? [|? ?]]; try discriminate; injection Hab as _ <-; congruence|].
    rewrite Hraw. cbn [forallb]. destruct (utf8 ("E"%char :: src)); [|reflexivity].
    cbn [andb]. destruct fuel as [|fuel]; [cbn in Hl; destruct src; [congruence|cbn in Hl; lia]|]. reflexivity.
  - cbn zeta in Hno, Hraw. rewrite Hraw. set (record := "E"%char :: y ++ [NL]) in *.
    assert (Heq : "E"%char :: src = record ++ "E"%char :: rest).
    { unfold record. rewrite Hsrc. cbn. rewrite <- app_assoc. reflexivity. }
    assert (Hrne : rest <> []).
    { intros ->. apply Hend. exists ("E"%char :: y). rewrite Hsrc. reflexivity. }
    assert (Hend' : ~ finishes_with event_mark ("E"%char :: rest)).
    { intros [a Ha]. apply Hend. exists (record ++ a). rewrite Heq, Ha, app_assoc. reflexivity. }
    assert (Hl' : length rest < fuel).
    { rewrite Hsrc, app_length in Hl. cbn [length] in Hl. lia. }
    destruct (IH rest Hl' Hend' Hrne) as (records & Hc & Hr0 & Hr & Habl & Hrest).
    exists (record :: records). split; [cbn [concat]; rewrite <- Hc; exact Heq|]. split; [discriminate|].
    split; [intros r [<-|Hin]; [split; [exists (y ++ [NL]); reflexivity|exact Hno]|apply Hr; exact Hin]|].
    split.
    { intros a x b Hab Hb. destruct a as [|z a]; cbn in Hab.
      - injection Hab as <- _. exists ("E"%char :: y). reflexivity.
      - injection Hab as _ Hab. eapply Habl; eauto. }
    cbn [forallb]. destruct (utf8 record) eqn:U; [|reflexivity]. cbn [andb].
    rewrite Hrest. destruct (forallb utf8 records); reflexivity.
Qed.

Lemma hepmc_init_spec file :
  (~ occurs event_mark file /\ hepmc_init file = (removelast file, [])) \/
  (exists h rest, file = h ++ "E"%char :: rest /\ finishes_with [NL] h /\ ~ occurs event_mark h /\
     hepmc_init file = (h, rest)).
Proof.
  unfold hepmc_init.
  pose proof (scan_spec "E" event_mark event_mark_last (S (length file)) [] file (Nat.lt_succ_diag_r _)) as H.
  destruct (scan (S (length file)) "E" event_mark [] file) as [rec rest|rec].
  - destruct H as (x & -> & -> & [Hx [a Ha]] & Hmin). right. cbn [app] in *.
    exists (a ++ [NL]), rest. rewrite Ha. unfold event_mark.
    split; [rewrite <- !app_assoc; reflexivity|]. split; [exists a; reflexivity|]. split.
    + intros (p & q & Hpq). apply (Hmin (p ++ event_mark) (q ++ ["E"%char])).
      * rewrite Ha. unfold event_mark in *. replace (a ++ [NL; "E"%char]) with ((a ++ [NL]) ++ ["E"%char]) by (rewrite <- app_assoc; reflexivity).
        rewrite Hpq, <- !app_assoc. reflexivity.
      * destruct q; discriminate.
      * split; [destruct p; discriminate|]. exists p. reflexivity.
    + replace (a ++ [NL; "E"%char]) with ((a ++ [NL]) ++ ["E"%char]) by (rewrite <- app_assoc; reflexivity).
      rewrite removelast_snoc. reflexivity.
  - destruct H as [-> Hmin]. left. split; [|reflexivity].
    intros (p & q & Hpq). apply (Hmin (p ++ event_mark) q).
    + rewrite Hpq, <- app_assoc. reflexivity.
    + split; [destruct p; discriminate|]. exists p. reflexivity.
Qed.

(** The header, and what the records are, for every file with an event. *)
Lemma hepmc_records_spec file :
  occurs event_mark file -> ~ finishes_with event_mark file ->
  exists records, hepmc_parts file (rd_header (hepmc_open file)) records /\
    hepmc_records (hepmc_open file) = (if forallb utf8 records then Some records else None).
Proof.
  intros Hocc Hend. unfold hepmc_open, hepmc_records.
  destruct (hepmc_init_spec file) as [[Hno _]|(h & rest & Hfile & Hnl & Hno & ->)]; [contradiction|].
  cbn [rd_source rd_header].
  assert (Hend' : ~ finishes_with event_mark ("E"%char :: rest)).
  { intros [a Ha]. apply Hend. exists (h ++ a). rewrite Hfile, Ha, app_assoc. reflexivity. }
  assert (Hne : rest <> []).
  { intros ->. apply Hend. destruct Hnl as [a ->]. exists a. rewrite Hfile. rewrite <- app_assoc. reflexivity. }
  destruct (hepmc_rest_spec file h _ rest (Nat.lt_succ_diag_r _) Hend' Hne) as (records & Hc & Hr0 & Hr & Habl & Hrest).
  exists records. split; [|exact Hrest].
  split; [rewrite Hfile, Hc; reflexivity|]. split; [exact Hr0|]. split; [exact Hno|]. split; [exact Hnl|]. split; [exact Hr|exact Habl].
Qed.

(** UTF-8 of the file and of the records *)
Lemma utf8_concat (P : text -> Prop) c records : is_ascii c ->
  (forall r, In r records -> begins_with [c] r) ->
  utf8 (concat records) = forallb utf8 records.
Proof.
  intros Hc. induction records as [|r records IH]; intros Hb; [reflexivity|].
  cbn [concat forallb]. rewrite <- IH by (intros r' Hr'; apply Hb; right; exact Hr').
  destruct records as [|r2 records]; [cbn; rewrite app_nil_r, andb_true_r; reflexivity|].
  destruct (Hb r2 (or_intror (or_introl eq_refl))) as [b2 ->]. cbn [concat app].
  apply utf8_cut. exact Hc.
Qed.

(** *** LHEF *)
Lemma event_end_last : exists m', lhef_event_end = m' ++ [">"%char].
Proof. exists (lit "</event"). reflexivity. Qed.
Lemma init_end_last : exists m', lhef_init_end = m' ++ [">"%char].
Proof. exists (NL :: lit "</init"). reflexivity. Qed.

Lemma scan_first_at_end c marker src : marker <> [] -> (exists m', marker = m' ++ [c]) ->
  match scan (S (length src)) c marker [] src with
  | Found record rest => src = record ++ rest /\ first_at_end marker record
  | AtEnd record => record = src /\ ~ occurs marker src
  end.
Proof.
  intros Hmne Hm.
  pose proof (scan_spec c marker Hm (S (length src)) [] src (Nat.lt_succ_diag_r _)) as H.
  destruct (scan (S (length src)) c marker [] src) as [rec rest|rec].
  - destruct H as (x & -> & -> & [Hx Hf] & Hmin). split; [reflexivity|]. split; [exact Hf|].
    intros a b Hab. destruct b as [|z b]; [reflexivity|]. exfalso.
    apply (Hmin (a ++ marker) (z :: b)); [rewrite <- app_assoc; exact Hab|discriminate|].
    split; [destruct a; [exact Hmne|discriminate]|]. exists a. reflexivity.
  - destruct H as [-> Hmin]. split; [reflexivity|]. intros (a & b & Hab).
    apply (Hmin (a ++ marker) b); [rewrite <- app_assoc; exact Hab|].
    split; [destruct a; [exact Hmne|discriminate]|]. exists a. reflexivity.
Qed.

Lemma first_at_end_nonempty m t : m <> [] -> first_at_end m t -> t <> [].
Proof. intros Hm [[a ->] _] H. apply app_eq_nil in H as [_ H]. contradiction. Qed.

Lemma lhef_rest_spec file header : forall fuel src, length src < fuel ->
  exists records tail,
    src = concat records ++ tail /\
    (forall r, In r records -> first_at_end event_end r) /\ ~ occurs event_end tail /\
    lhef_rest fuel (mkReader file src header) = if forallb utf8 records then Some records else None.
Proof.
  induction fuel as [|fuel IH]; intros src Hl; [lia|].
  cbn [lhef_rest]. unfold lhef_next, lhef_read_raw. cbn [rd_source rd_file rd_header].
  assert (Hme : lhef_event_end <> []) by discriminate.
  pose proof (scan_first_at_end ">" lhef_event_end src Hme event_end_last) as H.
  destruct (scan (S (length src)) ">" lhef_event_end [] src) as [rec rest|rec].
  - destruct H as [-> Hf].
    assert (Hl' : length rest < fuel).
    { rewrite app_length in Hl. pose proof (first_at_end_nonempty _ _ Hme Hf). destruct rec; [congruence|cbn [length] in Hl; lia]. }
    destruct (IH rest Hl') as (records & tail & Hc & Hr & Ht & Hrest).
    exists (rec :: records), tail. split; [cbn [concat]; rewrite <- app_assoc, <- Hc; reflexivity|].
    split; [intros r [<-|Hin]; [exact Hf|apply Hr; exact Hin]|]. split; [exact Ht|].
    cbn [forallb]. destruct (utf8 rec); [|reflexivity]. cbn [andb]. rewrite Hrest. destruct (forallb utf8 records); reflexivity.
  - destruct H as [_ Hno]. exists [], src. split; [reflexivity|]. split; [intros r []|]. split; [exact Hno|]. reflexivity.
Qed.

Lemma lhef_records_spec file :
  occurs init_end file ->
  exists records tail, lhef_parts file (rd_header (lhef_open file)) records tail /\
    lhef_records (lhef_open file) = (if forallb utf8 records then Some records else None).
Proof.
  intros Hocc. unfold lhef_open, lhef_records, lhef_init.
  assert (Hme : lhef_init_end <> []) by discriminate.
  pose proof (scan_first_at_end ">" lhef_init_end file Hme init_end_last) as H.
  destruct (scan (S (length file)) ">" lhef_init_end [] file) as [rec rest|rec].
  - destruct H as [-> Hf]. cbn [rd_source rd_header].
    destruct (lhef_rest_spec (rec ++ rest) rec _ rest (Nat.lt_succ_diag_r _)) as (records & tail & Hc & Hr & Ht & Hrest).
    exists records, tail. split; [|exact Hrest].
    split; [rewrite Hc; reflexivity|]. split; [exact Hf|]. split; [exact Hr|exact Ht].
  - destruct H as [_ Hno]. contradiction.
Qed.

Lemma utf8_concat_after records tail :
  (forall r, In r records -> finishes_with [">"%char] r) ->
  utf8 (concat records ++ tail) = forallb utf8 records && utf8 tail.
Proof.
  induction records as [|r records IH]; intros Hb; [reflexivity|].
  cbn [concat forallb]. rewrite <- andb_assoc, <- IH by (intros r' Hr'; apply Hb; right; exact Hr').
  destruct (Hb r (or_introl eq_refl)) as [a ->]. rewrite <- !app_assoc. cbn [app].
  apply utf8_cut_after. reflexivity.
Qed.

(** *** STRIPPER XML *)
Lemma subevent_last : exists m', subevent_mark = m' ++ ["e"%char].
Proof. exists (lit "<s"). reflexivity. Qed.

Definition se (t : text) : text := subevent_mark ++ t.

Lemma cut3 (t : text) : firstn (length (t ++ subevent_mark) - 3) (t ++ subevent_mark) = t.
Proof.
  rewrite app_length. change (length subevent_mark) with 3. rewrite Nat.add_sub.
  rewrite firstn_app, Nat.sub_diag, firstn_all. apply app_nil_r.
Qed.

(** "<se" overlaps itself nowhere *)
Lemma mark_after p x a : subevent_mark ++ p = a ++ subevent_mark -> p <> [] ->
  x = p -> exists y, p = y ++ subevent_mark /\ a = subevent_mark ++ y.
Proof.
  intros H Hp ->. destruct a as [|a0 [|a1 [|a2 a]]]; cbn in H.
  - injection H as H. exfalso. apply Hp. exact H.
  - injection H as <- H1 H2. cbn in *. congruence.
  - injection H as <- H1 H2 H3. congruence.
  - injection H as <- <- <- H. exists a. split; [exact H|reflexivity].
Qed.

Lemma stripper_read_raw_spec checks r :
  (sr_source r = [] /\ stripper_read_raw checks r = SEnd) \/
  (exists record rest, 
     ((record = se (sr_source r) /\ rest = [] /\ sr_source r <> []) \/ se (sr_source r) = record ++ se rest) /\
     begins_with subevent_start record /\ (forall a b, record = a ++ subevent_start ++ b -> a = []) /\
     stripper_read_raw checks r =
       if utf8 record then
         match usize_pred checks (sr_rem r) with
         | Some n => SRecord record (mkSReader (sr_file r) rest n (sr_header r))
         | None => SPanic
         end
       else SUtf8Error (mkSReader (sr_file r) rest (sr_rem r) (sr_header r))).
Proof.
  unfold stripper_read_raw. set (src := sr_source r).
  pose proof (scan_spec "e" subevent_mark subevent_last (S (length src)) subevent_mark src (Nat.lt_succ_diag_r _)) as H.
  destruct (scan (S (length src)) "e" subevent_mark subevent_mark src) as [rec rest|rec].
  - destruct H as (x & Hsrc & -> & [Hx [a Ha]] & Hmin). right.
    destruct (mark_after x x a Ha Hx eq_refl) as (y & -> & ->).
    exists (se y), rest.
    assert (Hno : forall a b, se y = a ++ subevent_start ++ b -> a = []).
    { intros a b Hab. destruct a as [|a0 a]; [reflexivity|]. exfalso.
      assert (Hpre : exists p, p <> [] /\ exists q, y = p ++ q /\ subevent_mark ++ p = (a0 :: a) ++ subevent_mark).
      { unfold se in Hab. rewrite app_assoc in Hab. destruct (app_split_mid _ _ _ _ Hab) as [(s & Hs & Hb)|(s & Hs & Hb)].
        - exfalso. assert (Hlen := f_equal (@length ascii) Hs). rewrite !app_length in Hlen.
          change (length subevent_mark) with 3 in Hlen. change (length subevent_start) with 3 in Hlen. cbn [length] in Hlen. lia.
        - exists s. split.
          + intros ->. rewrite app_nil_r in Hs. assert (Hlen := f_equal (@length ascii) Hs). rewrite !app_length in Hlen.
            change (length subevent_mark) with 3 in Hlen. change (length subevent_start) with 3 in Hlen. cbn [length] in Hlen. lia.
          + exists b. split; [exact Hb|]. symmetry. exact Hs. }
      destruct Hpre as (p & Hp & q & Hy & Hpm).
      apply (Hmin p (q ++ subevent_mark)).
      - rewrite Hy, <- app_assoc. reflexivity.
      - destruct q; discriminate.
      - split; [exact Hp|]. exists (a0 :: a). exact Hpm. }
    split; [right; unfold se; rewrite Hsrc, <- !app_assoc; reflexivity|].
    split; [exists y; reflexivity|]. split; [exact Hno|].
    replace (firstn (length (subevent_mark ++ y ++ subevent_mark) - 3) (subevent_mark ++ y ++ subevent_mark)) with (se y).
    2:{ rewrite app_assoc. symmetry. apply (cut3 (subevent_mark ++ y)). }
    reflexivity.
  - destruct H as [-> Hmin]. change (subevent_mark ++ src) with (se src).
    destruct src as [|c src'] eqn:Es; [left; split; reflexivity|]. right. rewrite <- Es in *.
    exists (se src), []. split; [left; repeat split; congruence|].
    split; [exists src; reflexivity|]. split.
    + intros a b Hab. destruct a as [|a0 a]; [reflexivity|]. exfalso.
      unfold se in Hab. rewrite app_assoc in Hab. destruct (app_split_mid _ _ _ _ Hab) as [(s & Hs & Hb)|(s & Hs & Hb)].
      * assert (Hlen := f_equal (@length ascii) Hs). rewrite !app_length in Hlen.
        change (length subevent_mark) with 3 in Hlen. change (length subevent_start) with 3 in Hlen. cbn [length] in Hlen. lia.
      * apply (Hmin s b Hb). split.
        -- intros ->. rewrite app_nil_r in Hs. assert (Hlen := f_equal (@length ascii) Hs). rewrite !app_length in Hlen.
           change (length subevent_mark) with 3 in Hlen. change (length subevent_start) with 3 in Hlen. cbn [length] in Hlen. lia.
        -- exists (a0 :: a). symmetry. exact Hs.
    + replace (3 <? length (se src)) with true; [reflexivity|]. symmetry. apply Nat.ltb_lt. rewrite Es. unfold se. rewrite app_length. cbn. lia.
Qed.

Lemma stripper_rest_spec checks : forall fuel r, length (sr_source r) < fuel ->
  ~ finishes_with subevent_mark (se (sr_source r)) -> sr_source r <> [] ->
  exists records,
    se (sr_source r) = concat records /\ records <> [] /\
    (forall r, In r records -> begins_with subevent_start r /\ forall a b, r = a ++ subevent_start ++ b -> a = []) /\
    ((forallb utf8 records = true -> (checks = true -> N.of_nat (length records) <= sr_rem r)%N ->
      exists r', stripper_rest checks fuel r = Some (records, r')) /\
     forall l, option_map fst (stripper_rest checks fuel r) = Some l -> l = records /\ forallb utf8 records = true).
Proof.
  induction fuel as [|fuel IH]; intros r Hl Hend Hne; [lia|].
  cbn [stripper_rest].
  destruct (stripper_read_raw_spec checks r) as [[H _]|(record & rest & Hcase & Hb & Hno & Hraw)]; [contradiction|].
  destruct Hcase as [(-> & -> & _)|Hsrc].
  - exists [se (sr_source r)]. split; [cbn; rewrite app_nil_r; reflexivity|]. split; [discriminate|].
    split; [intros x [<-|[]]; auto|]. rewrite Hraw. cbn [forallb]. split.
    + intros Hu Hrem. rewrite andb_true_r in Hu. rewrite Hu. unfold usize_pred.
      assert (Hfuel : exists f, fuel = S f).
      { destruct fuel; [|eauto]. destruct (sr_source r); [congruence|cbn in Hl; lia]. }
      destruct Hfuel as [f ->]. cbn [length] in Hrem.
      destruct (sr_rem r =? 0)%N eqn:E0.
      * destruct checks; [apply N.eqb_eq in E0; specialize (Hrem eq_refl); lia|]. cbn. eauto.
      * cbn. eauto.
    + intros l Hl'. destruct (utf8 (se (sr_source r))); [|discriminate].
      destruct (usize_pred checks (sr_rem r)); [|discriminate].
      destruct fuel; cbn in Hl'; [discriminate|]. injection Hl' as <-. auto.
  - assert (Hrne : rest <> []).
    { intros ->. apply Hend. exists record. rewrite Hsrc. reflexivity. }
    assert (Hend' : ~ finishes_with subevent_mark (se rest)).
    { intros [a Ha]. apply Hend. exists (record ++ a). rewrite Hsrc, Ha, app_assoc. reflexivity. }
    assert (Hl' : length rest < fuel).
    { assert (Hlen := f_equal (@length ascii) Hsrc). unfold se in Hlen. rewrite !app_length in Hlen.
      destruct Hb as [b ->]. rewrite app_length in Hlen. change (length subevent_start) with 3 in Hlen. lia. }
    assert (IH' : forall n, exists records, se rest = concat records /\ records <> [] /\
       (forall r, In r records -> begins_with subevent_start r /\ forall a b, r = a ++ subevent_start ++ b -> a = []) /\
       ((forallb utf8 records = true -> (checks = true -> N.of_nat (length records) <= n)%N ->
          exists r', stripper_rest checks fuel (mkSReader (sr_file r) rest n (sr_header r)) = Some (records, r')) /\
        forall l, option_map fst (stripper_rest checks fuel (mkSReader (sr_file r) rest n (sr_header r))) = Some l -> l = records /\ forallb utf8 records = true)).
    { intros n. apply (IH (mkSReader (sr_file r) rest n (sr_header r)) Hl' Hend' Hrne). }
    rewrite Hraw.
    assert (Hp : exists n, match usize_pred checks (sr_rem r) with Some k => k = n | None => True end).
    { destruct (usize_pred checks (sr_rem r)); [eauto|exists 0%N; exact I]. }
    destruct Hp as [n Hn]. destruct (IH' n) as (records & Hc & Hr0 & Hr & Hok & Honly).
    exists (record :: records). split; [cbn [concat]; rewrite <- Hc; exact Hsrc|]. split; [discriminate|].
    split; [intros x [<-|Hin]; [auto|apply Hr; exact Hin]|]. cbn [forallb]. split.
    + intros Hu Hrem. apply andb_true_iff in Hu as [Hu1 Hu2]. rewrite Hu1.
      unfold usize_pred in *. destruct (sr_rem r =? 0)%N eqn:E0.
      * destruct checks; [apply N.eqb_eq in E0; specialize (Hrem eq_refl); cbn [length] in Hrem; lia|].
        subst n. destruct (Hok Hu2) as [r' ->]; [discriminate|]. eauto.
      * subst n. apply N.eqb_neq in E0. destruct (Hok Hu2) as [r' ->]; [|eauto].
        intros Hchk. specialize (Hrem Hchk). cbn [length] in Hrem. lia.
    + intros l Hl2. destruct (utf8 record); [|discriminate].
      destruct (usize_pred checks (sr_rem r)); [|discriminate]. subst n0.
      destruct (stripper_rest checks fuel _) as [[l' e]|] eqn:E; [|discriminate].
      cbn in Hl2. injection Hl2 as <-. destruct (Honly l') as [-> Hu]; [reflexivity|]. rewrite Hu. auto.
Qed.

Lemma stripper_init_spec checks file :
  (~ occurs subevent_mark file /\ stripper_init checks file =
     if length file <? 3 then if checks then None else Some (file, []) else Some (firstn (length file - 3) file, [])) \/
  (exists h rest, file = h ++ se rest /\ ~ occurs subevent_start h /\ stripper_init checks file = Some (h, rest)).
Proof.
  unfold stripper_init.
  assert (Hme : subevent_mark <> []) by discriminate.
  pose proof (scan_first_at_end "e" subevent_mark file Hme subevent_last) as H.
  destruct (scan (S (length file)) "e" subevent_mark [] file) as [rec rest|rec].
  - destruct H as [-> [[h ->] Hfirst]]. right. exists h, rest. split; [unfold se; rewrite app_assoc; reflexivity|].
    split; [|rewrite cut3; reflexivity].
    intros (a & b & ->). specialize (Hfirst a (b ++ subevent_mark)).
    rewrite <- !app_assoc in Hfirst. specialize (Hfirst eq_refl). destruct b; discriminate.
  - destruct H as [-> Hno]. left. split; [exact Hno|]. reflexivity.
Qed.
