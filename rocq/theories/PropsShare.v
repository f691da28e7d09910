(** C77: cres-make-partition followed by cres-classify-events. *)
From Coq Require Import NArith ZArith Permutation Ascii.
From Verif Require Import Base BaseProofs Num ModelEvent ModelText SpecText SpecFormats ModelIO ModelNaive ModelVPTree ModelResampler ModelPartition
  ModelClassify ModelOpt SpecTree SpecPartition SpecClassify SpecShare SeedsProofs NaiveProofs VPTreeProofs PartitionProofs ShareProofs ModelPartMain
  PartMainProofs PropsPartition ClassifyProofs PropsClassify.

(** *** What the programs read *)
Section Sample.
Context {N : NumOps} (double : parser N) (checks mw : bool) (sort : sorter) (nsubevents : text -> BinNums.N)
  (cluster : Event N -> option (Event N)).

(** The records of the files, with their formats *)
Definition file_contents (files : list text) (records : list (format * text)) : Prop :=
  exists parts, Forall2 (fun file part => exists header rs, file_records checks nsubevents file = Some (header, rs) /\
                                  part = map (pair (detect_event_file_format file)) rs) files parts /\
    records = concat parts.

(** The record contains an event of negative weight *)
Definition negative_record (r : format * text) : bool :=
  match convert double mw sort (fst r) (snd r) with
  | Ok ev => match ev_weight ev with Some w => nltb w n0 | None => false end
  | _ => false
  end.

(** The event in a record, clustered *)
Definition clustered (r : format * text) (ev : Event N) : Prop :=
  exists raw, convert double mw sort (fst r) (snd r) = Ok raw /\ cluster raw = Some ev.

(** All events of negative weight in the files, clustered, in the order of the files *)
Definition negative_sample (files : list text) (evs : list (Event N)) : Prop :=
  exists records, file_contents files records /\ Forall2 clustered (filter negative_record records) evs.

(** All distances in the sample are in [D] (e.g. not NaN) *)
Definition distances_in (D : N -> Prop) (dist : Event N -> Event N -> N) (files : list text) : Prop :=
  forall evs, negative_sample files evs -> forall e e', In e evs -> In e' evs -> D (dist e e').

Lemma negative_events_spec f rs : forall evs, negative_events double mw sort cluster f rs = Ok evs ->
  Forall2 clustered (filter negative_record (map (pair f) rs)) evs.
Proof.
  induction rs as [|r rs IH]; cbn [negative_events map filter]; intros evs H; [injection H as <-; constructor|].
  unfold negative_record at 1. cbn [fst snd]. destruct (convert double mw sort f r) as [raw| |] eqn:E; try discriminate. cbn [bind] in H.
  destruct (ev_weight raw) as [w|]; [|discriminate]. destruct (nltb w n0); [|apply IH; exact H].
  destruct (cluster raw) as [ev|] eqn:Ec; [|discriminate].
  destruct (negative_events double mw sort cluster f rs) as [l| |]; try discriminate. cbn [bind] in H. injection H as <-.
  constructor; [exists raw; auto|]. apply IH. reflexivity.
Qed.
Lemma collect_events_spec files : forall evs, collect_events double checks mw sort nsubevents cluster files = Ok evs -> negative_sample files evs.
Proof.
  induction files as [|file files IH]; cbn [collect_events]; intros evs H.
  - injection H as <-. exists []. split; [exists []; split; [constructor|reflexivity]|constructor].
  - destruct (file_records checks nsubevents file) as [[header rs]|] eqn:E; [|discriminate].
    destruct (negative_events double mw sort cluster _ rs) as [l| |] eqn:E1; try discriminate. cbn [bind] in H.
    destruct (collect_events double checks mw sort nsubevents cluster files) as [l'| |]; try discriminate. cbn [bind] in H. injection H as <-.
    destruct (IH l' eq_refl) as (records & (parts & Hp & ->) & H2).
    exists (map (pair (detect_event_file_format file)) rs ++ concat parts). split.
    + exists (map (pair (detect_event_file_format file)) rs :: parts). split; [|reflexivity]. constructor; [|exact Hp]. exists header, rs. auto.
    + rewrite filter_app. apply Forall2_app; [apply negative_events_spec; exact E1|exact H2].
Qed.

Lemma file_contents_unique files : forall a b, file_contents files a -> file_contents files b -> a = b.
Proof.
  intros a b (pa & Ha & ->) (pb & Hb & ->). f_equal. revert pb Hb. induction Ha as [|file part files pa (h & rs & E & ->) Ha IH]; intros pb Hb;
    inversion Hb as [|? part' ? pb' (h' & rs' & E' & ->) Hb']; subst; [reflexivity|].
  rewrite E in E'. injection E' as <- <-. f_equal. apply IH. exact Hb'.
Qed.
Lemma negative_sample_unique files a b : negative_sample files a -> negative_sample files b -> a = b.
Proof.
  intros (ra & Ha & Fa) (rb & Hb & Fb). rewrite (file_contents_unique _ _ _ Hb Ha) in Fb. clear Ha Hb.
  revert b Fb. induction Fa as [|r ev rs evs (raw & E1 & E2) Fa IH]; intros b Fb; inversion Fb as [|? ev' ? evs' (raw' & E1' & E2') Fb']; subst; [reflexivity|].
  rewrite E1 in E1'. injection E1' as <-. rewrite E2 in E2'. injection E2' as <-. f_equal. apply IH. exact Fb'.
Qed.
End Sample.

(** The partition is made of the events of negative weight in the input files: there are at least as many as
    regions, there is one bisection less than regions, and the vantage points are different events. *)
Theorem C77_partition : forall (N : NumOps) (D : N -> Prop) (double : parser N) checks mw sort nsubevents cluster (dist : Event N -> Event N -> N)
    choose m k files vp,
  order_on N D -> sort_ok sort -> choose_ok choose -> 2 <= m -> k < 32 -> distances_in double checks mw sort nsubevents cluster D dist files ->
  partition_program double checks mw sort nsubevents cluster dist choose m (2 ^ N.of_nat k) files = Ok vp ->
  exists evs, negative_sample double checks mw sort nsubevents cluster files evs /\ 2 ^ k <= length evs /\ length vp + 1 = 2 ^ k /\
    exists which, NoDup which /\ Forall2 (fun b i => nth_error evs i = Some (b_pt b)) vp which.
Proof.
  intros N D double checks mw sort nsubevents cluster dist choose m k files vp Ho Hs Hc Hm Hk HD H. unfold partition_program in H.
  destruct (collect_events double checks mw sort nsubevents cluster files) as [evs| |] eqn:E; try discriminate. cbn [bind] in H.
  exists evs. split; [apply collect_events_spec; exact E|].
  destruct (make_partition _ _ _ _ _ _) as [| |ivp] eqn:Em; try discriminate.
  destruct (made_shape N D Ho sort Hs choose Hc m Hm (index_dist mw dist evs) (length evs) (fun i j Hi Hj => HD evs (collect_events_spec _ _ _ _ _ _ _ _ E) _ _ (nth_In _ _ Hi) (nth_In _ _ Hj)) k ivp Hk Em)
    as (t & pts & _ & _ & _ & _ & H5 & H6 & H7 & H8).
  rewrite (take_events_spec N mw ivp evs H6 H7) in H. unfold from_vp in H. destruct (is_power_of_two _); [|discriminate]. injection H as <-.
  split; [exact H8|]. rewrite map_length. split; [exact H5|]. exists (map b_pt ivp). split; [exact H6|].
  clear - H7. induction ivp as [|b ivp IH]; cbn [map]; constructor.
  - cbn [as_events b_pt]. apply nth_error_nth'. apply H7. left. reflexivity.
  - apply IH. intros b' Hb. apply H7. right. exact Hb.
Qed.
Print Assumptions C77_partition.

(** Number of events that a partition assigns to region [r] *)
Definition events_in {N : NumOps} (dist : Event N -> Event N -> N) vp (r : nat) (evs : list (Event N)) : nat :=
  length (filter (fun ev => match region dist vp ev with Some i => i =? r | None => false end) evs).

Lemma events_in_index {N : NumOps} mw (dist : Event N -> Event N -> N) evs ivp r :
  events_in dist (map (as_events N mw evs) ivp) r evs = length (filter (in_region N (index_dist mw dist evs) ivp r) (seq 0 (length evs))).
Proof.
  unfold events_in. set (P := fun ev => match region _ _ ev with Some i => i =? r | None => false end).
  assert (E : forall l : list (Event N), length (filter P l) = length (filter (fun i => P (nth i l (default_event mw))) (seq 0 (length l)))).
  { clear. intros l. induction l as [|x l IH]; [reflexivity|]. cbn [length seq]. cbn [filter nth]. rewrite <- seq_shift.
    assert (G : forall (f : nat -> bool) m, length (filter f (map S m)) = length (filter (fun i => f (S i)) m)).
    { clear. intros f m. induction m as [|i m IH]; [reflexivity|]. cbn [map filter]. destruct (f (S i)); cbn [length]; auto. }
    destruct (P x); cbn [length]; rewrite IH, G; reflexivity. }
  rewrite E. f_equal. apply filter_ext. intros i. unfold P, in_region. rewrite region_events. reflexivity.
Qed.

(** Each region contains its share of the events of negative weight, up to a number that does not depend on
    the number of events, if no two events are equally far from a third one. *)
Theorem C77_share : forall (N : NumOps) (D : N -> Prop) (double : parser N) checks mw sort nsubevents cluster (dist : Event N -> Event N -> N)
    choose m k files vp evs,
  order_on N D -> sort_ok sort -> choose_ok choose -> 2 <= m -> k < 32 -> distances_in double checks mw sort nsubevents cluster D dist files ->
  partition_program double checks mw sort nsubevents cluster dist choose m (2 ^ N.of_nat k) files = Ok vp ->
  negative_sample double checks mw sort nsubevents cluster files evs ->
  let d := fun i j => dist (nth i evs (default_event mw)) (nth j evs (default_event mw)) in
  nearest_to_itself (length evs) d -> general_position (length evs) d ->
  forall r, r < 2 ^ k -> fair_share (length evs) k (events_in dist vp r evs).
Proof.
  intros N D double checks mw sort nsubevents cluster dist choose m k files vp evs Ho Hs Hc Hm Hk HD H Hev d Hn Hg r Hr. unfold partition_program in H.
  destruct (collect_events double checks mw sort nsubevents cluster files) as [evs'| |] eqn:E; try discriminate. cbn [bind] in H.
  apply collect_events_spec in E. rewrite (negative_sample_unique _ _ _ _ _ _ _ _ _ E Hev) in *. clear E evs'.
  destruct (make_partition _ _ _ _ _ _) as [| |ivp] eqn:Em; try discriminate.
  pose proof (fun i j (Hi : i < length evs) (Hj : j < length evs) => HD evs Hev _ _ (nth_In _ (default_event mw) Hi) (nth_In _ (default_event mw) Hj)) as HD'.
  destruct (made_shape N D Ho sort Hs choose Hc m Hm (index_dist mw dist evs) (length evs) HD' k ivp Hk Em)
    as (t & pts & _ & _ & _ & _ & H5 & H6 & H7 & H8).
  rewrite (take_events_spec N mw ivp evs H6 H7) in H. unfold from_vp in H. destruct (is_power_of_two _); [|discriminate]. injection H as <-.
  rewrite events_in_index. eapply made_share; eauto.
Qed.
Print Assumptions C77_share.

(** Without this condition it is false: if all events have the same distance from each other (e.g. zero, because
    they have the same momenta), all of them are in the first region, whatever their number. *)
Theorem C77_share_refuted : forall (N : NumOps) (D : N -> Prop) (double : parser N) checks mw sort nsubevents cluster (dist : Event N -> Event N -> N)
    choose m k files vp evs,
  order_on N D -> sort_ok sort -> choose_ok choose -> 2 <= m -> k < 32 -> distances_in double checks mw sort nsubevents cluster D dist files ->
  partition_program double checks mw sort nsubevents cluster dist choose m (2 ^ N.of_nat k) files = Ok vp ->
  negative_sample double checks mw sort nsubevents cluster files evs ->
  (forall e e' : Event N, dist e e' = dist (default_event mw) (default_event mw)) ->
  events_in dist vp 0 evs = length evs /\ forall r, 0 < r -> events_in dist vp r evs = 0.
Proof.
  intros N D double checks mw sort nsubevents cluster dist choose m k files vp evs Ho Hs Hc Hm Hk HD H Hev He. unfold partition_program in H.
  destruct (collect_events double checks mw sort nsubevents cluster files) as [evs'| |] eqn:E; try discriminate. cbn [bind] in H.
  apply collect_events_spec in E. rewrite (negative_sample_unique _ _ _ _ _ _ _ _ _ E Hev) in *. clear E evs'.
  destruct (make_partition _ _ _ _ _ _) as [| |ivp] eqn:Em; try discriminate.
  pose proof (fun i j (Hi : i < length evs) (Hj : j < length evs) => HD evs Hev _ _ (nth_In _ (default_event mw) Hi) (nth_In _ (default_event mw) Hj)) as HD'.
  destruct (made_shape N D Ho sort Hs choose Hc m Hm (index_dist mw dist evs) (length evs) HD' k ivp Hk Em)
    as (t & pts & _ & _ & _ & _ & H5 & H6 & H7 & H8).
  rewrite (take_events_spec N mw ivp evs H6 H7) in H. unfold from_vp in H. destruct (is_power_of_two _); [|discriminate]. injection H as <-.
  assert (R : forall i, in_region N (index_dist mw dist evs) ivp 0 i = true /\ forall r, 0 < r -> in_region N (index_dist mw dist evs) ivp r i = false).
  { intros i. unfold in_region. erewrite made_equal; eauto; [|intros i' j'; unfold index_dist; rewrite !(He (nth _ _ _)); reflexivity].
    split; [reflexivity|]. intros [|r] Hr; [lia|reflexivity]. }
  split; [|intros r Hr]; rewrite events_in_index.
  - rewrite (filter_ext _ (fun _ => true)) by (intros i; apply R). replace (length evs) with (length (seq 0 (length evs))) at 2 by apply seq_length.
    f_equal. generalize (seq 0 (length evs)). intros l. induction l as [|x l IH]; [reflexivity|cbn; congruence].
  - rewrite (filter_ext _ (fun _ => false)) by (intros i; apply R; exact Hr).
    generalize (seq 0 (length evs)). intros l. induction l as [|x l IH]; [reflexivity|cbn; exact IH].
Qed.
Print Assumptions C77_share_refuted.

(** *** Both programs *)

Lemma Forall2_same_length {A B} {P : A -> B -> Prop} l m : Forall2 P l m -> length l = length m.
Proof. induction 1; cbn [length]; congruence. Qed.

(** What classifying one file means (as in C47): every record belongs to the region of its event; the output for
    region [i] has the header, the records of that region in the original order and the last line. *)
Definition classified {N : NumOps} (double : parser N) checks mw sort nsubevents cluster (dist : Event N -> Event N -> N) vp
    (file : text) (outs : list text) (entry : format * list text * list nat) : Prop :=
  let '(f, records, regions) := entry in
  f = detect_event_file_format file /\
  exists header, file_records checks nsubevents file = Some (header, records) /\
    assignment double mw sort cluster dist vp f records regions /\
    length outs = length vp + 1 /\
    forall i out, nth_error outs i = Some out -> exists texts,
      Forall2 (without_footer (last_line f)) (selected i regions records) texts /\
      out = header ++ concat texts ++ last_line f ++ [newline].

(** Number of records with negative weight, all and those of region [r] *)
Definition negatives {N : NumOps} (double : parser N) mw sort (entry : format * list text * list nat) : nat :=
  let '(f, records, regions) := entry in length (filter (negative_record double mw sort) (map (pair f) records)).
Definition negatives_in {N : NumOps} (double : parser N) mw sort (r : nat) (entry : format * list text * list nat) : nat :=
  let '(f, records, regions) := entry in length (filter (negative_record double mw sort) (map (pair f) (selected r regions records))).

Lemma classify_files_spec {N : NumOps} (double : parser N) checks mw sort nsubevents cluster (dist : Event N -> Event N -> N) vp files :
  forall outs, classify_files double checks mw sort nsubevents cluster dist vp files = Ok outs ->
  length outs = length files /\
  exists table, Forall2 (fun '(file, outs) entry => classified double checks mw sort nsubevents cluster dist vp file outs entry) (combine files outs) table.
Proof.
  induction files as [|file files IH]; cbn [classify_files]; intros outs H.
  - injection H as <-. split; auto. exists []. constructor.
  - destruct (classify_byte_records _ _ _ _ _ _ _ _ _ _) as [o| |] eqn:E; try discriminate. cbn [bind] in H.
    destruct (classify_files _ _ _ _ _ _ _ _ files) as [l| |]; try discriminate. cbn [bind] in H. injection H as <-.
    destruct (IH l eq_refl) as [Hl [table Ht]]. split; [cbn; lia|].
    apply C47_outputs in E as (header & records & regions & H1 & H2 & H3 & _ & H5).
    exists ((detect_event_file_format file, records, regions) :: table). cbn [combine]. constructor; [|exact Ht].
    split; [reflexivity|]. exists header. auto.
Qed.

Lemma table_contents {N : NumOps} (double : parser N) checks mw sort nsubevents cluster (dist : Event N -> Event N -> N) vp files :
  forall outs table, length outs = length files ->
  Forall2 (fun '(file, outs) entry => classified double checks mw sort nsubevents cluster dist vp file outs entry) (combine files outs) table ->
  file_contents checks nsubevents files (concat (map (fun '(f, records, _) => map (pair f) records) table)).
Proof.
  induction files as [|file files IH]; intros [|o outs] table Hl H; try discriminate; cbn [combine] in H.
  - inversion H; subst. exists []. split; constructor.
  - inversion H as [|? [[f records] regions] ? table' Hc H']; subst. injection Hl as Hl. destruct (IH outs table' Hl H') as (parts & Hp & Hq).
    destruct Hc as (-> & header & Hr & _). exists (map (pair (detect_event_file_format file)) records :: parts). split.
    + constructor; [|exact Hp]. exists header, records. auto.
    + cbn [map concat]. f_equal. exact Hq.
Qed.

Lemma negatives_total {N : NumOps} (double : parser N) mw sort table :
  length (filter (negative_record double mw sort) (concat (map (fun '(f, records, _) => map (pair f) records) table))) =
  list_sum (map (negatives double mw sort) table).
Proof.
  induction table as [|[[f records] regions] table IH]; [reflexivity|]. cbn [map concat negatives]. rewrite filter_app, app_length, IH. reflexivity.
Qed.

Lemma selected_cons {A} r i (x : A) regions l : selected r (i :: regions) (x :: l) = if i =? r then x :: selected r regions l else selected r regions l.
Proof. unfold selected. cbn [combine filter fst]. destruct (i =? r); reflexivity. Qed.

Lemma negatives_region {N : NumOps} (double : parser N) mw sort cluster (dist : Event N -> Event N -> N) vp f records regions :
  assignment double mw sort cluster dist vp f records regions -> forall evs,
  Forall2 (clustered double mw sort cluster) (filter (negative_record double mw sort) (map (pair f) records)) evs ->
  forall r, negatives_in double mw sort r (f, records, regions) = events_in dist vp r evs.
Proof.
  unfold negatives_in, events_in. induction 1 as [|t i records regions (ev & ev' & H1 & H2 & H3) Ha IH]; intros evs He r.
  - inversion He; subst. reflexivity.
  - cbn [map filter] in He. rewrite selected_cons. unfold negative_record at 1 in He. cbn [fst snd] in He. rewrite H1 in He.
    assert (Skip : forall b, negative_record double mw sort (f, t) = b -> length (filter (negative_record double mw sort) (map (pair f) (if i =? r then t :: selected r regions records else selected r regions records)))
      = (if (b && (i =? r))%bool then 1 else 0) + length (filter (negative_record double mw sort) (map (pair f) (selected r regions records)))).
    { intros b Hb. destruct (i =? r); cbn [map filter]; rewrite ?Hb; destruct b; cbn [andb]; auto. }
    destruct (negative_record double mw sort (f, t)) eqn:En.
    + rewrite (Skip true eq_refl). unfold negative_record in En. cbn [fst snd] in En. rewrite H1 in En. rewrite En in He.
      inversion He as [|? ev0 ? evs' (raw & R1 & R2) He']; subst. cbn [fst snd] in R1. rewrite H1 in R1. injection R1 as <-. rewrite H2 in R2. injection R2 as <-.
      cbn [filter]. rewrite H3, (IH _ He' r). destruct (i =? r); reflexivity.
    + rewrite (Skip false eq_refl). unfold negative_record in En. cbn [fst snd] in En. rewrite H1 in En. rewrite En in He. cbn [andb Nat.add]. apply IH. exact He.
Qed.

Lemma negatives_regions {N : NumOps} (double : parser N) checks mw sort nsubevents cluster (dist : Event N -> Event N -> N) vp r : forall l table,
  Forall2 (fun '(file, outs) entry => classified double checks mw sort nsubevents cluster dist vp file outs entry) l table -> forall evs,
  Forall2 (clustered double mw sort cluster) (filter (negative_record double mw sort) (concat (map (fun '(f, records, _) => map (pair f) records) table))) evs ->
  list_sum (map (negatives_in double mw sort r) table) = events_in dist vp r evs.
Proof.
  induction 1 as [|[file outs] [[f records] regions] l table Hc H IH]; intros evs He.
  - inversion He; subst. reflexivity.
  - cbn [map concat] in He. rewrite filter_app in He. apply Forall2_app_inv_l in He as (e1 & e2 & He1 & He2 & ->).
    destruct Hc as (_ & header & _ & Ha & _). cbn [map]. rewrite list_sum_cons, (negatives_region _ _ _ _ _ _ _ _ _ Ha _ He1), (IH _ He2).
    unfold events_in. rewrite filter_app, app_length. reflexivity.
Qed.

(** A partition is made from input files, and the same files are classified with it: every record is written to the
    output of its region (as in C47), and each region gets a fair share of the records with negative weight. *)
Theorem C77_programs : forall (N : NumOps) (D : N -> Prop) (double : parser N) checks mw sort nsubevents
    (C : Type) (cluster : C -> Event N -> option (Event N)) dist choose yaml unyaml compress (c : C) k files part_file outs evs,
  order_on N D -> sort_ok sort -> choose_ok choose -> k < 32 ->
  (forall info, unyaml (yaml info) = Some info) ->
  negative_sample double checks mw sort nsubevents (cluster c) files evs ->
  distances_in double checks mw sort nsubevents (cluster c) D (dist c) files ->
  let d := fun i j => dist c (nth i evs (default_event mw)) (nth j evs (default_event mw)) in
  nearest_to_itself (length evs) d -> general_position (length evs) d ->
  partition_main double checks mw sort nsubevents cluster dist choose yaml compress c (2 ^ N.of_nat k) None files = Ok part_file ->
  classify_main double checks mw sort nsubevents cluster dist unyaml part_file files = Ok outs ->
  exists vp table, length vp + 1 = 2 ^ k /\ length outs = length files /\
    Forall2 (fun '(file, outs) entry => classified double checks mw sort nsubevents (cluster c) (dist c) vp file outs entry) (combine files outs) table /\
    forall r, r < 2 ^ k ->
      fair_share (list_sum (map (negatives double mw sort) table)) k (list_sum (map (negatives_in double mw sort r) table)).
Proof.
  intros N D double checks mw sort nsubevents C cluster dist choose yaml unyaml compress c k files part_file outs evs Ho Hs Hc Hk Hy Hev HD d Hn Hg Hp Hcl.
  unfold partition_main in Hp. destruct (partition_program _ _ _ _ _ _ _ _ _ _ _) as [vp| |] eqn:E; try discriminate. cbn [bind] in Hp. injection Hp as <-.
  unfold classify_main in Hcl. rewrite Hy in Hcl. apply classify_files_spec in Hcl as (Hl & table & Ht).
  exists vp, table. destruct (C77_partition N D double checks mw sort nsubevents (cluster c) (dist c) choose 1000 k files vp Ho Hs Hc ltac:(lia) Hk HD E)
    as (_ & _ & _ & Hlen & _).
  split; [exact Hlen|]. split; [exact Hl|]. split; [exact Ht|]. intros r Hr.
  pose proof (table_contents _ _ _ _ _ _ _ _ _ _ _ Hl Ht) as Hcont. destruct Hev as (records & Hrec & Hev').
  rewrite (file_contents_unique _ _ _ _ _ Hrec Hcont) in Hev'. rewrite <- negatives_total, (Forall2_same_length _ _ Hev').
  rewrite (negatives_regions _ _ _ _ _ _ _ _ r _ _ Ht _ Hev').
  assert (Hev : negative_sample double checks mw sort nsubevents (cluster c) files evs) by (eexists; split; [exact Hcont|exact Hev']).
  exact (C77_share N D double checks mw sort nsubevents (cluster c) (dist c) choose 1000 k files vp evs Ho Hs Hc ltac:(lia) Hk HD E Hev Hn Hg r Hr).
Qed.
Print Assumptions C77_programs.
