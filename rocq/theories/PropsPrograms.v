(** C77, continued: when the programs succeed, compressed partitions, examples. *)
From Coq Require Import NArith ZArith Permutation Ascii.
From Verif Require Import Base BaseProofs Num ModelEvent ModelText SpecText SpecFormats ModelIO ModelNaive ModelVPTree ModelResampler ModelPartition
  ModelClassify ModelOpt SpecTree SpecPartition SpecClassify SpecShare SeedsProofs NaiveProofs VPTreeProofs PartitionProofs ShareProofs ModelPartMain
  PartMainProofs PropsPartition ClassifyProofs PropsClassify TextExamples PropsFormats PropsPanic PropsShare.
From Coq Require Import Lia.

(** *** When they succeed *)

(** A record that can be read and, if its weight is negative, clustered *)
Definition usable_record {N : NumOps} (double : parser N) mw sort (cluster : Event N -> option (Event N)) (r : format * text) : Prop :=
  exists raw w, convert double mw sort (fst r) (snd r) = Ok raw /\ ev_weight raw = Some w /\ (nltb w n0 = true -> exists ev, cluster raw = Some ev).
(** A record that can be read and clustered *)
Definition good_record {N : NumOps} (double : parser N) mw sort (cluster : Event N -> option (Event N)) (r : format * text) : Prop :=
  exists raw w ev, convert double mw sort (fst r) (snd r) = Ok raw /\ ev_weight raw = Some w /\ cluster raw = Some ev.

Section Collect.
Context {N : NumOps} (double : parser N) (checks mw : bool) (sort : sorter) (nsubevents : text -> BinNums.N) (cluster : Event N -> option (Event N)).

Lemma negative_events_ok f rs : Forall (usable_record double mw sort cluster) (map (pair f) rs) ->
  exists evs, negative_events double mw sort cluster f rs = Ok evs.
Proof.
  induction rs as [|r rs IH]; cbn [map negative_events]; intros H; [eauto|]. inversion H as [|? ? (raw & w & H1 & H2 & H3) H']; subst. cbn [fst snd] in H1.
  rewrite H1. cbn [bind]. rewrite H2. destruct (IH H') as [evs ->]. cbn [bind]. destruct (nltb w n0); [|eauto]. destruct H3 as [ev ->]; eauto.
Qed.
Lemma collect_events_ok files records : file_contents checks nsubevents files records -> Forall (usable_record double mw sort cluster) records ->
  exists evs, collect_events double checks mw sort nsubevents cluster files = Ok evs.
Proof.
  intros (parts & Hp & ->). induction Hp as [|file part files parts (h & rs & E & ->) Hp IH]; cbn [concat collect_events]; intros H; [eauto|].
  apply Forall_app in H as [Ha Hb]. rewrite E. destruct (negative_events_ok _ _ Ha) as [l ->]. destruct (IH Hb) as [l' ->]. cbn [bind]. eauto.
Qed.
Lemma sample_count files evs records : file_contents checks nsubevents files records -> negative_sample double checks mw sort nsubevents cluster files evs ->
  length evs = length (filter (negative_record double mw sort) records).
Proof.
  intros Hr (records' & Hr' & H). rewrite (file_contents_unique _ _ _ _ _ Hr Hr'). symmetry. exact (Forall2_same_length _ _ H).
Qed.
End Collect.

(** What cres-make-partition does, for input files in which all records can be read and those with negative weight can be
    clustered, depends only on the number [n] of records with negative weight: an error if there are fewer than regions, a partition if there are at
    least [3 * 2^(k-1) - 1] (or there is only one region), otherwise a panic. *)
Theorem C77_make_partition : forall (N : NumOps) (D : N -> Prop) (double : parser N) checks mw sort nsubevents cluster (dist : Event N -> Event N -> N)
    choose m k files records,
  order_on N D -> sort_ok sort -> choose_ok choose -> 2 <= m -> k < 32 -> distances_in double checks mw sort nsubevents cluster D dist files ->
  file_contents checks nsubevents files records -> Forall (usable_record double mw sort cluster) records ->
  let n := length (filter (negative_record double mw sort) records) in
  let result := partition_program double checks mw sort nsubevents cluster dist choose m (2 ^ N.of_nat k) files in
  (n < 2 ^ k -> exists e, result = Err e) /\
  (2 ^ k <= n -> k = 0 \/ 3 * 2 ^ (k - 1) - 1 <= n -> exists vp, result = Ok vp) /\
  (2 ^ k <= n -> 0 < k -> n < 3 * 2 ^ (k - 1) - 1 -> result = Panic).
Proof.
  intros N D double checks mw sort nsubevents cluster dist choose m k files records Ho Hs Hc Hm Hk HD Hr Hg n result.
  destruct (collect_events_ok double checks mw sort nsubevents cluster files records Hr Hg) as [evs E]. pose proof (collect_events_spec _ _ _ _ _ _ _ _ E) as Hev.
  pose proof (sample_count _ _ _ _ _ _ _ _ _ Hr Hev) as Hlen. fold n in Hlen. subst result. unfold partition_program. rewrite E. cbn [bind].
  pose proof (fun i j (Hi : i < length evs) (Hj : j < length evs) => HD evs Hev _ _ (nth_In _ (default_event mw) Hi) (nth_In _ (default_event mw) Hj)) as HD'.
  destruct (C39_construction_partial N D sort choose m (index_dist mw dist evs) (length evs) k Ho Hs Hc Hm HD' Hk) as (H1 & H2 & H3). rewrite <- Hlen.
  split; [|split].
  - intros H. rewrite (H1 H). eauto.
  - intros Ha Hb. destruct (H2 Ha Hb) as (ivp & Em & _). rewrite Em.
    destruct (made_shape N D Ho sort Hs choose Hc m Hm (index_dist mw dist evs) (length evs) HD' k ivp Hk Em) as (t & pts & _ & _ & _ & _ & H5 & H6 & H7 & _).
    rewrite (take_events_spec N mw ivp evs H6 H7). unfold from_vp. rewrite map_length, H5, pow2_is. eauto.
  - intros Ha Hb Hc'. rewrite (H3 Ha Hb Hc'). reflexivity.
Qed.
Print Assumptions C77_make_partition.

(** cres-classify-events succeeds with every partition file that can be read, also one that cres-make-partition would
    not write (e.g. with a number of regions that is not a power of two), if all records can be read and clustered:
    there always is an output file for the region of an event. *)
Theorem C77_any_partition : forall (N : NumOps) (double : parser N) checks mw sort nsubevents (C : Type) (cluster : C -> Event N -> option (Event N))
    dist unyaml part_file c vp files records,
  unyaml part_file = Some (c, vp) ->
  file_contents checks nsubevents files records -> Forall (good_record double mw sort (cluster c)) records ->
  exists outs, classify_main double checks mw sort nsubevents cluster dist unyaml part_file files = Ok outs.
Proof.
  intros N double checks mw sort nsubevents C cluster dist unyaml part_file c vp files records Hu (parts & Hp & ->) Hg. unfold classify_main. rewrite Hu. clear Hu.
  induction Hp as [|file part files parts (h & rs & E & ->) Hp IH]; cbn [concat classify_files] in *; [eauto|].
  apply Forall_app in Hg as [Ha Hb]. destruct (IH Hb) as [l El]. unfold classify_byte_records. unfold file_records in E. rewrite E.
  destruct (loop_ok N double mw sort (cluster c) (dist c) vp (detect_event_file_format file) rs (repeat h (partition_len vp))) as [outs ->].
  - intros r Hr. rewrite Forall_forall in Ha. destruct (Ha _ (in_map (pair (detect_event_file_format file)) _ _ Hr)) as (raw & w & ev & G1 & _ & G3). cbn [fst snd] in G1.
    destruct (region_any N (Event N) (dist c) vp ev) as (i & Hi & Hlt). exists i. unfold record_region, text in *. rewrite G1. cbn [bind]. rewrite G3, Hi, repeat_length. auto.
  - cbn [bind]. rewrite El. cbn [bind]. eauto.
Qed.
Print Assumptions C77_any_partition.

(** *** Compressed partitions *)

(** A partition written with [--compression gzip] or [--compression zstd] cannot be used: cres-classify-events always
    fails, because compressed data is not valid UTF-8 (it starts with the bytes 1F 8B or 28 B5 2F FD) and thus not YAML. *)
Definition gzip_magic : text := map ascii_of_N [31; 139]%N.
Definition zstd_magic : text := map ascii_of_N [40; 181; 47; 253]%N.
Theorem C77_compressed_refuted : forall (N : NumOps) (double : parser N) checks mw sort nsubevents (C : Type) (cluster : C -> Event N -> option (Event N))
    dist choose yaml unyaml compress c regions a level part_file input files,
  (forall t, utf8 t = false -> unyaml t = None) ->
  (forall level t, exists rest, compress (Gzip level) t = gzip_magic ++ rest) ->
  (forall level t, exists rest, compress (Zstd level) t = zstd_magic ++ rest) ->
  a = Gzip level \/ a = Zstd level ->
  partition_main double checks mw sort nsubevents cluster dist choose yaml compress c regions (Some a) input = Ok part_file ->
  exists e, classify_main double checks mw sort nsubevents cluster dist unyaml part_file files = Err e.
Proof.
  intros N double checks mw sort nsubevents C cluster dist choose yaml unyaml compress c regions a level part_file input files Hu Hg Hz Ha H.
  unfold partition_main in H. destruct (partition_program _ _ _ _ _ _ _ _ _ _ _) as [vp| |]; try discriminate. cbn [bind] in H. injection H as <-.
  unfold classify_main. rewrite Hu; [eauto|]. destruct Ha as [->| ->].
  - destruct (Hg level (yaml (c, vp))) as [rest ->]. reflexivity.
  - destruct (Hz level (yaml (c, vp))) as [rest ->]. reflexivity.
Qed.
Print Assumptions C77_compressed_refuted.

(** *** An example: two LHEF files, five events of negative weight, four regions *)

(** A way to write and read partitions: numbers as binary digits, lists with a mark before each element *)
Definition put (A : Type) := A -> text.
Definition get (A : Type) := text -> option (A * text).
Definition reads {A} (p : put A) (g : get A) : Prop := forall a rest, g (p a ++ rest) = Some (a, rest).
Fixpoint put_positive (p : positive) : text := match p with xH => lit "." | xO p => lit "0" ++ put_positive p | xI p => lit "1" ++ put_positive p end.
Fixpoint get_positive (t : text) : option (positive * text) :=
  match t with
  | [] => None
  | c :: t => if ceq c "." then Some (xH, t) else match get_positive t with Some (p, r) => Some ((if ceq c "0" then xO p else xI p), r) | None => None end
  end.
Lemma reads_positive : reads put_positive get_positive.
Proof. intros p. induction p as [p IH|p IH|]; intros rest; [cbn; rewrite IH| cbn; rewrite IH|]; reflexivity. Qed.
Definition put_z (z : Z) : text := match z with Z0 => lit "0" | Zpos p => lit "+" ++ put_positive p | Zneg p => lit "-" ++ put_positive p end.
Definition get_z (t : text) : option (Z * text) :=
  match t with
  | [] => None
  | c :: t => if ceq c "0" then Some (Z0, t) else match get_positive t with Some (p, r) => Some ((if ceq c "+" then Zpos p else Zneg p), r) | None => None end
  end.
Lemma reads_z : reads put_z get_z.
Proof. intros [|p|p] rest; cbn; rewrite ?reads_positive; reflexivity. Qed.
Definition put_pair {A B} (p : put A) (q : put B) : put (A * B) := fun x => p (fst x) ++ q (snd x).
Definition get_pair {A B} (p : get A) (q : get B) : get (A * B) := fun t =>
  match p t with Some (a, t) => match q t with Some (b, t) => Some ((a, b), t) | None => None end | None => None end.
Lemma reads_pair {A B} (p : put A) (q : put B) p' q' : reads p p' -> reads q q' -> reads (put_pair p q) (get_pair p' q').
Proof. intros Hp Hq [a b] rest. unfold put_pair, get_pair. cbn [fst snd]. rewrite <- app_assoc, Hp, Hq. reflexivity. Qed.
Definition put_list {A} (p : put A) : put (list A) := fun l => concat (map (fun a => lit "," ++ p a) l) ++ lit ";".
Fixpoint get_items {A} (fuel : nat) (p : get A) : get (list A) := fun t =>
  match fuel, t with
  | S fuel, c :: t => if ceq c ";" then Some ([], t) else
      match p t with Some (a, t) => match get_items fuel p t with Some (l, t) => Some (a :: l, t) | None => None end | None => None end
  | _, _ => None
  end.
Definition get_list {A} (p : get A) : get (list A) := fun t => get_items (length t) p t.
Lemma put_list_cons {A} (p : put A) a l rest : put_list p (a :: l) ++ rest = ","%char :: (p a ++ (put_list p l ++ rest)).
Proof. unfold put_list. cbn [map concat]. rewrite <- !app_assoc. reflexivity. Qed.
Lemma reads_list {A} (p : put A) p' : reads p p' -> reads (put_list p) (get_list p').
Proof.
  intros Hp l rest. unfold get_list.
  assert (H : forall fuel, length l < fuel -> get_items fuel p' (put_list p l ++ rest) = Some (l, rest)).
  { induction l as [|a l IH]; intros [|fuel] Hf; cbn [length] in Hf; try lia; [reflexivity|].
    rewrite put_list_cons. cbn [get_items]. change (ceq "," ";") with false. cbv iota. rewrite Hp, IH by lia. reflexivity. }
  apply H. clear. induction l as [|a l IH]; [cbn; lia|]. rewrite put_list_cons. cbn [length]. rewrite app_length. lia.
Qed.
Definition put_map {A B} (f : A -> B) (p : put B) : put A := fun a => p (f a).
Definition get_map {A B} (f : B -> A) (p : get B) : get A := fun t => match p t with Some (b, t) => Some (f b, t) | None => None end.
Lemma reads_map {A B} (f : A -> B) (g : B -> A) p p' : (forall a, g (f a) = a) -> reads p p' -> reads (put_map f p) (get_map g p').
Proof. intros H Hp a rest. unfold put_map, get_map. rewrite Hp, H. reflexivity. Qed.

Definition of_fv (p : FourVector ZN) : Z * (Z * (Z * (Z * Z))) := (fv_pt p, (fv_e p, (fv_x p, (fv_y p, fv_z p)))).
Definition to_fv (x : Z * (Z * (Z * (Z * Z)))) : FourVector ZN := let '(a, (b, (c, (d, e)))) := x in mkFV (N:=ZN) a b c d e.
Definition of_ev (ev : Event ZN) : Z * (list Z * list (Z * list (FourVector ZN))) := (Z.of_nat (ev_id ev), (ev_weights ev, ev_out ev)).
Definition to_ev (x : Z * (list Z * list (Z * list (FourVector ZN)))) : Event ZN := mkEvent (N:=ZN) (Z.to_nat (fst x)) (fst (snd x)) (snd (snd x)).
Definition of_bis (b : Bisection ZN (Event ZN)) : Event ZN * Z := (b_pt b, b_r b).
Definition to_bis (x : Event ZN * Z) : Bisection ZN (Event ZN) := mkBis (F:=ZN) (fst x) (snd x).
Definition put_fv := put_map of_fv (put_pair put_z (put_pair put_z (put_pair put_z (put_pair put_z put_z)))).
Definition get_fv := get_map to_fv (get_pair get_z (get_pair get_z (get_pair get_z (get_pair get_z get_z)))).
Definition put_ev := put_map of_ev (put_pair put_z (put_pair (put_list put_z) (put_list (put_pair put_z (put_list put_fv))))).
Definition get_ev := get_map to_ev (get_pair get_z (get_pair (get_list get_z) (get_list (get_pair get_z (get_list get_fv))))).
Definition put_vp := put_list (put_map of_bis (put_pair put_ev put_z)).
Definition get_vp := get_list (get_map to_bis (get_pair get_ev get_z)).
Lemma reads_vp : reads put_vp get_vp.
Proof.
  unfold put_vp, get_vp, put_ev, get_ev, put_fv, get_fv.
  repeat first [apply reads_list|apply reads_pair|apply reads_z|apply reads_map]; [intros []; reflexivity| |intros []; reflexivity].
  intros []. unfold of_ev, to_ev. cbn. rewrite Nat2Z.id. reflexivity.
Qed.
Definition pr_yaml (x : unit * list (Bisection ZN (Event ZN))) : text := lit "p" ++ put_vp (snd x).
Definition pr_unyaml (t : text) : option (unit * list (Bisection ZN (Event ZN))) :=
  if utf8 t then match t with c :: t => if ceq c "p" then match get_vp t with Some (vp, []) => Some (tt, vp) | _ => None end else None | [] => None end else None.


Definition ascii_only (t : text) : Prop := Forall (fun c => (N_of_ascii c < 128)%N) t.
Lemma ascii_only_utf8 t : ascii_only t -> utf8 t = true.
Proof.
  unfold utf8. induction 1 as [|c t H Ht IH]; [reflexivity|]. cbn [utf8_from]. unfold utf8_step.
  replace ((0 <=? N_of_ascii c) && (N_of_ascii c <=? 127))%N%bool with true; [exact IH|].
  symmetry. apply andb_true_intro. split; apply N.leb_le; lia.
Qed.
Lemma ascii_positive p : ascii_only (put_positive p).
Proof. induction p as [p IH|p IH|]; cbn [put_positive]; (constructor; [reflexivity|]); [exact IH|exact IH|constructor]. Qed.
Lemma ascii_z z : ascii_only (put_z z).
Proof. destruct z; (constructor; [reflexivity|]); [constructor|apply ascii_positive|apply ascii_positive]. Qed.
Lemma ascii_pair {A B} (p : put A) (q : put B) : (forall a, ascii_only (p a)) -> (forall a, ascii_only (q a)) -> forall a, ascii_only (put_pair p q a).
Proof. intros Hp Hq a. apply Forall_app. split; [apply Hp|apply Hq]. Qed.
Lemma ascii_list {A} (p : put A) : (forall a, ascii_only (p a)) -> forall a, ascii_only (put_list p a).
Proof.
  intros Hp l. apply Forall_app. split; [|constructor; [reflexivity|constructor]].
  induction l as [|a l IH]; cbn [map concat]; [constructor|]. apply Forall_app. split; [constructor; [reflexivity|apply Hp]|exact IH].
Qed.
Lemma ascii_map {A B} (f : A -> B) p : (forall a, ascii_only (p a)) -> forall a, ascii_only (put_map f p a).
Proof. intros H a. apply H. Qed.
Lemma ascii_vp vp : ascii_only (put_vp vp).
Proof. revert vp. unfold put_vp, put_ev, put_fv. repeat first [apply ascii_list|apply ascii_pair|apply ascii_map|apply ascii_z]. Qed.

Lemma pr_yaml_ok : forall info, pr_unyaml (pr_yaml info) = Some info.
Proof.
  intros [[] vp]. unfold pr_unyaml, pr_yaml. cbn [snd].
  rewrite ascii_only_utf8 by (constructor; [reflexivity|apply ascii_vp]). cbn [lit list_ascii_of_string app]. change (ceq "p" "p") with true. cbv iota.
  rewrite <- (app_nil_r (put_vp vp)), reads_vp. reflexivity.
Qed.
Lemma pr_unyaml_utf8 t : utf8 t = false -> pr_unyaml t = None.
Proof. unfold pr_unyaml. intros ->. reflexivity. Qed.
Definition pr_compress (a : Compression) (t : text) : text := match a with Gzip _ => gzip_magic ++ t | Zstd _ => zstd_magic ++ t | _ => t end.

Definition pr_event (w : string) : text := [NL] ++ ln "<event>" ++ lit " 2 1 " ++ lit w ++ ln " 0 0 0" ++ ln " 22 1 0 0 0 0 0 0 7 7 0" ++
  ln "11 1 0 0 0 0 3 4 12 13 0" ++ lit "</event>".
Definition pr_file1 : text := Eval vm_compute in lh_header ++ pr_event "-1" ++ pr_event "5" ++ pr_event "-2" ++ pr_event "-4" ++ lh_tail.
Definition pr_file2 : text := Eval vm_compute in lh_header ++ pr_event "-8" ++ pr_event "7" ++ pr_event "-16" ++ lh_tail.
Definition pr_records : list (format * text) := Eval vm_compute in map (fun w => (Lhef, pr_event w)) ["-1"; "5"; "-2"; "-4"; "-8"; "7"; "-16"]%string.
Definition pr_clust (c : unit) (ev : Event ZN) : option (Event ZN) := Some ev.
Definition pr_dist (c : unit) := ex_dist.
Definition pr_nsub (t : text) : BinNums.N := 0%N.
Definition pr_evs : list (Event ZN) := Eval vm_compute in
  match collect_events (N:=ZN) z_double true false isort pr_nsub (pr_clust tt) [pr_file1; pr_file2] with Ok l => l | _ => [] end.
Definition pr_part : text := Eval vm_compute in
  match partition_main (N:=ZN) z_double true false isort pr_nsub pr_clust pr_dist first_min pr_yaml pr_compress tt 4 None [pr_file1; pr_file2] with Ok t => t | _ => [] end.
Definition pr_outs : list (list text) := Eval vm_compute in
  match classify_main (N:=ZN) z_double true false isort pr_nsub pr_clust pr_dist pr_unyaml pr_part [pr_file1; pr_file2] with Ok t => t | _ => [] end.

Lemma pr_contents : file_contents true pr_nsub [pr_file1; pr_file2] pr_records.
Proof.
  exists [firstn 4 pr_records; skipn 4 pr_records]. split; [|vmr].
  assert (E1 : detect_event_file_format pr_file1 = Lhef) by vmr. assert (E2 : detect_event_file_format pr_file2 = Lhef) by vmr.
  constructor; [|constructor; [|constructor]]; exists lh_header; [exists (map snd (firstn 4 pr_records))|exists (map snd (skipn 4 pr_records))].
  - split; [vmr|rewrite E1; vmr].
  - split; [vmr|rewrite E2; vmr].
Qed.
Lemma pr_good : Forall (good_record (N:=ZN) z_double false isort (pr_clust tt)) pr_records.
Proof.
  assert (H : forallb (fun r => match convert (N:=ZN) z_double false isort (fst r) (snd r) with Ok ev => match ev_weight ev with Some _ => true | None => false end | _ => false end)
    pr_records = true) by vmr.
  rewrite forallb_forall in H. apply Forall_forall. intros r Hr. specialize (H r Hr).
  destruct (convert z_double false isort (fst r) (snd r)) as [raw| |] eqn:E; try discriminate. destruct (ev_weight raw) as [w|] eqn:Ew; [|discriminate].
  exists raw, w, raw. unfold pr_clust. auto.
Qed.
Lemma pr_collect : collect_events (N:=ZN) z_double true false isort pr_nsub (pr_clust tt) [pr_file1; pr_file2] = Ok pr_evs.
Proof. vmr. Qed.
Lemma pr_sample : negative_sample (N:=ZN) z_double true false isort pr_nsub (pr_clust tt) [pr_file1; pr_file2] pr_evs.
Proof. apply collect_events_spec. exact pr_collect. Qed.
Lemma pr_partition : partition_main (N:=ZN) z_double true false isort pr_nsub pr_clust pr_dist first_min pr_yaml pr_compress tt (2 ^ N.of_nat 2) None
  [pr_file1; pr_file2] = Ok pr_part.
Proof. vmr. Qed.
Lemma pr_classify : classify_main (N:=ZN) z_double true false isort pr_nsub pr_clust pr_dist pr_unyaml pr_part [pr_file1; pr_file2] = Ok pr_outs.
Proof. vmr. Qed.

Definition below (n : nat) (p : nat -> bool) : bool := forallb p (seq 0 n).
Lemma below_true n p : below n p = true -> forall i, i < n -> p i = true.
Proof. unfold below. rewrite forallb_forall. intros H i Hi. apply H. apply in_seq. lia. Qed.
Definition pr_d (i j : nat) : ZN := pr_dist tt (nth i pr_evs (default_event false)) (nth j pr_evs (default_event false)).
Lemma pr_nearest : nearest_to_itself (length pr_evs) pr_d.
Proof.
  assert (H : below 5 (fun i => below 5 (fun j => nleb (pr_d i i) (pr_d i j))) = true) by vmr.
  intros i j Hi Hj. exact (below_true _ _ (below_true _ _ H i Hi) j Hj).
Qed.
Lemma pr_position : general_position (length pr_evs) pr_d.
Proof.
  assert (H : below 5 (fun i => below 5 (fun j => below 5 (fun k =>
    ((j =? i) || (k =? i) || (j =? k) || negb (nleb (pr_d i j) (pr_d i k) && nleb (pr_d i k) (pr_d i j)))%bool))) = true) by vmr.
  intros i j k Hi Hj Hk Nj Nk L1 L2. pose proof (below_true _ _ (below_true _ _ (below_true _ _ H i Hi) j Hj) k Hk) as G. cbv beta in G.
  rewrite L1, L2 in G. apply Nat.eqb_neq in Nj, Nk. rewrite Nj, Nk in G. cbn [orb andb negb] in G. rewrite Bool.orb_false_r in G. apply Nat.eqb_eq. exact G.
Qed.

Lemma good_usable {N : NumOps} (double : parser N) mw sort cluster r : good_record double mw sort cluster r -> usable_record double mw sort cluster r.
Proof. intros (raw & w & ev & H1 & H2 & H3). exists raw, w. eauto. Qed.

(** All hypotheses of [C77_partition], [C77_share], [C77_programs], [C77_make_partition], [C77_any_partition] *)
Example C77_case :
  (forall info, pr_unyaml (pr_yaml info) = Some info) /\
  file_contents true pr_nsub [pr_file1; pr_file2] pr_records /\ Forall (good_record (N:=ZN) z_double false isort (pr_clust tt)) pr_records /\
  negative_sample (N:=ZN) z_double true false isort pr_nsub (pr_clust tt) [pr_file1; pr_file2] pr_evs /\
  distances_in (N:=ZN) z_double true false isort pr_nsub (pr_clust tt) (fun _ => True) (pr_dist tt) [pr_file1; pr_file2] /\
  nearest_to_itself (length pr_evs) pr_d /\ general_position (length pr_evs) pr_d /\
  partition_main (N:=ZN) z_double true false isort pr_nsub pr_clust pr_dist first_min pr_yaml pr_compress tt (2 ^ N.of_nat 2) None [pr_file1; pr_file2] = Ok pr_part /\
  classify_main (N:=ZN) z_double true false isort pr_nsub pr_clust pr_dist pr_unyaml pr_part [pr_file1; pr_file2] = Ok pr_outs /\
  map (@length text) pr_outs = [4; 4].
Proof.
  split; [exact pr_yaml_ok|]. split; [exact pr_contents|]. split; [exact pr_good|]. split; [exact pr_sample|].
  split; [repeat intro; exact I|]. split; [exact pr_nearest|]. split; [exact pr_position|]. split; [exact pr_partition|].
  split; [exact pr_classify|vmr].
Qed.

(** The theorem applied to it *)
Example C77_programs_case : exists vp table, length vp + 1 = 2 ^ 2 /\ length pr_outs = 2 /\
    Forall2 (fun '(file, outs) entry => classified (N:=ZN) z_double true false isort pr_nsub (pr_clust tt) (pr_dist tt) vp file outs entry)
      (combine [pr_file1; pr_file2] pr_outs) table /\
    forall r, r < 2 ^ 2 -> fair_share (list_sum (map (negatives (N:=ZN) z_double false isort) table)) 2 (list_sum (map (negatives_in (N:=ZN) z_double false isort r) table)).
Proof.
  apply (C77_programs ZN (fun _ => True) z_double true false isort pr_nsub unit pr_clust pr_dist first_min pr_yaml pr_unyaml pr_compress tt 2
    [pr_file1; pr_file2] pr_part pr_outs pr_evs); auto using zn_order, isort_ok, first_min_ok, pr_yaml_ok, pr_sample, pr_nearest, pr_position, pr_partition, pr_classify.
  - lia.
  - repeat intro. exact I.
Qed.

(** Equal distances: a partition can be made (hypotheses of [C77_share_refuted]) *)
Definition pr_equal (a b : Event ZN) : ZN := 0%Z.
Example C77_share_refuted_case : exists vp,
  partition_program (N:=ZN) z_double true false isort pr_nsub (pr_clust tt) pr_equal first_min 1000 (2 ^ N.of_nat 2) [pr_file1; pr_file2] = Ok vp /\
  events_in pr_equal vp 0 pr_evs = 5 /\ events_in pr_equal vp 3 pr_evs = 0.
Proof.
  let r := eval vm_compute in (partition_program (N:=ZN) z_double true false isort pr_nsub (pr_clust tt) pr_equal first_min 1000 4 [pr_file1; pr_file2]) in
  match r with Ok ?v => exists v end. split; [vmr|]. split; vmr.
Qed.

Lemma compressed_output {N : NumOps} (double : parser N) checks mw sort nsubevents (C : Type) (cluster : C -> Event N -> option (Event N))
    dist choose yaml compress c regions a input p :
  partition_main double checks mw sort nsubevents cluster dist choose yaml compress c regions None input = Ok p ->
  partition_main double checks mw sort nsubevents cluster dist choose yaml compress c regions (Some a) input = Ok (compress a p).
Proof.
  unfold partition_main. destruct (partition_program _ _ _ _ _ _ _ _ _ _ _) as [vp| |]; try discriminate. cbn [bind]. intros H. injection H as <-. reflexivity.
Qed.
(** Compression: the hypotheses of [C77_compressed_refuted] *)
Example C77_compressed_refuted_case :
  (forall t, utf8 t = false -> pr_unyaml t = None) /\
  (forall level t, exists rest, pr_compress (Gzip level) t = gzip_magic ++ rest) /\ (forall level t, exists rest, pr_compress (Zstd level) t = zstd_magic ++ rest) /\
  partition_main (N:=ZN) z_double true false isort pr_nsub pr_clust pr_dist first_min pr_yaml pr_compress tt (2 ^ N.of_nat 2) (Some (Gzip 6)) [pr_file1; pr_file2]
    = Ok (gzip_magic ++ pr_part).
Proof.
  split; [exact pr_unyaml_utf8|]. split; [intros; eexists; reflexivity|]. split; [intros; eexists; reflexivity|].
  exact (compressed_output _ _ _ _ _ _ _ _ _ _ _ _ _ _ _ _ pr_partition).
Qed.
