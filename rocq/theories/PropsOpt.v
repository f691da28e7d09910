(** Command-line options (C48) and output files of cres (C58). *)
From Coq Require Import Ascii String.
From Verif Require Import Base Num BaseProofs ModelText TextProofs ModelSeeds ModelVPTree ModelResampler ModelPartition SpecText SpecClassify ClassifyProofs
  ModelCluster ModelClassify ModelOpt SpecOpt OptProofs TextExamples.
From Verif Require PropsPartition PropsClassify.
Open Scope list_scope.

(** C48: the option --compression accepts exactly the names of algorithms, in any case, possibly
    followed by an underscore and a level that is not larger than the documented maximum; without a
    level the default is used. *)
Theorem C48_compression : forall s c, parse_compr s = Good c <-> means s c.
Proof. intros s c. split; [apply parse_compr_means|apply means_parse_compr]. Qed.
Print Assumptions C48_compression.

(** Hence the level is never larger than the documented maximum. *)
Theorem C48_levels : forall s c, parse_compr s = Good c ->
  match c with Bzip2 => True | Gzip l => (l <= 9)%N | Lz4 l => (l <= 16)%N | Zstd l => (l <= 19)%N end.
Proof.
  intros s c H. apply C48_compression in H. destruct H as [s H|s H|s n H|s H|s n H|s H|s n H]; auto; try lia;
  destruct H as (name & ds & _ & _ & Hle & _); exact Hle.
Qed.
Print Assumptions C48_levels.

Example C48_compression_case :
  parse_compr (lit "GZip_009") = Good (Gzip 9) /\ parse_compr (lit "lz4_17") = Bad (UnsupportedLevel (lit "lz4") (lit "_17")) /\
  parse_compr (lit "zstd_275") = Bad (UnsupportedLevel (lit "zstd") (lit "_275")) /\ parse_compr (lit "bz2_1") = Bad (UnsupportedLevel (lit "bz2") (lit "_1")) /\
  parse_compr (lit "zstandard") = Good (Zstd 0) /\ parse_compr (lit "gzip_+1") = Bad (UnknownAlgorithm (lit "gzip_+1")) /\
  means (lit "GZip_009") (Gzip 9).
Proof. repeat (split; [vmr|]). apply C48_compression. vmr. Qed.

(** The error message for a level that is too large should name the level, then the algorithm.  It
    has them the wrong way round. *)
Theorem C48_message_refuted : exists s e, parse_compr s = Bad e /\ s = lit "gzip_10" /\
  compression_message e <> lit "Level 10 not supported for gzip compression" /\
  compression_message e = lit "Level gzip not supported for _10 compression".
Proof. exists (lit "gzip_10"), (UnsupportedLevel (lit "gzip") (lit "_10")). split; [vmr|]. split; [reflexivity|]. split; [discriminate|reflexivity]. Qed.
Print Assumptions C48_message_refuted.

(** C48: validation accepts exactly options in which either all or none of the options for leptons
    are set, and likewise for photons.  It does not change them. *)
Theorem C48_validation : forall (N : NumOps) (opt opt' : Opt N), validate opt = Good opt' <-> opt' = opt /\ consistent opt.
Proof.
  intros N opt opt'. unfold validate, consistent, all_or_none.
  destruct opt as [j [[la|] [lr|] [lp|]] [[pf|] [pr|] [pp|]] nu]; cbn; split; intros H; try discriminate;
  try (injection H as <-); intuition (try congruence).
Qed.
Print Assumptions C48_validation.

(** cres: options that pass validation never make the conversion panic, and the clustering is as
    requested. *)
Theorem C48_options : forall (N : NumOps) (opt : Opt N),
  (consistent opt -> exists c, cres_clustering opt = Good (Some c) /\ as_requested opt c) /\
  (~ consistent opt -> exists e, cres_clustering opt = Bad e).
Proof.
  intros N opt. unfold cres_clustering. destruct (validate opt) as [opt'|e] eqn:E.
  - apply C48_validation in E. destruct E as [-> Hc]. split; [intros _|tauto].
    destruct opt as [j l p nu]. destruct Hc as [Hl Hp]. cbn [o_lepton o_photon] in Hl, Hp. unfold clustering_of, as_requested, lepton_def_of, photon_def_of, all_or_none in *.
    destruct l as [la lr lp], p as [pf pr pp]. cbn [o_leptonalgorithm o_leptonradius o_leptonpt o_photonefrac o_photonradius o_photonpt o_lepton o_photon] in *.
    destruct la as [la|], lr as [lr|], lp as [lp|]; try (exfalso; intuition congruence);
    (destruct pf as [pf|], pr as [pr|], pp as [pp|]; try (exfalso; intuition congruence));
    (eexists; split; [reflexivity|]); cbn; (split; [reflexivity|]); (split; [reflexivity|]);
    (split; intros d; (split; [intros H; try discriminate; injection H as <-; auto|intros (H1 & H2 & H3); destruct d; cbn in *; congruence])).
  - split; [|eauto]. intros Hc. assert (H : validate opt = Good opt) by (apply C48_validation; auto). congruence.
Qed.
Print Assumptions C48_options.

(** The program that makes partitions does not validate: it panics if an algorithm for leptons is
    given without radius, and ignores a radius without algorithm. *)
Theorem C48_partition_refuted : forall N : NumOps, exists opt opt' : Opt N,
  partition_clustering opt = None /\
  exists c, partition_clustering opt' = Some c /\ cl_lepton c = None /\ o_leptonradius (o_lepton opt') <> None /\ ~ consistent opt'.
Proof.
  intros N. exists (mkOpt (mkJetOpt Kt n1 n1) (mkLeptonOpt (Some Kt) None (Some n1)) (mkPhotonOpt None None None) false).
  exists (mkOpt (mkJetOpt Kt n1 n1) (mkLeptonOpt None (Some n1) None) (mkPhotonOpt None None None) false).
  split; [reflexivity|]. eexists. split; [reflexivity|]. cbn. split; [reflexivity|]. split; [discriminate|].
  unfold consistent, all_or_none. cbn. intuition discriminate.
Qed.
Print Assumptions C48_partition_refuted.
(** With consistent options it does not panic, and the clustering is as requested. *)
Theorem C48_partition_partial : forall (N : NumOps) (opt : Opt N), consistent opt -> exists c, partition_clustering opt = Some c /\ as_requested opt c.
Proof.
  intros N opt H. destruct (C48_options N opt) as [A _]. destruct (A H) as (c & E & R). exists c. split; auto.
  unfold cres_clustering in E. rewrite (proj2 (C48_validation N opt opt) (conj eq_refl H)) in E. unfold partition_clustering. congruence.
Qed.
Print Assumptions C48_partition_partial.

Example C48_options_case :
  let opt := mkOpt (N := ZN) (mkJetOpt (N := ZN) AntiKt 4%Z 30%Z) (mkLeptonOpt (N := ZN) (Some Kt) (Some 1%Z) (Some 20%Z)) (mkPhotonOpt (N := ZN) None None None) true in
  consistent opt /\ cres_clustering opt = Good (Some (mkClustering (N := ZN) (mkJetDef (N := ZN) AntiKt 4%Z 30%Z) (Some (mkJetDef (N := ZN) Kt 1%Z 20%Z)) None true)).
Proof. cbn. split; [|reflexivity]. unfold consistent, all_or_none. cbn. split; [left|right]; repeat split; discriminate. Qed.

(** The number of regions: exactly the numbers 2^k below 2^32, in decimal digits after an optional
    '+'; the depth of the tree is then exactly k. *)
Theorem C48_regions : forall s n, parse_nregions s = Some n <->
  exists k, (n = 2 ^ k /\ k < 32)%N /\ log2_u32 n = Some k /\ (decimal s n \/ exists s', s = "+"%char :: s' /\ decimal s' n).
Proof.
  intros s n. unfold parse_nregions. split.
  - destruct (uint_from_str (2 ^ 32) s) as [m|] eqn:E; [|discriminate]. unfold u32_is_power_of_two.
    destruct (N.ltb_spec 0 m); [|discriminate]. destruct (N.eqb_spec (2 ^ N.log2 m) m) as [Em|]; [|discriminate]. cbn [andb].
    intros H'. injection H' as <-. apply uint_from_str_spec in E. destruct E as [Hb Hd].
    exists (N.log2 m). split; [split; auto|].
    + apply N.log2_lt_pow2; auto.
    + split; auto. destruct (PropsPartition.C43_log2 m) as (k & Hk & Hm); [lia|]. rewrite Hk. f_equal. symmetry. apply N.log2_unique; auto; [lia|].
      rewrite <- N.add_1_r. auto.
  - intros (k & [-> Hk] & _ & Hd). assert (Hlt : (2 ^ k < 2 ^ 32)%N) by (apply N.pow_lt_mono_r; lia).
    rewrite (proj2 (uint_from_str_spec (2 ^ 32) s (2 ^ k)) (conj Hlt Hd)). unfold u32_is_power_of_two.
    rewrite N.log2_pow2 by lia. rewrite N.eqb_refl. destruct (N.ltb_spec 0 (2 ^ k)); auto. assert (2 ^ k <> 0)%N by (apply N.pow_nonzero; lia). lia.
Qed.
Print Assumptions C48_regions.
Example C48_regions_case : parse_nregions (lit "+0064") = Some 64%N /\ parse_nregions (lit "12") = None /\ parse_nregions (lit "4294967296") = None.
Proof. repeat (split; [vmr|]). vmr. Qed.

(** The documented names of strategies and jet algorithms have their meaning. *)
Theorem C48_names :
  parse_strategy (lit "most_negative") = Good MostNegative /\ parse_strategy (lit "least_negative") = Good LeastNegative /\
  parse_strategy (lit "any") = Good Next /\
  parse_algorithm (lit "anti-kt") = Good AntiKt /\ parse_algorithm (lit "kt") = Good Kt /\ parse_algorithm (lit "Cambridge-Aachen") = Good CambridgeAachen.
Proof. repeat (split; [vmr|]). vmr. Qed.
Print Assumptions C48_names.

(** The last component of a path *)
Definition name_of (path name : text) : Prop :=
  (path = name \/ exists dir, path = dir ++ lit "/" ++ name) /\ ~ In "/"%char name /\ name <> [].
Lemma file_name_of path name : name_of path name -> file_name path = name.
Proof.
  intros (H & Hs & _). unfold file_name.
  assert (Hp : forallb (fun c => negb (ceq c "/")) (rev name) = true).
  { apply forallb_forall. intros c Hc. apply in_rev in Hc. destruct (ceq c "/") eqn:E; auto. apply ceq_true in E. subst. contradiction. }
  destruct H as [->|(dir & ->)].
  - rewrite <- (app_nil_r (rev name)), span_of; auto. cbn [fst]. apply rev_involutive.
  - rewrite !rev_app_distr. cbn [lit list_ascii_of_string rev app]. rewrite <- app_assoc. cbn [app].
    rewrite (span_of _ (rev name)); [|exact Hp|reflexivity]. cbn [fst]. apply rev_involutive.
Qed.
Lemma join_in outdir name : outdir <> [] -> ~ finishes_with (lit "/") outdir -> ~ In "/"%char name -> name <> [] -> join_path outdir name = outdir ++ lit "/" ++ name.
Proof.
  intros H1 H2 H3 H4. unfold join_path. destruct name as [|c name]; [congruence|]. destruct (ceq c "/") eqn:E; [apply ceq_true in E; subst; exfalso; apply H3; left; reflexivity|].
  destruct (rev outdir) as [|d r] eqn:Er; [apply (f_equal (@rev _)) in Er; rewrite rev_involutive in Er; cbn in Er; congruence|].
  destruct (ceq d "/") eqn:Ed; [|reflexivity]. apply ceq_true in Ed. subst d. exfalso. apply H2. exists (rev r). rewrite <- (rev_involutive outdir), Er. reflexivity.
Qed.

(** C58: for each input file cres uses an output file with the same name in the output directory. *)
Theorem C58_outputs : forall outdir infiles names, outdir <> [] -> ~ finishes_with (lit "/") outdir ->
  Forall2 name_of infiles names ->
  cres_files outdir infiles = combine infiles (map (fun name => outdir ++ lit "/" ++ name) names).
Proof.
  intros outdir infiles names H1 H2 H. induction H as [|f name infiles names Hf _ IH]; [reflexivity|].
  cbn [cres_files map combine]. f_equal; [|exact IH]. rewrite (file_name_of _ _ Hf). destruct Hf as (_ & Hs & Hn). rewrite join_in; auto.
Qed.
Print Assumptions C58_outputs.
(** If the names are different, so are the output files. *)
Theorem C58_distinct_partial : forall outdir infiles names, outdir <> [] -> ~ finishes_with (lit "/") outdir ->
  Forall2 name_of infiles names -> NoDup names -> NoDup (map snd (cres_files outdir infiles)).
Proof.
  intros outdir infiles names H1 H2 H Hd. rewrite (C58_outputs outdir infiles names H1 H2 H).
  assert (E : map snd (combine infiles (map (fun name => outdir ++ lit "/" ++ name) names)) = map (fun name => outdir ++ lit "/" ++ name) names).
  { clear -H. induction H; cbn; [reflexivity|]. f_equal. auto. }
  unfold text in *. rewrite E. apply FinFun.Injective_map_NoDup; auto. intros a b Hab. apply app_inv_head, app_inv_head in Hab. exact Hab.
Qed.
Print Assumptions C58_distinct_partial.
(** But different input files with the same name get the same output file, and if the input is in the
    output directory the output file is the input file. *)
Theorem C58_refuted :
  (exists outdir f1 f2 out, f1 <> f2 /\ cres_files outdir [f1; f2] = [(f1, out); (f2, out)]) /\
  (exists outdir f, cres_files outdir [f] = [(f, f)]).
Proof.
  split; [exists (lit "out"), (lit "a/events.hepmc"), (lit "b/events.hepmc"), (lit "out/events.hepmc"); split; [discriminate|reflexivity]|].
  exists (lit "data"), (lit "data/events.hepmc"). reflexivity.
Qed.
Print Assumptions C58_refuted.

Example C58_case : cres_files (lit "out") [lit "data/run1.hepmc"; lit "run2.lhe.gz"] =
    [(lit "data/run1.hepmc", lit "out/run1.hepmc"); (lit "run2.lhe.gz", lit "out/run2.lhe.gz")] /\
  Forall2 name_of [lit "data/run1.hepmc"; lit "run2.lhe.gz"] [lit "run1.hepmc"; lit "run2.lhe.gz"] /\ ~ finishes_with (lit "/") (lit "out").
Proof.
  split; [vmr|]. split.
  - constructor; [|constructor; [|constructor]]; (split; [|split; [cbn; intuition discriminate|discriminate]]); [right; exists (lit "data"); reflexivity|left; reflexivity].
  - intros [x Hx]. apply (f_equal (@rev _)) in Hx. rewrite rev_app_distr in Hx. discriminate.
Qed.
