(** Model of the command-line options: src/bin/opt_common.rs, src/bin/opt_cres.rs,
    src/bin/opt_cres_validate.rs, src/bin/opt_partition.rs, and of what src/bin/main.rs and
    src/bin/partition.rs make of them.  Not modelled: clap itself (splitting the command line, options
    that are parsed by the standard library) and argument files. *)
From Coq Require Import Ascii String.
From Verif Require Import Base Num ModelText ModelSeeds ModelCluster ModelClassify.
Open Scope list_scope.

(** Result of a function that reports errors of type [E] *)
Inductive result (A E : Type) := Good (a : A) | Bad (e : E).
Arguments Good {A E}. Arguments Bad {A E}.

(** *** Compression *)

(** src/compression.rs:6-17 [enum Compression] *)
Inductive Compression := Bzip2 | Gzip (level : BinNums.N) | Lz4 (level : BinNums.N) | Zstd (level : BinNums.N).

(** src/bin/opt_common.rs:159-165 [enum ParseCompressionErr] and its error messages *)
Inductive ParseCompressionErr := UnknownAlgorithm (s : text) | UnsupportedLevel (a b : text).
Definition compression_message (e : ParseCompressionErr) : text :=
  match e with
  | UnknownAlgorithm s => lit "Unknown compression algorithm: " ++ s
  | UnsupportedLevel a b => lit "Level " ++ a ++ lit " not supported for " ++ b ++ lit " compression"
  end.

(** [char::to_ascii_lowercase] *)
Definition to_lower (c : ascii) : ascii :=
  let n := N_of_ascii c in
  if (65 <=? n)%N && (n <=? 90)%N then ascii_of_N (n + 32) else c.

Definition is_digit (c : ascii) : bool := match digit c with Some _ => true | None => false end.
(** [[:alnum:]] *)
Definition is_alnum (c : ascii) : bool :=
  let n := N_of_ascii c in
  is_digit c || ((65 <=? n)%N && (n <=? 90)%N) || ((97 <=? n)%N && (n <=? 122)%N).

(** src/bin/opt_common.rs:15-17 and 24: the regular expression
    ^(?P<algo>[[:alnum:]]+)(?P<lvl>_\d+)?$ , the groups [algo] and [lvl].  Simplification: \d also matches
    digits other than 0-9; parsing the level then fails, here there is no match (an error as well). *)
Definition captures (s : text) : option (text * option text) :=
  match span is_alnum s with
  | ([], _) => None
  | (algo, []) => Some (algo, None)
  | (algo, c :: lvl) =>
      if ceq c "_" then
        match lvl with
        | [] => None
        | _ => if forallb is_digit lvl then Some (algo, Some (c :: lvl)) else None
        end
      else None
  end.

(** [from_str] of an unsigned integer below [bound]: an optional '+', then digits; an error on overflow *)
Fixpoint uint_digits (bound value : BinNums.N) (t : text) : option BinNums.N :=
  match t with
  | [] => Some value
  | c :: t' =>
      match digit c with
      | None => None
      | Some d => let v := (value * 10 + d)%N in if (v <? bound)%N then uint_digits bound v t' else None
      end
  end.
Definition uint_from_str (bound : BinNums.N) (t : text) : option BinNums.N :=
  let t := match t with
           | c :: (_ :: _) as t' => if ceq c "+" then tl t else t
           | _ => t
           end in
  match t with [] => None | _ => uint_digits bound 0 t end.

Definition text_eqb (a b : text) : bool := if list_eq_dec ascii_dec a b then true else false.

(** src/bin/opt_common.rs:11-13 *)
Definition GZIP_DEFAULT_LEVEL : BinNums.N := 6%N.
Definition LZ4_DEFAULT_LEVEL : BinNums.N := 0%N.
Definition ZSTD_DEFAULT_LEVEL : BinNums.N := 0%N.

(** src/bin/opt_common.rs:40-52, 53-65, 66-78: the three branches that differ in the names used *)
Definition with_level (make : BinNums.N -> Compression) (default max : BinNums.N) (algo : text) (lvl_str : option text)
    : result Compression ParseCompressionErr :=
  match lvl_str with
  | Some lvl_str =>
      match uint_from_str 256 (skipn 1 lvl_str) with
      | Some lvl => if (lvl <=? max)%N then Good (make lvl) else Bad (UnsupportedLevel algo lvl_str)
      | None => Bad (UnsupportedLevel algo lvl_str)
      end
  | None => Good (make default)
  end.

(** src/bin/opt_common.rs:19-81 [parse_compr] *)
Definition parse_compr (s : text) : result Compression ParseCompressionErr :=
  match captures (map to_lower s) with
  | None => Bad (UnknownAlgorithm s)
  | Some (algo, lvl_str) =>
      if text_eqb algo (lit "bzip2") || text_eqb algo (lit "bz2") then
        match lvl_str with
        | Some lvl_str => Bad (UnsupportedLevel algo lvl_str)
        | None => Good Bzip2
        end
      else if text_eqb algo (lit "gzip") || text_eqb algo (lit "gz") then
        with_level Gzip GZIP_DEFAULT_LEVEL 9 algo lvl_str
      else if text_eqb algo (lit "lz4") then with_level Lz4 LZ4_DEFAULT_LEVEL 16 algo lvl_str
      else if text_eqb algo (lit "zstd") || text_eqb algo (lit "zstandard") then
        with_level Zstd ZSTD_DEFAULT_LEVEL 19 algo lvl_str
      else Bad (UnknownAlgorithm s)
  end.

(** *** Names *)

(** src/bin/opt_cres.rs:12-20 [parse_strategy] *)
Definition parse_strategy (s : text) : result Strategy text :=
  if text_eqb s (lit "Any") || text_eqb s (lit "any") then Good Next
  else if text_eqb s (lit "MostNegative") || text_eqb s (lit "most_negative") then Good MostNegative
  else if text_eqb s (lit "LeastNegative") || text_eqb s (lit "least_negative") then Good LeastNegative
  else Bad s.

(** src/cluster.rs:194-204 [JetAlgorithm::from_str] *)
Definition parse_algorithm (s : text) : result JetAlgorithm text :=
  if text_eqb s (lit "anti_kt") || text_eqb s (lit "antikt") || text_eqb s (lit "anti-kt") then Good AntiKt
  else if text_eqb s (lit "kt") then Good Kt
  else if text_eqb s (lit "Cambridge/Aachen") || text_eqb s (lit "Cambridge-Aachen") || text_eqb s (lit "Cambridge_Aachen")
       || text_eqb s (lit "cambridge/aachen") || text_eqb s (lit "cambridge-aachen") || text_eqb s (lit "cambridge_aachen")
  then Good CambridgeAachen
  else Bad s.

(** src/bin/opt_partition.rs:72-85 [parse_nregions]; the message for other errors is left out *)
Definition u32_is_power_of_two (n : BinNums.N) : bool := (0 <? n)%N && (2 ^ N.log2 n =? n)%N.
Definition parse_nregions (s : text) : option BinNums.N :=
  match uint_from_str (2 ^ 32) s with
  | Some n => if u32_is_power_of_two n then Some n else None
  | None => None
  end.

(** *** Jets, leptons and photons *)
Section Definitions.
Context (N : NumOps).

(** src/bin/opt_common.rs:83-98, 110-124, 136-147 and the corresponding fields of [Opt] in
    src/bin/opt_cres.rs and src/bin/opt_partition.rs *)
Record JetOpt := mkJetOpt { o_jetalgorithm : JetAlgorithm; o_jetradius : N; o_jetpt : N }.
Record LeptonOpt := mkLeptonOpt { o_leptonalgorithm : option JetAlgorithm; o_leptonradius : option N; o_leptonpt : option N }.
Record PhotonOpt := mkPhotonOpt { o_photonefrac : option N; o_photonradius : option N; o_photonpt : option N }.
Record Opt := mkOpt { o_jet : JetOpt; o_lepton : LeptonOpt; o_photon : PhotonOpt; o_include_neutrinos : bool }.

(** src/bin/opt_common.rs:100-108 *)
Definition jet_def_of (j : JetOpt) : JetDefinition N := mkJetDef (o_jetalgorithm j) (o_jetradius j) (o_jetpt j).
(** src/bin/opt_common.rs:126-134: [None] is a panic of [unwrap] *)
Definition lepton_def_of (l : LeptonOpt) : option (JetDefinition N) :=
  match o_leptonalgorithm l with
  | None => None
  | Some a => match o_leptonradius l with
              | None => None
              | Some r => match o_leptonpt l with None => None | Some p => Some (mkJetDef a r p) end
              end
  end.
(** src/bin/opt_common.rs:149-157 *)
Definition photon_def_of (j : PhotonOpt) : option (PhotonDefinition N) :=
  match o_photonefrac j with
  | None => None
  | Some f => match o_photonradius j with
              | None => None
              | Some r => match o_photonpt j with None => None | Some p => Some (mkPhotonDef f r p) end
              end
  end.

(** src/bin/opt_cres_validate.rs:8-38 *)
Inductive ValidationError := BadLeptonOpt | BadPhotonOpt.
Definition validate (opt : Opt) : result Opt ValidationError :=
  let l := o_lepton opt in
  let p := o_photon opt in
  match match o_leptonalgorithm l, o_leptonpt l, o_leptonradius l with
        | Some _, Some _, Some _ => Good tt
        | None, None, None => Good tt
        | _, _, _ => Bad BadLeptonOpt
        end with
  | Bad e => Bad e
  | Good _ =>
      match match o_photonefrac p, o_photonradius p, o_photonpt p with
            | Some _, Some _, Some _ => Good tt
            | None, None, None => Good tt
            | _, _, _ => Bad BadPhotonOpt
            end with
      | Bad e => Bad e
      | Good _ => Good opt
      end
  end.

(** src/bin/main.rs:101-108 and src/bin/partition.rs:56-63: the clustering.  [None]: a panic *)
Definition clustering_of (opt : Opt) : option (DefaultClustering N) :=
  let c := include_neutrinos (clustering_new (jet_def_of (o_jet opt))) (o_include_neutrinos opt) in
  match match o_leptonalgorithm (o_lepton opt) with
        | Some _ => match lepton_def_of (o_lepton opt) with Some d => Some (with_lepton_def c d) | None => None end
        | None => Some c
        end with
  | None => None
  | Some c =>
      match o_photonradius (o_photon opt) with
      | Some _ => match photon_def_of (o_photon opt) with Some d => Some (with_photon_def c d) | None => None end
      | None => Some c
      end
  end.

(** src/bin/main.rs:36 and 101-108: only options that pass validation are used *)
Definition cres_clustering (opt : Opt) : result (option (DefaultClustering N)) ValidationError :=
  match validate opt with Good opt => Good (clustering_of opt) | Bad e => Bad e end.
(** src/bin/partition.rs:34-35 and 56-63: no validation *)
Definition partition_clustering (opt : Opt) : option (DefaultClustering N) := clustering_of opt.
End Definitions.
Arguments mkJetOpt {N}. Arguments o_jetalgorithm {N}. Arguments o_jetradius {N}. Arguments o_jetpt {N}.
Arguments mkLeptonOpt {N}. Arguments o_leptonalgorithm {N}. Arguments o_leptonradius {N}. Arguments o_leptonpt {N}.
Arguments mkPhotonOpt {N}. Arguments o_photonefrac {N}. Arguments o_photonradius {N}. Arguments o_photonpt {N}.
Arguments mkOpt {N}. Arguments o_jet {N}. Arguments o_lepton {N}. Arguments o_photon {N}. Arguments o_include_neutrinos {N}.
Arguments jet_def_of {N}. Arguments lepton_def_of {N}. Arguments photon_def_of {N}. Arguments validate {N}.
Arguments clustering_of {N}. Arguments cres_clustering {N}. Arguments partition_clustering {N}.

(** *** Names of the output files of cres *)

(** src/bin/main.rs:74-81: input and output files.  [file_name] as in ModelClassify.v (a path that
    ends with '..' or has no file name makes [unwrap] panic; not modelled) *)
Definition cres_files (outdir : text) (infiles : list text) : list (text * text) :=
  map (fun f => (f, join_path outdir (file_name f))) infiles.
