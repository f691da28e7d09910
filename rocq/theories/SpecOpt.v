(** Specification of the command-line options: what texts mean. *)
From Coq Require Import Ascii String.
From Verif Require Import Base Num ModelText ModelCluster ModelOpt.
Open Scope list_scope.

(** *** Texts *)

(** The same letter, or the capital and the small letter *)
Definition same_letter (c d : ascii) : Prop :=
  c = d \/ exists n, (n < 26)%N /\
    ((N_of_ascii c = 65 + n /\ N_of_ascii d = 97 + n) \/ (N_of_ascii c = 97 + n /\ N_of_ascii d = 65 + n))%N.
Definition same_ignoring_case (s t : text) : Prop := Forall2 same_letter s t.

(** [t] is the number [n] in decimal digits, possibly with leading zeros. *)
Inductive decimal : text -> BinNums.N -> Prop :=
| dec_digit c d : (d < 10)%N -> N_of_ascii c = (48 + d)%N -> decimal [c] d
| dec_more t n c d : decimal t n -> (d < 10)%N -> N_of_ascii c = (48 + d)%N -> decimal (t ++ [c]) (10 * n + d).

(** *** Compression (help text of the option --compression) *)

(** The name of an algorithm, in any case *)
Definition named (names : list string) (s : text) : Prop := exists name, In name names /\ same_ignoring_case s (lit name).
(** The name of an algorithm, an underscore and a number not larger than [max] *)
Definition with_number (names : list string) (max : BinNums.N) (s : text) (n : BinNums.N) : Prop :=
  exists name digits, In name names /\ decimal digits n /\ (n <= max)%N /\ same_ignoring_case s (lit name ++ lit "_" ++ digits).

Definition bzip2_names : list string := ["bzip2"; "bz2"]%string.
Definition gzip_names : list string := ["gzip"; "gz"]%string.
Definition lz4_names : list string := ["lz4"]%string.
Definition zstd_names : list string := ["zstd"; "zstandard"]%string.

Inductive means : text -> Compression -> Prop :=
| means_bzip2 s : named bzip2_names s -> means s Bzip2
| means_gzip s : named gzip_names s -> means s (Gzip 6)
| means_gzip_level s n : with_number gzip_names 9 s n -> means s (Gzip n)
| means_lz4 s : named lz4_names s -> means s (Lz4 0)
| means_lz4_level s n : with_number lz4_names 16 s n -> means s (Lz4 n)
| means_zstd s : named zstd_names s -> means s (Zstd 0)
| means_zstd_level s n : with_number zstd_names 19 s n -> means s (Zstd n).

(** *** Options for leptons and photons *)

(** Either all or none *)
Definition all_or_none {A B C} (a : option A) (b : option B) (c : option C) : Prop :=
  (a <> None /\ b <> None /\ c <> None) \/ (a = None /\ b = None /\ c = None).
Definition consistent {N : NumOps} (opt : Opt N) : Prop :=
  all_or_none (o_leptonalgorithm (o_lepton opt)) (o_leptonradius (o_lepton opt)) (o_leptonpt (o_lepton opt)) /\
  all_or_none (o_photonefrac (o_photon opt)) (o_photonradius (o_photon opt)) (o_photonpt (o_photon opt)).

(** The clustering does what was asked for. *)
Definition as_requested {N : NumOps} (opt : Opt N) (c : DefaultClustering N) : Prop :=
  cl_jet c = mkJetDef (o_jetalgorithm (o_jet opt)) (o_jetradius (o_jet opt)) (o_jetpt (o_jet opt)) /\
  cl_neutrinos c = o_include_neutrinos opt /\
  (forall d, cl_lepton c = Some d <->
     o_leptonalgorithm (o_lepton opt) = Some (jd_algorithm d) /\ o_leptonradius (o_lepton opt) = Some (jd_radius d) /\
     o_leptonpt (o_lepton opt) = Some (jd_min_pt d)) /\
  (forall d, cl_photon c = Some d <->
     o_photonefrac (o_photon opt) = Some (pd_min_e_fraction d) /\ o_photonradius (o_photon opt) = Some (pd_radius d) /\
     o_photonpt (o_photon opt) = Some (pd_min_pt d)).
