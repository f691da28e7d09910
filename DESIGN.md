# Formal model of a-maier/cres in Coq 8.16.1

The subject is the Rust crate in /repo (library, C API and the logic of the
command-line tools).  It is read as text only; nothing in /repo is built, run or
changed.  The model lives in `rocq/theories`.

## Layout

* `Num.v` numeric operations as a record of plain data (no laws): instances for
  exact reals, reals with a rounding function, and IEEE binary64
  (`Coq.Floats.SpecFloat`, fully executable, NaN and infinities included).
* `Model*.v` / one file per source file: definitions only, each with a comment
  naming the file and lines it models.
* `Spec*.v`: small specifications that do not mention the model.
* `*Proofs.v`: lemmas.
* `Props*.v`: only the property theorems, followed by
  `Print Assumptions`, with an `Example` showing that the hypotheses can be met.

## Modelling conventions

* `f64`/`N64`: the model functions are written once over a record of operations.
  Theorems about sums and means are proved for exact real arithmetic; theorems that
  need only an order are proved for every type with a total preorder and
  instantiated for binary64 without NaN; counterexamples that need infinities or
  rounding are computed in binary64.
* `sort_unstable*`, `par_sort_unstable*`, `min_by_key`, `max_by_key`: any function
  returning a sorted permutation (or a minimal element); theorems quantify over it.
* Panics are explicit error values.
* `&mut` functions return the new state.  Loops are structural recursion, folds or
  fuelled recursion with a theorem that the fuel suffices.
* Threads: a small-step interleaving semantics with atomic reads, lock
  acquisitions, writes and releases.
* Text: lists of bytes.  Printing/parsing of floating-point literals is a pair of
  parameters with an explicit round-trip hypothesis in the theorem statements.
* Files and compression: a file is a byte list; the decompression step is the
  identity.
* Random numbers: an explicit list of draws; theorems quantify over it.
* External crates (jetty, pathfinding, permutohedron, nom, rayon): modelled by the
  contract used by the code; where small (permutohedron, nom primitives) the
  algorithm itself is modelled.

## Plan per property

C01 C02 C03 C09 C13: `Cell::new` and both variants of `Cell::resample` as functions on
   a list of weight vectors; induction over the neighbour list.
C04 C07 C10 C11: sequential `Resampler::resample` as a fold over seeds; invariants.
   C11 as documented is expected to fail for weight zero: refutation.
C05 C06 C08: small-step semantics, invariant over all reachable states, lock order
   argument, decreasing measure.  C08 is expected to be refuted by a schedule.
C12: filter and sort, `Permutation` + `Sorted`.
C13: panics iff lengths differ.
C14: specification "sorted enumeration of the ball"; iterator invariant.
C15 C16 C17 C19: tree as array with offsets as in the code, proof through an inductive
   invariant on array segments; pruning lemma from the triangle inequality.
C18: expected to fail (inf - inf); computed witness in binary64.
C20 C21 C22: pairings as permutations; Minkowski inequality for the momentum norm;
   exchange argument for padding zeros; composition of pairings.
C23 C24 C25: sorting, grouping, binary search.
C26 C27: `retain` with a list of draws; algebra in R.
C28 C29 C30: `Cres::run` with an arbitrary completion order.  C29 is expected to be
   refuted in both build configurations; partial result for runs without dropped
   events.
C31 C32 C33 C34 C35: byte-level models of reading, parsing and rewriting.
C36 C37: `CombinedFileIO` over a list of files; C37 expected to be refuted.
C38 C39 C40: heap-index arithmetic, breadth-first conversion; C39 expected to be
   refuted with the exact bound proved instead.
C41 C42: collectors; C42 expected to be refuted (smallest entries are kept).
C43: bit length of 32-bit integers.
C44: the buffer as a list of bytes at an address, the last error per thread; all
   histories of calls.  C45: a store of 8-byte words with allocation at increasing
   addresses; the view is read back through the published layout.  Refuted for weights.
C46: clustering with the jet algorithm, the distance of momenta and the particle
   tables as parameters; each particle has a fate defined in SpecCluster.v.
C47 C56 C57: the loop over records; outputs are read back with the models of the
   readers.  C56 is refuted for HepMC records ending in a blank line and for the
   scaling of STRIPPER XML; C57 for inputs of the same name.
C48 C58: option records and string matching; grammar of the option --compression in
   SpecOpt.v.  Refuted for the program that makes partitions.
C49 C50 C51: the collector inside concurrent runs: each worker starts from a clone,
   the results are combined in any order.  C51 refuted for two threads.
C52: STRIPPER XML as C31/C32/C34, scale factors over the reals.
C53 C54: grammar of records in SpecRecord.v, independent of the parser; C54 is refuted
   without blank before the energy.
C55: invariant of four-vectors under all ways to obtain them.
C59 C60: ntuple records as records of numbers and arrays; a file is a list of them.  C60 is
   refuted: updating all weights of a single file panics.
C61: error analysis of sum and mean with Flocq's rounding theorems, then induction over the
   cells; for schedules via C05.  C62 refuted: growth adds in order of distance, averaging
   in order of index; a bound is proved instead.
C63: ModelMain.v puts all the pieces together, from the input files to the output files; proved
   by composing the round trips of the formats with the files in sequence.
C64: exact description of the detection; refuted for LHEF files with an XML declaration.
C65 C66 C67: ModelFS.v is the program of ModelMain.v with a disk, buffered writers and a log of
   system calls, each of which may fail.  Proved by simulating ModelMain.v and an invariant of
   the writers.  Refuted for shared or overwritten paths (C65), for errors while closing (C66)
   and for the outputs of earlier runs (C67).
C68: renaming of indices: without ties the sorted neighbour lists and the seed order of a
   permuted sample are the renamed ones.  Refuted with ties, strategy `Next` and unweighting.
C69: invariant over the steps of ModelConc.v: each seed is waiting, owned by one thread or
   finished, and memory is the initial one or the mean accordingly.  Needs cells that do not
   overlap; refuted otherwise.
C70: case analysis of the parsers for the results `Panic`; for the program, reading consumes
   input (so it ends), and a record that was converted can also be rewritten.  Refuted by four
   small inputs.
C71: the same lemmas, composed with C63.  For both builds; with the feature multiweight without named weights.
C72: the grammar of nom's `double` and correctly rounded conversion (division of integers,
   Flocq's `Bdiv_correct_aux`); printing is any function with the documented properties of
   `to_string` (`displays`), and one such function is given.  For the program: C63 over binary64,
   and C61 for the sum of the weights in the files.  Refuted for infinities.
C73: the average is an iterated Riemann integral (Coquelicot's `is_RInt`) over the random
   numbers, one for each light event; induction on the events.  Exact up to the common factor
   that restores the total, which correlates the weights: refuted with it by two events, and for
   further weights of events with central weight zero.

C74: ModelProgram.v wires the components as bin/main.rs does, from options and file contents to
output contents.  Proof: events that were read and clustered are built from consistent
momenta, hence the default distance between them is a pseudometric (C20), hence both searches are
complete (C07); C71 gives success, C63 the contents of the output.  C74_unweighting compares the run
with the one without minimum weight.

C75: an observable is a function of the position of the event; its prediction is the weighted sum.
A cell changes it by at most the variation over the cell times the absolute weights of the cell;
induction over the seeds with C10 (absolute weights do not grow).  Both searches report nothing
beyond the limit.  With several threads through the sequence of cells of C05.  For the program, the same through the table of weights, as in C74.

C76: ModelThreads.v runs the steps of ModelConc.v with a scheduler: a stream of wishes (thread, seed);
where a wish is impossible another thread moves.  Every stream gives a complete execution within
the step bound of C06, and every complete execution comes from a stream, so the theorems cover
all schedules.  The lemmas on complete runs behind C74 and C75 are stated for any resampler that
keeps the totals; C05 and C75_any_schedule provide that for the threads.

C77: ModelPartMain.v composes the readers, the construction of the partition and the classification
into the two programs.  The tree of C40 gives the sizes of its leaves (halving at each level); in
general position `region` follows the path of an event in the tree except for vantage points and
medians, which bounds the number of events per region.  Every array of bisections, valid or not,
gives a region that has an output file.

C78: the same for the default build.  `Weights::default()` is then empty and means "leave the event as
it is".  The lemmas behind C71, C74 and C75 hold for both builds; the positions of the events with
particles are divided into survivors and dropped ones, and the sums are taken over positions.
Refuted with unweighting: a dropped event keeps its weight, in the witness a negative one.

C79: ModelCRun.v wires the same components as `cres_run` of the C API does, with any distance function
of the C program.  Without one the run is the same function as the default build (C79_same).  The lemma
behind the completeness of the tree search without a metric (UnlimitedProofs.v): if no distance,
and no difference of two distances, exceeds the limit, no subtree is ever pruned.  It also gives
the binary64 statement for the documented maximum cell size INFINITY; refuted for infinite distances, where
the difference is NaN.

C80: the error bounds of C61 assume that the weights after the run are finite.  B64Finite.v shows that they are:
the sums of absolute weights grow at most by the factor 1 + rounding(steps) (induction over the cells), so that
no addition exceeds the largest number; n(n+1) operations with n(n+1) <= 2^53 give at most a factor of 3, hence the
bound 2^1022 < 2^1024 / 3.  The whole program follows with C71 and C72, where the premise of C71 on the kind of the
weights (here: not NaN) is only needed for the events that are read.  Without the bound on the weights the claim is
false (`C80_overflow_refuted`: three finite weights with a small total become infinite).  Unweighting and named
weights are not covered by C80_program.

C81: ModelLog.v is `Cres::run` with the values that are logged.  Squares of weights are one more convex function for
the lemma behind C10, so that the sum of squares decreases from cell to cell; with the constant total the fraction is a monotone
function of the negative part.  The categories are sorted by an antisymmetric order, hence unique.  Refuted for a negative
sum of weights (the fraction rises) and for empty or zero samples in binary64 (0/0).  Not modelled: formatting with three
digits, particle names.

C82: SpecNamed.v says what the weight with a name is, from the text of a record alone.  The parser and the update of named
weights (ModelHepMC.v) are related to it record by record; the run preserves the sum in every component of the weight
vectors (C01 for several weights); a rewritten file has the same records up to the rewritten words, so that the output can
be read with the same specification.  HepMC only, without unweighting.  Such runs succeed (`C82_success`: an N line that has as many names as it announces never makes the update fail).  Refuted without the premise that all events list the
names in the same order: the reader assigns weights to components in the order of the record's own list.

C83: ModelProgress.v adds the state of logging (the maximum level and the messages shown) to `Cres::run`, to
cres-classify-events with footers that may fail to be written, and to `cres_logger_from_env`.  A finished bar restores the state; the messages
are then followed step by step, and histories of runs by induction.  Refuted: a run that ends while a bar is shown leaves
logging switched off, and cres-classify-events never finishes its bar, so that missing footers are not reported.

C84: ModelNtProgram.v is `CombinedFileIO` with all files in the format of ntuple.rs, and the program around it.  Reading delivers the
concatenation of the files (induction over what is left to be read), writing goes file by file with the weights that are left; in between are the
general results on runs (CresProofs2.v) for the number of weights used.

C85: ModelXml.v is `extract_xml_info`: the first tag of the file, its name and its attributes, as the crate quick-xml reads them (modelled from its
documentation; only up to the first tag).  The specification (SpecXml.v) describes how a tag with given attributes may be written; the proof goes
along this description (the end of the tag is found behind the quotes, the attributes are read one by one).  That nothing after the tag matters is
an induction over the text; it discharges the assumption `stops_at_tag` of C63 and the theorems that build on it.  Refuted: comments before the tag
are rejected, entities in names are not resolved.

C86: ModelRead.v has the readers on a source that delivers bytes in pieces and can fail (`read_until`, `fill_buf`), for all three text formats.
Proof: a simulation between the loops on pieces and the loops on the contents (ModelText.v), by induction on the bytes left; what is found before a
failure is found with any continuation.  Refuted: the detection of the format and the collection of scale factors look at one piece only and take a
failed read for a file of another kind.

C87: the distance (ModelDistance.v) in binary64.  Proof: bounds on the exact values of the operations (Flocq) for components up to 2^500 and weights of the
transverse momentum up to 512; the assignment algorithm (more than three particles of a type) is assumed to return finite sums for finite weights
(`km_tame`), which is not proved of pathfinding.  The program: C80_program with the distance of the program, by replacing the distance by one that is
never NaN and equal on the events of the run.  Refuted for arbitrary finite momenta: the transverse momentum overflows.

C88: clustering (cluster.rs) with particle ids of 32 bits, where the absolute value of the smallest one panics or wraps, and with the debug check that
`noisy_float` makes on transverse energies (ModelClusterI32.v).  Proof: step by step comparison with ModelCluster.v, where neither is modelled.  Refuted:
an event with the id -2147483648, and an event with physical momenta where the rounding errors in E^2 - pz^2 around a photon lead to NaN.

C89: unweighting (unweight.rs) in binary64 with the debug checks of `noisy_float` (ModelUnweight64.v), the sums being computed with any bracketing.
Proof: all weights after raising are multiples of 2^-152, and so are their rounded sums, which bounds the common factor unless it is a division by zero.
Refuted: weights that cancel after having been raised become infinite, the division 0/0 panics in debug builds, and tiny weights can become NaN.

C90: complete runs on files that are read in pieces and whose reads may fail (ModelReadRun.v); each time a file is opened its reads may go differently.
Proof: simulation of every function of ModelIO.v and ModelMain.v; a source is related to the bytes that remain in the file.
Refuted: if the first read is too short, or reads fail while the scale factors are extracted, a run succeeds with other outputs.
Not modelled: the kind of the error; failing writes (C44, C45).

C91: the tree search (ModelVPTree.v) in binary64 when the computed distances are a metric only up to a slack.
Proof: the proof of C16 with the order of the distances replaced by an order up to an error; the error of pruning (twice the slack plus the rounding of one difference) does not add up over the levels of the tree.
Refuted: with rounded distances of real momenta the nearest neighbour is not always found first, and the results depend on the chosen search.

C92: the distance (ModelDistance.v) computed in binary64 against the documented one in exact arithmetic (SpecAccuracy.v), for events built through the interface (ModelEvent.v).
Proof: bounds for the rounding errors of the transverse momentum, of the distance of two momenta, of sums, of the minimum over the arrangements, and of the loop over the types, each against the same step in the real numbers; then C21 and C20; C91 gives the search.
Assumed: at most three particles of each type, so that the assignment algorithm of the pathfinding library is not used, or that algorithm is as accurate as adding up the distances (`km_accurate`, SpecAccuracy.v; `km64_accurate` in DistAccuracyKm.v shows that trying all assignments is); components up to 2^500, at most 2^40 particles.

C93: both searches (ModelVPTree.v, ModelNaive.v) and the run (ModelResampler.v) with distances computed in binary64, for events whose exact distances differ by more than the rounding errors (SpecSeparated.v).
Proof: from C92 and C91 both searches deliver the one order of the exact distances; a run depends on the order of the neighbours only, apart from the radius of the cells.  This is the counterpart of C91_same_run_refuted.
C93_program carries this over to the complete program (ModelCres.v): the condition is on the exact distances of the clustered events of the input files, whatever the shuffling; the program then ends in the same way with the same output files for either search.
C93_threads does the same for several threads (ModelThreads.v) by a lockstep simulation that ignores distances (SeparatedThreads.v): for every schedule, the same schedule gives the same ending.  C93_main instantiates both with the program's own clustering and options (ModelProgram.v): the option --search does not matter.

C94: the distance (ModelDistance.v) and runs (ModelResampler.v) in exact arithmetic, for events whose momenta are given in other units and with respect to other axes (SpecSymmetry.v: any factor, any rotation or reflection that keeps the beam, any at all if transverse momenta have no extra weight).
Proof: the cost of every pairing is multiplied by the factor, so the best pairing is the same (C21); distinct distances determine the order of neighbours, and a run depends on nothing else.  C94_beam_refuted shows that the condition on the beam is needed.  C94_threads: the same weights with any number of threads and for every schedule (SeparatedThreads.v: threads see only the order of the neighbours).

C95: the distance in exact arithmetic, for two events with the same particles and different momenta, and for events with additional particles.
Proof: the pairing of each particle with its changed self bounds the distance of the two events, and the triangle inequality (C20) carries this over to any other event; an additional particle is the change of a particle without momentum, which has no effect (C20_zero).  C95_collinear_refuted records the limit: splitting a particle is not a small change, and the distance relies on clustering for that.

C96: runs (ModelResampler.v, ModelCell.v, ModelSeeds.v) in exact arithmetic, for the same events with weights that are linear combinations of the original ones (SpecMix.v), the central one being multiplied by a positive factor.
Proof: a simulation of the loop over seeds: signs and order of the central weights are the same, so seeds, skipped seeds and cells are; averages commute with linear combinations (C02).  C96_central_refuted shows that the condition on the central weight is needed.  C96_threads: the same for every number of threads and schedule (ModelThreads.v), by a simulation of the threads step by step.

C97: runs (ModelResampler.v, ModelCell.v, ModelSeeds.v) in any arithmetic, on a sample and on a part of it that is isolated (SpecRegion.v: no event of the part lies within the maximum cell size of one outside).
Proof: the positions of the part's events in the sample are an increasing sequence; with this renaming, the loop over the seeds of the sample simulates the loop over the seeds of the part: steps outside leave the part alone, steps inside are the same.  C97_touching_refuted shows that parts that touch, such as the regions of a partition, cannot be resampled separately.  C97_threads (ModelThreads.v): for every schedule of the whole run some schedule of the run on the part gives its events the same weights; a simulation in which the threads that work elsewhere appear idle in the part.  C97_threads_all: conversely every outcome of the part occurs in a run on the whole: the steps of the part come first, then the rest of the sample.  C97_threads_default puts both together for the default distance.

C98: runs (ModelResampler.v, ModelCell.v) in any arithmetic, without and with a maximum cell size that none of the cells exceeds; the neighbours are those that an exact search delivers (SpecSearch.v).
Proof: the neighbours within the smaller limit are the first of those within the larger one, and a cell that would use one of the others would have a larger radius.  C98_threads: for every schedule, if no distance exceeds the limit.  C98_larger_refuted shows that larger cells may leave more events with negative weights.

MANIFEST.json has the theorems and the exact limits for each property.  Theorems whose
name ends in `_refuted` exhibit a case in which the property, or a natural extension of
it, is false of the model; each is a statement about the code that can be checked by
hand in /repo.

## What is modelled

| file in /repo/src | model | not modelled |
|---|---|---|
| cell.rs | ModelCell.v | logging |
| cell_collector.rs | ModelCollector.v | log output of the collected cells |
| cluster.rs | ModelCluster.v, ModelOpt.v (names of algorithms) | jet algorithms (crate jetty), particle tables; serialisation; `i32::MIN.abs()` |
| compression.rs | levels only (ModelOpt.v) | the compression itself |
| cres.rs | ModelCres.v, ModelLog.v (the log), ModelProgress.v (log level) | particle names in the log |
| distance.rs | ModelDistance.v | the assignment algorithm of the crate pathfinding (contract `km_ok`); permutohedron is modelled |
| event.rs, four_vector.rs | ModelEvent.v | Debug output, serde |
| formats.rs, io.rs | ModelIO.v (contents of files), ModelFS.v (files, buffers, failing system calls) | ntuples and text files in one run (only ntuples: ModelNtProgram.v); failing reads only for the readers and the detection of formats (ModelRead.v), not in whole runs; compressed output in ModelFS.v |
| hepmc2.rs, lhef.rs, stripper_xml.rs, parsing.rs, util.rs | ModelText.v, ModelNumber.v, ModelHepMC.v, ModelLHEF.v, ModelStripper.v, ModelXml.v | deserialisation of `Normalization` (a parameter); quick_xml behind the first tag; I/O errors; texts of errors |
| neighbour_search.rs | ModelNaive.v, ModelVPTree.v | |
| ntuple.rs | ModelNtuple.v, ModelNtProgram.v (several files, program) | the crate ntuple: a file is a list of records |
| partition.rs | ModelPartition.v | serde |
| resampler.rs | ModelResampler.v, ModelConc.v, ModelLog.v (initial statistics), ModelProgress.v (log level) | debug messages |
| progress_bar.rs | ModelProgress.v | what the bars draw |
| seeds.rs | ModelSeeds.v | |
| unweight.rs | ModelUnweight.v | the random number generator: any list of draws |
| vptree.rs | ModelVPTree.v, ModelPartition.v | |
| bin/* | ModelMain.v, ModelProgram.v and ModelThreads.v (bin/main.rs), ModelClassify.v, ModelOpt.v, ModelPartition.v (construction), ModelPartMain.v (bin/partition.rs, bin/classify-events.rs), ModelProgress.v (messages of bin/classify-events.rs) | clap, YAML (parameters `yaml`, `unyaml`), argument files, shell completion |
| c_api/* | ModelCApi.v, ModelCRun.v (cres_run), ModelProgress.v (log.rs) | Box handling of the options struct |

## Assumptions of the model

* Numbers: `f64` and `N64` are an instance of `NumOps`.  Where a theorem says `R` or
  `RN` it is about exact arithmetic.  Theorems that take `order_on N D` or `cmp_on N D` hold
  for all numbers in `D`, in particular for binary64 without NaN (`N64` excludes NaN in
  debug builds).
* Files (ModelFS.v): a path is a file; system calls take effect in the order of the log; an
  input is read as a whole when it is opened, which is exact unless an output is an input;
  `BufWriter` behaves as in the standard library of Rust, with any capacity.
* Sorting and choosing: parameters `sort`, `choose` with `sort_ok`, `choose_ok`; the
  theorems hold for every function that satisfies them.  `isort_ok` shows there is one.
* Concurrency: memory is sequentially consistent; reads of a single weight vector and
  acquisition and release of one lock are atomic steps; what happens between is
  interleaved in every order.  The neighbour search only reads what does not change.
* rayon: a parallel iterator is any interleaving of its sequential parts; `fold` and
  `reduce` any grouping of the items.
* Text: bytes.  Reading and printing of floating-point numbers are parameters
  (`double`, `show`); the hypotheses on them are collected in `number_text`
  (SpecText.v) and satisfied by the integers in TextExamples.v.  ModelNumber.v models nom's
  `double` for binary64; C72 shows that it satisfies them together with every way of printing
  that has the properties documented for Rust's `to_string` (`displays` in SpecNumber.v).  The
  grammar of the crate nom is not in /repo and is modelled from its documentation.
* UTF-8 validity is modelled; white space other than ASCII is not.
* Files: contents after decompression; paths of different files differ unless a
  theorem is about paths; file operations succeed.
* C API: a bump allocator of 8-byte words; addresses are never reused.

## Trusted base

Coq's kernel (coqc 8.16.1, checked again with coqchk) including its virtual machine
for the computed witnesses; that the model corresponds to the Rust text; and the axioms
below.  No axiom is declared in this development and no library other than the standard
library contributes one.

`Print Assumptions` for the theorems in MANIFEST.json gives one of three answers:

1. "Closed under the global context" for all theorems not named below.
2. The axioms of the real numbers of the standard library,
   `ClassicalDedekindReals.sig_forall_dec`, `ClassicalDedekindReals.sig_not_dec` and
   `FunctionalExtensionality.functional_extensionality_dep`, for
   `C01_weight_sum`, `C02_resample_mean`, `C03_cell_total`, `C04_run_total`,
   `C04_any_seeds`, `C05_total`, `C07_no_negative`, `C07_naive_is_complete`,
   `C07_tree_is_complete`, `C08_one_thread_no_negative_partial`, `C08_apart_no_negative_partial`, `C09_sign`,
   `C10_shrinks`, `C10_run_shrinks`, `C10_any_schedule`, `C16_tree_exact`,
   `C16_tree_exact_rounded`, `C16_depth_limit`, `C17_tree_naive`, `C17_same_run`,
   `C20_pseudometric`, `C20_zero`, `C20_assumptions`, `C21_documented`,
   `C21_spatial_only`, `C22_same`, `C23_domains`, `C25_order_irrelevant_exact`,
   `C26_unweight`, `C26_total_refuted`, `C29_no_unweighting_partial`,
   `C29_unweighting_partial`, `C46_momentum`, `C46_isolation`, `C52_exact_scale`,
   `C52_missing_normalisation_refuted`, `C55_zero`, `C55_components`,
   `C56_scaling_together_refuted`, `C61_rounding_is_small`,
   `C63_total`, `C68_resampling`, `C68_run`, `C68_searches`,
   `C73_probability`, `C73_unbiased`, `C73_average_unique`, `C73_rescaled_refuted`,
   `C73_zero_refuted`, `C74_program`, `C74_unweighting`, `C75_smooth`, `C75_separated`, `C75_program`, `C75_any_schedule`,
   `C76_program`, `C78_program`, `C78_threads`, `C78_unweighting_partial`, `C78_unweighting_refuted`,
   `C07_any_distance`, `C79_threads`, `C79_program`, `C84_program`, `C84_threads`, `C84_success`, `C82_program`, `C82_threads`, `C82_success`, `C82_order_refuted`,
   `C81_stats`, `C81_run`, `C81_threads`, `C81_unweight`, `C81_fraction_refuted`, `C87_huge_refuted`, `C88_isolation_refuted`, `C89_tiny_refuted`, `C92_exact_unique`, `C94_distance`, `C94_run`, `C94_threads`, `C94_beam_refuted`, `C95_continuous`, `C95_soft`, `C95_collinear_refuted`, `C96_run`, `C96_normalisation`, `C96_central_refuted`, `C96_threads`, `C97_default`, `C97_threads_default`, `C98_default`.
3. the same and `Classical_Prop.classic` (used by Flocq's theorems), for
   `C16_tree_exact_B64`, `C16_depth_limit_refuted`, `C61_cell`, `C61_run`,
   `C61_any_schedule`, `C62_sign_partial`, `C62_cell_refuted`, `C62_run_refuted`, `C72_read`,
   `C72_read_only`, `C72_finite`, `C72_exists`, `C72_number_text`, `C72_program`, `C72_total`,
   `C07_any_distance_b64`, `C79_infinity`, `C80_run`, `C80_any_schedule`, `C80_program`,
   `C87_finite`, `C87_few`, `C87_self`, `C87_program`,
   `C89_finite`, `C89_positive`, `C89_infinite_refuted`, `C89_panic_refuted`, `C91_near`, `C91_exact_refuted`, `C91_same_run_refuted`, `C92_distance`, `C92_search`, `C93_searches`, `C93_run`, `C93_program`, `C93_threads`, `C93_main`.
