{"id": "C01", "title": "A cell consists of the seed and its nearest neighbours, no more than needed", "statement": "The cell built around a seed contains the seed followed by neighbours in the order the neighbour search delivers them, with no event twice. It stops at the first neighbour that makes the accumulated central weight non-negative and otherwise contains every neighbour the search delivers; weight_sum() is the sum of the central weights of the members and radius() is the distance of the last member (the largest distance in the cell, never above the maximum cell size).", "quantifier": "all event samples, all negative-weight seeds, all neighbour searches (hence all distance functions and maximum cell sizes)", "why_tests_cant": "the stopping point depends on the partial sums of arbitrarily long neighbour sequences; tests fix one sample", "anchors": ["src/cell.rs: Cell::new, Cell::radius, Cell::weight_sum, Cell::nmembers"]}
{"id": "C02", "title": "Resampling one cell replaces member weights by the cell mean and touches nothing else", "statement": "After Cell::resample every member carries, for each weight component separately, the arithmetic mean over the members' previous values; every event outside the cell keeps all its weights; no weight vector changes its length.", "quantifier": "all samples, all cells with pairwise distinct members, all numbers of weights per event", "why_tests_cant": "ranges over all cell sizes, overlaps and weight vectors", "anchors": ["src/cell.rs: Cell::resample", "src/event.rs: Weights::add_assign, Weights::copy_from"]}
{"id": "C03", "title": "Resampling one cell preserves the sum of every weight component", "statement": "In exact arithmetic the sum over all events of each weight component is the same before and after Cell::resample.", "quantifier": "all samples and all cells", "why_tests_cant": "a sum identity over unboundedly many events and weights", "anchors": ["src/cell.rs: Cell::resample"]}
{"id": "C04", "title": "A whole resampling run preserves the total of every weight component", "statement": "In exact arithmetic Resampler::resample returns the same number of events in the same order, with the same ids and momenta, and the sum over events of every weight component equals that of the input, whatever the seed order, distance, neighbour search and maximum cell size.", "quantifier": "all samples, seed selections, neighbour searches, cell size limits", "why_tests_cant": "the claim quantifies over all sequences of overlapping cells", "anchors": ["src/resampler.rs: Resampler::resample", "src/cell.rs"]}
{"id": "C05", "title": "The weight total is conserved by every thread interleaving", "statement": "When cells are built and resampled concurrently by any number of threads, for every interleaving of their reads, lock acquisitions, writes and lock releases, the total weight in any state where no cell holds its locks equals the initial total; in particular at the end.", "quantifier": "all numbers of threads, all assignments of seeds to threads, all schedules, all cells the threads may compute from possibly stale reads", "why_tests_cant": "there are unboundedly many schedules and data races are not reproducible", "anchors": ["src/resampler.rs: Resampler::resample (seeds.for_each)", "src/cell.rs: Cell::resample, write_lock_weights"]}
{"id": "C06", "title": "Concurrent resampling can never deadlock and always terminates", "statement": "In every reachable state of the concurrent resampling in which some thread has not finished, at least one thread can take a step, and every schedule reaches the final state after finitely many steps. This rests on the locks being taken in ascending event order.", "quantifier": "all thread counts, cells and schedules", "why_tests_cant": "deadlock freedom is a property of all schedules", "anchors": ["src/cell.rs: Cell::resample, write_lock_weights"]}
{"id": "C07", "title": "No negative weight survives an unlimited run on a sample with non-negative total (one thread)", "statement": "If the sum of central weights is non-negative, every pair of events is within the maximum cell size and cells are treated one after the other, then after resampling with any of the built-in seed strategies no event has a negative central weight (exact arithmetic).", "quantifier": "all samples with non-negative total, all strategies, all neighbour searches that deliver every other event", "why_tests_cant": "quantifies over all samples and all seed orders", "anchors": ["src/resampler.rs: Resampler::resample", "src/cell.rs: Cell::new, Cell::resample"]}
{"id": "C08", "title": "The number of threads does not affect whether negative weights are eliminated", "statement": "The guarantee of C07 (no negative weights survive) also holds when cells are treated by several threads.", "quantifier": "all schedules", "why_tests_cant": "only specific interleavings of unlocked reads in one cell with the update of another violate it", "anchors": ["src/cell.rs: Cell::new (unlocked reads)", "src/resampler.rs: Resampler::resample"]}
{"id": "C09", "title": "All weights in a resampled cell have the same sign, that of the cell", "statement": "After a cell with accumulated weight >= 0 is resampled, no member has a negative central weight; if the accumulated weight is negative all members have the same negative central weight (exact arithmetic, no concurrent update between construction and resampling).", "quantifier": "all samples and seeds", "why_tests_cant": "sign of a mean over arbitrary cells", "anchors": ["src/cell.rs: Cell::new, Cell::resample doc comment"]}
{"id": "C10", "title": "Resampling never increases the negative (or absolute) weight content", "statement": "For every cell, and therefore for a whole run under any schedule of atomic cell updates, the sum of |w| and the sum of max(-w,0) over all events never increase; no weight leaves the interval spanned by the smallest and largest weight in the sample.", "quantifier": "all samples, all sequences of cells", "why_tests_cant": "a convexity inequality over all cells and sequences", "anchors": ["src/cell.rs: Cell::resample", "src/resampler.rs: Resampler::resample"]}
{"id": "C11", "title": "Seeds that no longer have negative weight are ignored", "statement": "As documented, Resampler::resample ignores a seed whose central weight is non-negative when its turn comes: the sample is left unchanged by such a seed.", "quantifier": "all samples and seed sequences", "why_tests_cant": "the boundary weight exactly zero only arises from particular cancellations in earlier cells", "anchors": ["src/resampler.rs: Resampler::resample (`weight() > 0.`)", "src/cell.rs: debug_assert!(weight_sum < 0.)"]}
{"id": "C12", "title": "Seed selection", "statement": "select_seeds yields exactly the indices of events with negative central weight, each once: in increasing index order for Next, with non-decreasing weight for MostNegative and with non-increasing weight for LeastNegative, whatever order the unstable sort gives to equal weights.", "quantifier": "all samples, all strategies, all admissible unstable sorts", "why_tests_cant": "order and completeness over all samples", "anchors": ["src/seeds.rs: StrategicSelector::select_seeds"]}
{"id": "C13", "title": "Unequal numbers of weights abort, equal numbers never do", "statement": "Resampling a cell succeeds whenever all members have the same number of weights and panics whenever two members have different numbers of weights.", "quantifier": "all cells and weight-vector lengths", "why_tests_cant": "ranges over all combinations of lengths", "anchors": ["src/event.rs: AddAssign (zip_eq), Weights::copy_from", "src/cell.rs: Cell::resample"]}
{"id": "C14", "title": "Naive neighbour search is exact", "statement": "NaiveNeighbourSearch yields every event other than the query whose distance is at most the maximum distance, exactly once, never any other event, in non-decreasing order of distance and together with the right distance, for every distance function.", "quantifier": "all distance functions (no metric assumption), all sample sizes, queries, limits and all tie-breaking choices", "why_tests_cant": "completeness and order for all distance matrices", "anchors": ["src/neighbour_search.rs: NaiveNeighbourIter"]}
{"id": "C15", "title": "Building a vantage-point tree loses no point and separates near from far", "statement": "The tree built from a list of points contains exactly those points with the same multiplicity; at each node every point of the inside part is no further from the vantage point than the stored radius and every point of the outside part is no nearer.", "quantifier": "all point lists, distance functions and admissible unstable sorts", "why_tests_cant": "recursive structure of unbounded depth", "anchors": ["src/vptree.rs: from_iter_with_dist_and_depth, build_tree"]}
{"id": "C16", "title": "Vantage-point tree search is exact for metric distances", "statement": "If the distance is symmetric and satisfies the triangle inequality, iterating nearest_in on a tree over pairwise different points yields every point other than the query within the maximum distance exactly once, nothing else, in non-decreasing order of distance and with the right distance. The pruning stays correct when the subtraction inside it is rounded by any monotone rounding that leaves distances unchanged (such as IEEE round-to-nearest).", "quantifier": "all point sets, all metrics, all queries, all maximum distances, all tie-breaking choices", "why_tests_cant": "pruning errors only show for particular geometries", "anchors": ["src/vptree.rs: nearest_in, nearest_in_impl, nearest_in_subtree, nearer, NearestNeighbourIter::next"]}
{"id": "C17", "title": "Tree search and naive search agree", "statement": "For every metric the two search algorithms deliver the same sequence of distances, and the same sequence of events when the distances from the query are pairwise different; so replacing one by the other does not change a resampling run.", "quantifier": "all samples, metrics, queries and limits", "why_tests_cant": "equivalence of two algorithms on all inputs", "anchors": ["src/neighbour_search.rs", "src/vptree.rs"]}
{"id": "C18", "title": "Tree search is exact for distances that may be infinite", "statement": "The search is also exact when the distance function returns infinity for incompatible events (as in the shipped example examples/user_distance.c, which uses the tree search with unlimited cell size) while still satisfying symmetry and the triangle inequality.", "quantifier": "all extended metrics with values in [0, infinity]", "why_tests_cant": "needs particular combinations of infinite distance and infinite radius (inf - inf)", "anchors": ["src/vptree.rs: nearest_in_subtree (d - children.radius).abs()", "examples/user_distance.c"]}
{"id": "C19", "title": "Parallel and sequential tree construction agree", "statement": "from_par_iter_with_dist and from_iter_with_dist produce the same tree for every input size (given the same outcome of the sorts), independent of the size threshold for parallelisation.", "quantifier": "all inputs, depths and thresholds", "why_tests_cant": "only inputs above the threshold use the parallel code", "anchors": ["src/vptree.rs: par_build_tree, build_tree, par_find_corner_pt, find_corner_pt"]}
{"id": "C20", "title": "The default distance is a pseudometric", "statement": "In exact arithmetic EuclWithScaledPt::distance is non-negative, zero from an event to itself, symmetric and satisfies the triangle inequality, for every pt weight and all events.", "quantifier": "all triples of events with any particle content, all pt weights", "why_tests_cant": "an inequality over all triples with different particle numbers, involving optimal pairings", "anchors": ["src/distance.rs: EuclWithScaledPt::distance, min_paired_distance, pt_dist"]}
{"id": "C21", "title": "The default distance is the documented one", "statement": "EuclWithScaledPt::distance equals the sum over all particle ids of the minimum, over all pairings of the momenta of that id in the two events (the smaller set filled up with zero momenta), of the summed momentum distances sqrt(|p-q|^2 + tau^2 (pt_p - pt_q)^2); it depends neither on the order in which particles were added, nor on energies, ids or weights of the events.", "quantifier": "all pairs of events, all particle multiplicities", "why_tests_cant": "minimum over factorially many pairings", "anchors": ["src/distance.rs"]}
{"id": "C22", "title": "Enumerating permutations and the Hungarian algorithm give the same distance", "statement": "For every number of particles the permutation enumeration used for at most three particles and an optimal assignment algorithm return the same value, so the crossover constant does not matter.", "quantifier": "all momentum sets of equal size", "why_tests_cant": "quantifies over all momentum sets; repeated momenta and padding zeros are special", "anchors": ["src/distance.rs: min_paired_distance_naive, min_paired_distance_hungarian"]}
{"id": "C23", "title": "Building an event groups its particles faithfully", "statement": "outgoing() of a built event lists particle ids in strictly decreasing order, with a non-empty list of momenta for each, sorted in decreasing order, and contains exactly the particles that were added (as a multiset of id and momentum); weights are kept in the order added and the id is zero.", "quantifier": "all sequences of add_outgoing/add_weight calls", "why_tests_cant": "sorting and grouping of arbitrary lists", "anchors": ["src/event.rs: EventBuilder::build, compress_outgoing"]}
{"id": "C24", "title": "Lookup by particle id", "statement": "outgoing_with_pid(pid) returns exactly the momenta added with that pid, in decreasing order, and an empty slice when there are none.", "quantifier": "all events and ids", "why_tests_cant": "binary search over arbitrary contents", "anchors": ["src/event.rs: Event::outgoing_with_pid"]}
{"id": "C25", "title": "The order in which particles are added is irrelevant", "statement": "Two builders that received the same particles in different order and the same weights build equal events.", "quantifier": "all permutations of all particle lists", "why_tests_cant": "all permutations", "anchors": ["src/event.rs: compress_outgoing"]}
{"id": "C26", "title": "Unweighting preserves the total and keeps the right events", "statement": "For minimum weight m > 0 and every sequence of random draws in [0,m): an event with |w| > m is always kept, an event with |w| <= m is kept exactly when its draw is below |w| (so events of weight 0 are dropped); survivors keep their order, ids and momenta; before the final rescaling every survivor has |w| >= m with unchanged sign, and all weights of an event are scaled by the same factor; if the survivors' total is non-zero the final total equals the original total exactly (exact arithmetic).", "quantifier": "all samples, minimum weights and random draws", "why_tests_cant": "quantifies over random draws and all samples", "anchors": ["src/unweight.rs: Unweighter::unweight"]}
{"id": "C27", "title": "Unweighting with zero minimum weight changes nothing", "statement": "With min_wt = 0, or an empty sample, or NO_UNWEIGHTING, the events are returned unchanged and no random number is drawn.", "quantifier": "all samples", "why_tests_cant": "all inputs", "anchors": ["src/unweight.rs: Unweighter::unweight, NoUnweighter"]}
{"id": "C28", "title": "Every output record receives the weights computed for it", "statement": "In Cres::run, for every order in which the parallel conversions complete, the weights handed to the event writer have one entry per input record, and the entry of the n-th record is the final weight vector of the event converted from that record.", "quantifier": "all record lists, converters, completion orders, resamplers and unweighters that keep ids", "why_tests_cant": "completion order is up to the thread pool", "anchors": ["src/cres.rs: Cres::run, read_events"]}
{"id": "C29", "title": "The sum of weights in the output files equals that in the input files", "statement": "After a successful Cres::run the sum of the event weights in the output equals the sum of the event weights in the input.", "quantifier": "all input samples, with and without unweighting, with and without the multiweight feature", "why_tests_cant": "events dropped by the unweighter or without identified particles take a separate path", "anchors": ["src/cres.rs: Cres::run", "src/event.rs: Weights::default", "src/hepmc2.rs: update_next_weights_helper"]}
{"id": "C30", "title": "Conversion errors are never swallowed", "statement": "If reading, converting or clustering fails for some record, or a converted event has a non-zero id, run returns an error and the output weights are not updated; otherwise all records are used.", "quantifier": "all positions and combinations of failures, all completion orders", "why_tests_cant": "all failure positions", "anchors": ["src/cres.rs: read_events"]}
{"id": "C31", "title": "The HepMC reader splits a file without losing a byte", "statement": "For every valid UTF-8 file with at least one event (and not ending in a lone event marker), reading does not panic, and the header plus all records in order are exactly the bytes of the file; every record starts with 'E' and contains no other line starting with 'E'. There is only one way to split the file like this.", "quantifier": "all byte strings", "why_tests_cant": "all file contents", "anchors": ["src/hepmc2.rs: read_raw, init_source"]}
{"id": "C32", "title": "Rewriting HepMC weights changes only the weights and can be read back", "statement": "Updating the weight of a HepMC event record that can be read replaces the text of the central weight (and, with multiweight, of the named weights) and leaves everything before and after the weights unchanged, except that blanks next to a changed weight may be reduced to one; parsing the updated record gives the new weights and the same particles. The same holds for whole files.", "quantifier": "all records that parse, all new weights", "why_tests_cant": "all texts", "anchors": ["src/hepmc2.rs: update_next_weights_helper, update_central_weight, update_named_weights, parse_hepmc, extract_weights"]}
{"id": "C33", "title": "Empty weights leave a record untouched", "statement": "When the weights for an event are empty the record is copied verbatim (HepMC, LHEF, STRIPPER XML).", "quantifier": "all records", "why_tests_cant": "all texts", "anchors": ["src/hepmc2.rs", "src/lhef.rs", "src/stripper_xml.rs: update_next_weights_helper"]}
{"id": "C34", "title": "The LHEF reader splits a file without losing a byte of an event", "statement": "For every file with an init block, header, records and the unread tail are exactly the bytes of the file; each record ends with </event> and contains it nowhere else; rewriting the weights of a record changes only the event weight, which can be read back.", "quantifier": "all byte strings and weights", "why_tests_cant": "all texts", "anchors": ["src/lhef.rs: read_raw, init_source, update_next_weights_helper, parse_lhef"]}
{"id": "C35", "title": "Rewinding a reader starts again from the first event", "statement": "After rewind a file reader delivers the same sequence of records as a freshly opened one, whatever was read before (HepMC, LHEF, STRIPPER XML).", "quantifier": "all files and read histories", "why_tests_cant": "all histories", "anchors": ["src/hepmc2.rs, src/lhef.rs, src/stripper_xml.rs: Rewind::rewind"]}
{"id": "C36", "title": "Several files behave like their concatenation", "statement": "Iterating a CombinedFileIO yields the records of the first file, then of the second, and so on, each exactly once; update_all_weights writes the n-th weight to the n-th record in this order, produces one output per input, each with its header, updated records and footer, and returns the number of events written.", "quantifier": "all numbers of files, all record counts including empty files, all weight lists", "why_tests_cant": "all file and record counts", "anchors": ["src/io.rs: CombinedFileIO"]}
{"id": "C37", "title": "Updating weights event by event reports the end of input", "statement": "As documented for UpdateWeights::update_next_weights, Ok(false) is returned once all events have been treated.", "quantifier": "all files and histories of calls", "why_tests_cant": "only visible after the last event of the last file", "anchors": ["src/io.rs: CombinedFileIO::update_next_weights", "src/ntuple.rs: update_all_weights"]}
{"id": "C38", "title": "A partition assigns every event to a valid region", "statement": "VPTreePartition::region terminates and returns an index below len(), for every partition (number of bisections a power of two minus one), every distance function and every event; the index depends only on on which side of the visited bisections the event lies.", "quantifier": "all partitions, distances and events", "why_tests_cant": "all inputs", "anchors": ["src/partition.rs: VPTreePartition::region, len"]}
{"id": "C39", "title": "cres-partition accepts every sample with at least as many events as regions", "statement": "Whenever the number of regions is a power of two and not larger than the number of events, the partition is constructed (cres-partition reports an error otherwise, and does not crash).", "quantifier": "all sample sizes and region counts", "why_tests_cant": "depends on all sizes; tests use large samples", "anchors": ["src/bin/partition.rs", "src/vptree.rs: From<VPTree> for VPTreePartition", "src/partition.rs: from_vp"]}
{"id": "C40", "title": "Each region of a partition gets its share of the events", "statement": "The conversion of a vantage-point tree of depth k into a partition stores the bisections in heap order (children of n at 2n+1 and 2n+2), and the inside/outside parts of the tree have sizes differing by at most one at each node.", "quantifier": "all sample sizes for which the construction succeeds, all depths", "why_tests_cant": "breadth-first traversal of unbounded trees", "anchors": ["src/vptree.rs: From<VPTree> for VPTreePartition, build_tree"]}
{"id": "C41", "title": "The cell collector keeps the largest cells", "statement": "After observing any sequence of cells with one collector the collector holds the first ten cells, ten distinct previously seen cells chosen at random, and the ten largest cells by radius, by number of members and by weight (all of them if fewer than ten were seen).", "quantifier": "all sequences of cells and random draws", "why_tests_cant": "all sequences", "anchors": ["src/cell_collector.rs: CellCollector::collect"]}
{"id": "C42", "title": "Combining collectors keeps the largest cells", "statement": "combine of two collectors holds the ten largest cells among those of both.", "quantifier": "all pairs of collectors", "why_tests_cant": "only visible when more than ten entries are merged", "anchors": ["src/cell_collector.rs: combine, truncate"]}
{"id": "C43", "title": "The logarithm used for the tree depth is exact", "statement": "log2(n) is the integer k with 2^k <= n < 2^(k+1) for every 32-bit n >= 1.", "quantifier": "all n in 1..2^32", "why_tests_cant": "all inputs", "anchors": ["src/resampler.rs: log2"]}
{"id": "C44", "title": "Error messages passed to C never overrun the buffer", "statement": "cres_get_last_err writes at most buflen bytes, always terminates what it writes with NUL, returns 0 and the complete message when it fits, a positive required size when it does not and leaves other memory alone.", "quantifier": "all messages, buffers and lengths", "why_tests_cant": "all sizes", "anchors": ["src/c_api/error.rs: cres_get_last_err"]}
{"id": "C45", "title": "The event view passed to a C distance callback exposes the event", "statement": "The EventView given to a user-defined C distance function contains the event's id, its weights and all momenta grouped by particle id.", "quantifier": "all events", "why_tests_cant": "pointer-level representation", "anchors": ["src/c_api/event.rs", "src/c_api/distance.rs"]}
{"id": "C46", "title": "Clustering preserves identity and accounts for every particle", "statement": "DefaultClustering keeps id and weights; each outgoing particle goes to exactly one of: jet clustering (partons and hadrons), lepton clustering (charged light leptons and non-isolated photons, if lepton clustering is enabled), isolated photons, kept unchanged, or dropped (neutrinos, unless included). In exact arithmetic the total momentum before is the total momentum after plus that of dropped neutrinos and of jets/leptons below the minimum transverse momentum, and a photon counts as isolated exactly if it is hard enough compared to the other particles around it.", "quantifier": "all events, all clustering settings, all jet algorithms", "why_tests_cant": "all particle contents", "anchors": ["src/cluster.rs: DefaultClustering::cluster, is_isolated"]}
{"id": "C47", "title": "Classification writes each event to exactly one region file", "statement": "cres-classify-events writes every record to the file of its region, exactly once and in the original order, so that the outputs together contain exactly the input records.", "quantifier": "all record sequences, partitions", "why_tests_cant": "all sequences", "anchors": ["src/bin/classify-events.rs: classify_byte_records"]}
{"id": "C48", "title": "Command-line validation makes later unwraps safe; compression levels are bounded", "statement": "Options accepted by validation never make the conversion to jet, lepton and photon definitions panic; parse_compr accepts exactly algorithm names with optional level within the documented limits.", "quantifier": "all option combinations and strings", "why_tests_cant": "all combinations", "anchors": ["src/bin/opt_cres_validate.rs", "src/bin/opt_common.rs: parse_compr"]}
{"id": "C49", "title": "event_cells lists exactly the saved cells of each event", "statement": "The map returned by CellCollector::event_cells sends every event id to the numbers of exactly those saved cells (first, random, largest by radius, members or weight) that contain the event.", "quantifier": "all collectors and event ids", "why_tests_cant": "arbitrary contents of five tables, with the same cell in several of them", "anchors": ["src/cell_collector.rs: CellCollector::event_cells"]}
{"id": "C50", "title": "The report after a run does not depend on the threads", "statement": "After a run the reported number of cells, number of cells with negative weight and median radius are those of all cells created, and the collector has counted each cell once, for every distribution of the cells over threads and every order in which the threads' data are combined.", "quantifier": "all lists of cells, all distributions over threads, all random draws", "why_tests_cant": "depends on the schedule of the thread pool", "anchors": ["src/resampler.rs: Observer::observe_cell, Observer::finish, ObserverData::combine, median_radius"]}
{"id": "C51", "title": "A collector used for several runs counts every cell once", "statement": "If the same cell collector is passed to successive calls of the default resampler it afterwards holds information on the cells of all runs, each counted once.", "quantifier": "all pairs of runs, all distributions of cells over threads", "why_tests_cant": "depends on the number of threads that created cells", "anchors": ["src/resampler.rs: DefaultResampler::resample, Observer::observe_cell (clone of central)"]}
{"id": "C52", "title": "STRIPPER XML files are split and rewritten without loss and their weights scaled consistently", "statement": "For every STRIPPER XML file with at least one subevent, header and records are exactly the bytes of the file, each record starting with its tag. Events are read with weights multiplied by the channel's scale factor, the last normalisation given for the channel divided by its total number of events over all files, whatever the order of the files. Rewriting the weights changes only the numbers, and reading the new file with the same factor gives the new weights and the same particles.", "quantifier": "all files, weights, scale factors and orders of files", "why_tests_cant": "all texts", "anchors": ["src/stripper_xml.rs: read_raw, init_source, rescale_weight, update_next_weights_helper, extract_scaling, parse_stripper_xml"]}
{"id": "C53", "title": "An event read from a HepMC or LHEF record is the event the record describes", "statement": "Reading a well-formed HepMC or LHEF record succeeds and gives an event whose central weight is the first weight of the record, whose further weights are those with one of the requested names, and whose outgoing particles are exactly the particles with status 1, with their ids, their energies and momenta converted to GeV (the last unit line counts), and with transverse momentum sqrt(px^2+py^2).", "quantifier": "all well-formed records: any number of weights, names, lines and particles in any order, both builds", "why_tests_cant": "unbounded families of record layouts", "anchors": ["src/hepmc2.rs: parse_hepmc, extract_weights, parse_particle_line, parse_units_line, parse_weight_names_line", "src/lhef.rs: parse_lhef", "src/event.rs: EventBuilder"]}
{"id": "C54", "title": "An event read from a STRIPPER XML record is the event the record describes", "statement": "Reading a well-formed STRIPPER XML record succeeds and gives an event with the weight in the tag and exactly the particles with status 0, with their ids, energies and momenta, whether or not there is a blank before the energy.", "quantifier": "all well-formed records", "why_tests_cant": "unbounded families of record layouts", "anchors": ["src/stripper_xml.rs: parse_stripper_xml, particle_momentum"]}
{"id": "C55", "title": "Four-vectors are consistent", "statement": "However a four-vector is obtained (zero, from components, from a jet, by additions and subtractions), its transverse momentum is sqrt(px^2+py^2) of its current components; addition and subtraction act component by component; subtracting what was added gives back the vector (exact arithmetic); the norms are the Euclidean norms.", "quantifier": "all four-vectors and all sequences of operations", "why_tests_cant": "pt is cached; all histories of operations", "anchors": ["src/four_vector.rs: FourVector, From, AddAssign, SubAssign, update_pt"]}
{"id": "C56", "title": "The files written by classification contain the same events", "statement": "Reading the file that cres-classify-events wrote for a region gives the events of the input that belong to that region, in the original order and with the same weights and momenta; this holds for all text formats, and for STRIPPER XML also for the scale factors of the weights.", "quantifier": "all event files, partitions and regions", "why_tests_cant": "all files; the format of records varies (blank lines, missing footers, several end tags)", "anchors": ["src/bin/classify-events.rs: classify_byte_records, trim_footer, write_footer", "src/hepmc2.rs: parse_hepmc", "src/stripper_xml.rs: parse_stripper_xml, extract_scaling"]}
{"id": "C57", "title": "Outputs of classification do not overwrite each other", "statement": "cres-classify-events writes the events of different regions and of different input files to different files in the output directory.", "quantifier": "all output directories, input paths and regions", "why_tests_cant": "all paths", "anchors": ["src/bin/classify-events.rs: make_byte_writers, classify_ntuple_records"]}
{"id": "C58", "title": "The outputs of cres do not overwrite each other or the inputs", "statement": "For each input file cres writes an output file with the same name to the output directory; the outputs for different input files are different files and differ from the inputs.", "quantifier": "all output directories and lists of input paths", "why_tests_cant": "all lists of paths", "anchors": ["src/bin/main.rs: cres_with_search", "src/bin/opt_cres.rs: Opt::outdir"]}
{"id": "C59", "title": "Events of ROOT ntuples are read and rewritten faithfully", "statement": "The event converted from an ntuple record has the main weight and the requested further weights of the record and exactly its particles; writing new weights changes nothing but these weights, so that converting the written record gives the same particles with the new weights; empty weights leave the record unchanged.", "quantifier": "all records, lists of weight names, new weights and both build configurations", "why_tests_cant": "all records and combinations of weight names", "anchors": ["src/ntuple.rs: convert_ntuple, update_next_weights"]}
{"id": "C60", "title": "Updating the weights of all events of a ROOT ntuple", "statement": "update_all_weights of a ROOT ntuple file writes every event with the weights given for it and returns the number of events; update_next_weights writes one event and reports the end with Ok(false).", "quantifier": "all files and lists of weights", "why_tests_cant": "all numbers of events and weights", "anchors": ["src/ntuple.rs: update_all_weights, update_next_weights"]}
{"id": "C61", "title": "Totals are preserved in binary64 up to a rounding error bounded by the sizes of the cells", "statement": "With the floating-point arithmetic of the program, a run changes the total of each weight component by at most ((1+2^-53)^s - 1) times the total absolute weight (plus a multiple of the smallest positive number), s being the sum over the treated cells of their number of members plus one; for a single cell only the absolute weight in the cell enters; with several threads the same bound holds with the number of seeds times the number of events; the total absolute weight grows by at most the same factor.", "quantifier": "all samples with finite weights before and after, all strategies, searches, cells, schedules, and both build configurations", "why_tests_cant": "a worst-case rounding bound over all samples and orders of summation", "anchors": ["src/cell.rs: Cell::resample", "src/resampler.rs: Resampler::resample"]}
{"id": "C62", "title": "In binary64, no member of a cell with non-negative accumulated weight becomes negative", "statement": "With the floating-point arithmetic of the program, after a cell whose accumulated weight is non-negative is resampled, no member has a negative weight, so that a run without limit on the size of cells on a sample with positive total leaves no negative weight.", "quantifier": "all samples with finite weights and all seeds", "why_tests_cant": "the order of summation differs between growing and averaging a cell; only cancellations show it", "anchors": ["src/cell.rs: Cell::new, Cell::resample"]}
{"id": "C63", "title": "The output files contain the input events with the new weights", "statement": "If the program succeeds, there is one output file for each input file with events; reading the files again with the output files in place of the input files gives the same events in the same order with the same particles, each with the weight computed for it; without unweighting the sum of all weights in the files is unchanged, apart from events without identified particles.", "quantifier": "all sequences of input files in any mixture of the text formats, all clusterings, resamplers, unweighters and orders in which parallel tasks finish", "why_tests_cant": "the whole chain of reading, rewriting and reading again has to work for every file and every new weight", "anchors": ["src/bin/main.rs: run_main", "src/cres.rs: Cres::run", "src/io.rs: CombinedFileIO", "src/hepmc2.rs", "src/lhef.rs", "src/stripper_xml.rs"]}
{"id": "C64", "title": "The format of an input file is recognised", "statement": "Files that begin with the ROOT magic bytes are read as ntuples, STRIPPER XML files as such, Les Houches event files as such, also when they begin with white space or an XML declaration, and all others as HepMC 2.", "quantifier": "all file contents", "why_tests_cant": "every possible beginning of a file", "anchors": ["src/io.rs: detect_event_file_format", "src/util.rs: trim_ascii_start"]}
{"id": "C65", "title": "The files on disk are what was computed", "statement": "If no system call fails, then after a successful run each output file contains exactly the output computed from the contents of the input files, and all other files, including the inputs, are unchanged; this does not depend on the sizes of buffers, although files are opened while others are still open.", "quantifier": "all disks, input files, output paths, buffer sizes", "why_tests_cant": "the interleaving of creating, buffering and closing several files depends on all sizes and paths", "anchors": ["src/io.rs: CombinedFileIO::open, init, next, update_all_weights", "src/hepmc2.rs: FileIO::try_new", "src/lhef.rs: FileIO::try_new", "src/stripper_xml.rs: FileIO::try_new", "src/bin/main.rs"]}
{"id": "C66", "title": "Success means that the outputs are complete", "statement": "If the program reports success, every output file on disk is complete; failing system calls lead to a reported error, never to a panic.", "quantifier": "all disks, input files, and all patterns of failing system calls", "why_tests_cant": "every system call can fail", "anchors": ["src/io.rs: CombinedFileIO::open, rewind, update_all_weights", "src/traits.rs: UpdateWeights::finish_weight_update", "src/lhef.rs: finish_weight_update"]}
{"id": "C67", "title": "Interrupting a run damages only outputs", "statement": "If the program or the computer stops at any moment, all files but the outputs are as they were before, and each output file is either as it was before or contains a beginning of the complete output; outputs of an earlier run survive if the new run fails.", "quantifier": "all disks, input files, patterns of failing system calls and crash points", "why_tests_cant": "all crash points", "anchors": ["src/io.rs: CombinedFileIO", "src/hepmc2.rs: FileIO::try_new", "src/lhef.rs: FileIO::try_new", "src/stripper_xml.rs: FileIO::try_new"]}
{"id": "C68", "title": "Runs are reproducible", "statement": "Running the program twice on the same inputs with the same settings gives the same weights, in whatever order the parallel conversion of the events finishes and however ties in sorting are broken.", "quantifier": "all inputs, settings and completion orders of the conversion tasks", "why_tests_cant": "the completion order is a property of the scheduler and cannot be controlled by a test", "anchors": ["src/cres.rs: Cres::run, read_events", "src/resampler.rs: Resampler::resample", "src/seeds.rs: StrategicSelector", "src/unweight.rs: Unweighter::unweight"]}
{"id": "C69", "title": "The result does not depend on threads and schedule", "statement": "Resampling with any number of threads ends with the same weights, whatever the schedule and the order in which seeds are taken.", "quantifier": "all samples, neighbour searches, numbers of threads and interleavings", "why_tests_cant": "all schedules of all numbers of threads", "anchors": ["src/resampler.rs: Resampler::resample", "src/cell.rs: Cell::new, Cell::resample"]}
{"id": "C70", "title": "Malformed input is reported as an error, never as a panic", "statement": "Whatever bytes the input files contain, the program ends with output files or with an error message; it does not panic.", "quantifier": "all contents of any number of input files", "why_tests_cant": "the space of malformed inputs is unbounded; fuzzing samples it", "anchors": ["src/hepmc2.rs: parse_hepmc, extract_weights", "src/lhef.rs: parse_lhef, read_raw", "src/stripper_xml.rs: parse_stripper_xml, read_raw", "src/cres.rs: Cres::run", "src/bin/main.rs: run_main"]}
{"id": "C71", "title": "The program succeeds on inputs that can be read", "statement": "If all input files can be opened and read and all their records converted to events, the run ends successfully with one output file for each file with events, and reading these gives the same events with the weights computed by the run; conversely a run succeeds only on such inputs.", "quantifier": "all input files in any mixture of the text formats, all resamplers and unweighters that handle every sample, all completion orders", "why_tests_cant": "all inputs and completion orders", "anchors": ["src/bin/main.rs: run_main", "src/cres.rs: Cres::run", "src/io.rs: CombinedFileIO::update_all_weights"]}
{"id": "C72", "title": "Weights survive being written and read to the last bit", "statement": "A decimal number in an event file is read as the nearest double, whatever follows it, and nothing else is read as a number except nan and inf. A finite double that is written by the program is read back as exactly the same double. So the output files hold exactly the computed weights, and the sum of the weights in the output files differs from the sum in the input files only by the rounding errors of the resampling.", "quantifier": "all texts, all doubles (finite ones for reading back), all input files in HepMC and LHEF format with one weight per event, all completion orders", "why_tests_cant": "2^64 doubles and infinitely many decimal numbers, rounding depends on every digit", "anchors": ["src/parsing.rs: double_entry", "src/hepmc2.rs: update_central_weight", "src/lhef.rs: update_next_weights_helper", "src/stripper_xml.rs: update_next_weights_helper", "src/bin/main.rs: run_main"]}
{"id": "C73", "title": "Unweighting is unbiased", "statement": "On average over the random numbers, unweighting with minimum weight m keeps an event of weight w with probability min(1, |w|/m), and neither the total weight nor any other weighted sum over the events (a bin of a histogram, say) changes on average, for any of the weights of the events.", "quantifier": "all samples, all minimum weights, all observables, all outcomes of the random numbers, weighted with their probability", "why_tests_cant": "an average over a continuum of random numbers; a test sees one seed or a statistical estimate", "anchors": ["src/unweight.rs: Unweighter::unweight", "src/traits.rs: Unweight"]}
{"id": "C74", "title": "The program removes negative weights and keeps the total", "statement": "Run with consistent options on well-formed files, the program cres (with its own clustering, distance, search, resampler and unweighter) succeeds; reading its output gives the same events with new weights whose sum is that of the input events that have particles after the clustering, and none of which is negative if that sum is not negative and the maximum cell size is no restriction. With a minimum weight, each event is either dropped, which requires a random number not below its weight, or has its weight lifted to the minimum, times a factor common to all events, relative to the run without minimum weight. With inconsistent options it reports an error.", "quantifier": "all option values, all input files in any mixture of text formats, both search algorithms, all strategies, all orders in which tasks finish, all random numbers, all resolutions of ties", "why_tests_cant": "combines reading, clustering, resampling, unweighting and writing over all inputs and options", "anchors": ["src/bin/main.rs: main, cres, cres_with_search", "src/resampler.rs: DefaultResampler::resample", "src/cres.rs: Cres::run"]}
{"id": "C75", "title": "Resampling is local: observables that do not resolve cells keep their predictions", "statement": "An event farther away than the maximum cell size from every event of negative weight keeps its weights. A set of events separated by more than the maximum cell size from all others (e.g. an isolated region of phase space) keeps its sum of weights, for every weight component. An observable that varies by at most eps between events within the maximum cell size changes by at most 2 eps times the number of negative-weight events times the sum of absolute weights; the same holds from the input files to the output files of a run of the program without unweighting.", "quantifier": "all event samples, observables, distances, maximum cell sizes, seed selection strategies, both searches, all options and input files of the program", "why_tests_cant": "a bound for every observable and every sample; tests look at a few histograms", "anchors": ["src/resampler.rs: Resampler::resample", "src/cell.rs: Cell::resample", "src/neighbour_search.rs: NaiveNeighbourIter, TreeSearch", "src/vptree.rs: NearestNeighbourIter", "src/bin/main.rs: cres_with_search"]}
{"id": "C76", "title": "The whole program with any number of threads", "statement": "With any number of worker threads in the resampling, in every schedule, the program succeeds under the conditions under which it succeeds with one thread: it neither panics nor deadlocks. Its output has the same events in the same order; the sum of the weights is that of the input events with particles after the clustering; observables that do not resolve the cells keep their predictions up to the bound of C75. One thread taking the seeds in order is the sequential program. If the cells have no events in common, the result is that of one thread, bit for bit. (Negative weights may remain with several threads.)", "quantifier": "all numbers of threads, all schedules, all options and input files of the program", "why_tests_cant": "tests see few of the schedules and only those of the machine they run on", "anchors": ["src/resampler.rs: Resampler::resample", "src/cell.rs: Cell::resample", "src/event.rs: Event", "src/bin/main.rs: cres_with_search"]}
{"id": "C77", "title": "A partition made from a sample divides it evenly", "statement": "Making a partition from input files uses exactly their events of negative weight: the vantage points are different events of them, one less than there are regions. If all records can be read and clustered, the outcome depends only on the number n of such events: an error for n < 2^k, a partition for n >= 3*2^(k-1)-1 (or one region), otherwise a panic. Sorting the same files with the partition writes every record to the file of its region, and each of the 2^k regions gets its share of the events of negative weight up to a number that depends on k only, provided no two events are equally far from a third. Sorting never fails for lack of an output file, whatever the partition file contains.", "quantifier": "all input files (HepMC2, LHEF, STRIPPER XML), clusterings, distances, numbers of regions 2^k, all partition files", "why_tests_cant": "tests have few samples and partitions; evenness for every sample needs a bound on all of them", "anchors": ["src/bin/partition.rs: main", "src/bin/classify-events.rs: main, Classifier::classify_byte_records", "src/partition.rs: VPTreePartition", "src/vptree.rs: VPTree::from_par_iter_with_dist_and_depth", "src/compression.rs: compress_writer"]}
{"id": "C78", "title": "The program in the default build", "statement": "As built by default (several weights per event supported, none named on the command line), the program without a minimum weight succeeds on well-formed input with consistent options, for any number of threads. The output has the same events in the same order with one weight each; events without identified particles after the clustering are unchanged; the sum of the weights of all events is that of the input; observables that do not resolve the cells keep their predictions up to the bound of C75. With one thread and unlimited cells no event with particles has a negative weight, if the weights of these events do not add up to a negative number. (With a minimum weight, dropped events keep their input weights, and the sum changes by exactly these.)", "quantifier": "all numbers of threads, all schedules, all options without named weights, all input files in text formats", "why_tests_cant": "the sum of weights must be preserved for every sample, every set of options and every schedule", "anchors": ["Cargo.toml: default features", "src/bin/main.rs: main, cres_with_search", "src/cres.rs: Cres::run", "src/event.rs: Weights", "src/hepmc2.rs: FileIO::update_next_weights", "src/unweight.rs: Unweighter::unweight"]}
{"id": "C79", "title": "A run of the C API", "statement": "On well-formed input files cres_run with any distance function of the caller returns 0 and leaves the last error as it was. The output has the same events in the same order with one weight each; events without particles after the clustering are unchanged; the sum of the weights of all events is that of the input; observables that do not resolve the cells keep their predictions up to the bound of C75. With one thread and a maximum cell size that no distance exceeds, no event with particles has a negative weight, if the weights of these events do not add up to a negative number. Without a distance function the run is the same as the program on the command line with the same options. With the maximum cell size INFINITY the searches find all events.", "quantifier": "all distance functions, all options, all numbers of threads, all schedules, all input files in text formats", "why_tests_cant": "the distance function is arbitrary code of the caller and need not be a metric", "anchors": ["src/c_api/cres.rs: cres_run, Opt", "src/c_api/distance.rs: DistanceFn", "src/vptree.rs: NearestNeighbourIter", "src/resampler.rs: Resampler::resample"]}
{"id": "C80", "title": "No overflow", "statement": "Resampling in binary64 arithmetic of at most about 9.4e7 events with finite weights, whose absolute values add up to at most 2^1022, yields finite weights, finite sums of weights of all cells, and the same total of the weights up to rounding; also with any number of threads. So the program succeeds on all readable HepMC and LHEF files with such weights if the distance is never NaN, and the output files can be read and have finite weights.", "quantifier": "all samples, all distances that are not NaN, both searches, all strategies, all schedules, all input files", "why_tests_cant": "whether an intermediate sum overflows depends on all weights and on the order of the members of all cells", "anchors": ["src/cell.rs: Cell::new, Cell::resample", "src/resampler.rs: Resampler::resample", "src/cres.rs: Cres::run"]}
{"id": "C81", "title": "The statistics in the log", "statement": "The log of a run reports the number of events read, the number of ignored events, the kinds of events with the number of events of each kind (the most frequent ones first, at most 1000, independently of the order in which the events were read), the sum of the weights of the remaining events before and after, the square root of the sum of their squares, and the part of negative weights in the sum of absolute weights. The final sum is the initial one, except that it may be zero with unweighting. Without unweighting, the final uncertainty is not larger than the initial one; for a positive sum the final negative weight fraction is not larger than the initial one.", "quantifier": "all samples, converters, clusterings, searches, distances, numbers of threads and schedules", "why_tests_cant": "the relations between the numbers must hold for every sample and every schedule", "anchors": ["src/cres.rs: Cres::run, log_multiplicities", "src/resampler.rs: Resampler::print_wt_sum, Resampler::resample", "src/cell.rs: Cell::resample"]}
{"id": "C82", "title": "Named weights", "statement": "A run with chosen weight names (option --weights) on HepMC files that can be read and whose events list the same weight names succeeds and writes the same number of events, with the same outgoing particles and the same names. For every chosen name, the sum over all events of the weight with this name is that of the input, and so is the sum of the first weights. All other weights, and the events without identified particles after the clustering, are unchanged. With one or several threads.", "quantifier": "all HepMC files, all lists of names, all clusterings, distances, searches, strategies, numbers of threads and schedules", "why_tests_cant": "names are matched with positions in every record separately; the sums must agree for all samples and all choices and orders of names", "anchors": ["src/hepmc2.rs: parse_weight_names_line, update_named_weights", "src/cres.rs: Cres::run", "src/resampler.rs: Resampler::resample", "src/cell.rs: Cell::resample", "src/event.rs: Weights"]}
{"id": "C83", "title": "Progress bars do not hide messages", "statement": "The messages of a run are shown according to the log level the user has set: every one whose level is at most the set level, in order. Progress bars switch logging off only while they are shown: after a run, successful or not, the log level is what it was before, so that later runs in the same process show their messages. The same holds for cres-classify-events: in particular, every output whose footer could not be written is reported. From C, the first call of cres_logger_from_env with a valid name sets the level, by default info, and returns 0; any other call returns -1 and changes nothing but the error message of its thread.", "quantifier": "all inputs, log levels, components, results of runs, and sequences of runs in a process; all partitions, files and sets of outputs that cannot be completed; all sequences of calls of cres_logger_from_env", "why_tests_cant": "the log level is global state that is changed at several places; what is shown depends on the history of the process and on where a run ends", "anchors": ["src/progress_bar.rs: ProgressBar::new, finish", "src/cres.rs: Cres::run, read_events", "src/resampler.rs: Resampler::resample", "src/io.rs: CombinedFileIO::update_all_weights", "src/bin/classify-events.rs: classify_byte_records", "src/c_api/log.rs: cres_logger_from_env"]}
{"id": "C84", "title": "Runs on ROOT ntuples", "statement": "A run on ROOT ntuples in which the announced particles exist succeeds and writes one ntuple for each input file, with the same events in the same order; nothing but the chosen weights is changed: the main weight, and those of \"2\", \"ME\" and \"ME2\" that were requested with --weights. The sum over all events of each chosen weight is that of the input. Events without identified particles after the clustering are unchanged; in builds for a single weight they get the weight zero and do not count. Other names are ignored. With one or several threads.", "quantifier": "all sequences of ntuples, weight names, clusterings that keep weights, neighbour searches, distances, strategies, cell sizes, numbers of threads and schedules", "why_tests_cant": "reading and writing must agree on the assignment of weights to events over all files, and on the order of the chosen weights in each event", "anchors": ["src/io.rs: CombinedFileIO", "src/ntuple.rs: convert_ntuple, update_next_weights", "src/cres.rs: Cres::run, read_events"]}
{"id": "C85", "title": "Headers of STRIPPER XML files", "statement": "A STRIPPER XML file with events is accepted if and only if its first tag is Eventrecord with the attributes name (valid UTF-8), nevents, nsubevents and as (decimal numbers below 2^64), in any order, with either kind of quotes, any white space and any other attributes; exactly these values are read, and nothing after the tag has any influence. Otherwise the error names an attribute that is indeed missing or malformed, or the unsupported tag. Comments before the tag make no difference, and different ways of writing the same name are equivalent.", "quantifier": "all declarations and texts before the tag, all tags, all lists of attributes with different keys, all ways of writing them, everything that may follow", "why_tests_cant": "tests use a few headers as written by one program; the claim is about every order, spacing, quoting, number and every continuation of the file", "anchors": ["src/stripper_xml.rs: extract_xml_info, parse_u64, to_string, XMLTag, Error"]}
{"id": "C86", "title": "Reading in pieces and failing reads", "statement": "The header and the events delivered for an event file do not depend on how many bytes the individual reads return: they are those of the contents. If a read fails, the file is never taken to be complete: opening it or the iteration over its events ends with an error, and the events delivered before are the first ones of the file, whatever the unreadable part contains. The detected format and the scale factors are also those of the contents, and a failing read while they are determined is reported.", "quantifier": "all files of the three text formats, all ways of dividing them into pieces, all positions of a failing read, all contents of the unreadable part", "why_tests_cant": "tests read small local files in one piece without errors", "anchors": ["src/hepmc2.rs: FileReader::read_raw, init_source", "src/lhef.rs: FileReader::read_raw, init_source", "src/stripper_xml.rs: FileReader::read_raw, init_source, extract_scaling", "src/io.rs: detect_event_file_format"]}
{"id": "C87", "title": "Distances in floating-point arithmetic are finite", "statement": "In binary64 arithmetic the default distance of two events whose momentum components are at most 2^500 in size, with a transverse-momentum weight of at most 512, is a finite number: no NaN and no overflow. With at most three particles of each type it is not negative, and exactly zero for an event and itself. Hence a run over text files with such events succeeds whenever the input can be read and the weights are not too large (C80), without any further assumption on distances.", "quantifier": "all pairs of events with such momenta, all numbers and types of particles, all weights of the transverse momentum up to 512", "why_tests_cant": "overflow and invalid operations depend on the size of intermediate results; tests use a few momenta of ordinary size", "anchors": ["src/distance.rs: EuclWithScaledPt::distance, pt_dist, pt_norm, min_paired_distance", "src/four_vector.rs: FourVector::update_pt, spatial_norm_sq, sub", "src/resampler.rs: DefaultResampler"]}
{"id": "C88", "title": "Clustering accepts every event", "statement": "Clustering outgoing particles to physics objects does not panic for any event that can be read, in builds with and without debug assertions, and particles that are neither partons, hadrons, leptons nor photons keep their type whatever their id.", "quantifier": "all events in the form produced by the event builder, all particle ids of 32 bits including the extreme ones, all momenta, all clustering settings", "why_tests_cant": "a single id among 2^32 is special, and the rounding errors that make a transverse energy undefined occur for rare combinations of momenta only", "anchors": ["src/cluster.rs: DefaultClustering::cluster, is_parton, is_hadron, is_light_lepton, is_isolated", "src/traits.rs: Clustering", "src/cres.rs: Cres::run"]}
{"id": "C89", "title": "Unweighting in floating-point arithmetic gives finite weights", "statement": "Unweighting a sample with finite weights and a positive minimum weight of ordinary size does not panic, in builds with and without debug assertions, and all weights of the events that are kept are finite. Without negative weights they are not negative either. This holds for all random numbers and for every bracketing of the parallel sums.", "quantifier": "all samples with weights between 2^-100 and 2^100 in size (or zero), all minimum weights in this range, all random numbers, all bracketings of the sums, any number of weights per event", "why_tests_cant": "the common factor applied at the end is a quotient of two sums of rounded numbers, the second one depending on which events are kept at random; cancellations are rare", "anchors": ["src/unweight.rs: Unweighter::unweight", "src/event.rs: Event::rescale_weights", "src/traits.rs: Unweight"]}
{"id": "C90", "title": "A successful run does not depend on how files are read", "statement": "However the operating system or a decoder divides the input files into pieces, a run ends in the same way and writes the same output files. If some reads of the input files fail, then the run does not end successfully, unless the output files are the same as if no read had failed.", "quantifier": "all input files in text formats, all divisions into pieces, different ones each time a file is opened, all failures of reads at any position, all options, all completion orders of the tasks", "why_tests_cant": "pieces and failures depend on the file system, on pipes and on decoders; each file is opened several times and each opening can be cut at every byte", "anchors": ["src/io.rs: CombinedFileIO, detect_event_file_format", "src/hepmc2.rs: FileReader", "src/lhef.rs: FileReader", "src/stripper_xml.rs: FileReader, extract_scaling", "src/cres.rs: Cres::run"]}
{"id": "C91", "title": "Tree search tolerates rounding errors of the distances", "statement": "If the computed distances satisfy symmetry and the triangle inequality up to an error s and are at most M, then the tree search in machine arithmetic succeeds and never delivers a neighbour while one that is nearer by more than 2 s + 2^-53 M has not been delivered; it omits only points whose distance exceeds the limit minus this error, and delivers only points within the limit.", "quantifier": "all numbers of points, all finite distances with any such errors, all query points, all finite or infinite limits, all correct sort and selection algorithms", "why_tests_cant": "rounding errors are tiny and depend on the momenta; whether they add up over the levels of the tree cannot be seen on examples", "anchors": ["src/vptree.rs: nearest_in_subtree, nearest_in_impl, build_tree", "src/neighbour_search.rs: TreeSearch"]}
{"id": "C92", "title": "Computed distances are accurate", "statement": "The distance computed for two events differs from the documented one (best pairing for each type of particle, in exact arithmetic) by at most (200 k + 9 k^2) 2^-53 T B, where k is the number of particles in both events, B bounds the components of the momenta and T >= 1 bounds the weight of the transverse momentum; the tree search therefore orders the neighbours by their exact distances up to a few such errors.", "quantifier": "all events with at most three particles of each type (or more, with an assignment algorithm as accurate as a sum), all finite momenta with components up to 2^500, all particle ids, all weights of the transverse momentum up to 2^9, all numbers of events", "why_tests_cant": "the error depends on the momenta and on the order of the operations; a bound needs an analysis of every rounding step", "anchors": ["src/distance.rs: EuclWithScaledPt::distance, set_distance, min_paired_distance, pt_dist, pt_norm, paired_distance", "src/four_vector.rs: FourVector", "src/event.rs: EventBuilder"]}
{"id": "C93", "title": "Separated distances: results do not depend on rounding or on the chosen search", "statement": "If the exact distances of the other events from each event differ from each other, and from the maximum cell size, by more than a small multiple of the rounding error bound, then the tree search and the naive search deliver the neighbours in the order of the exact distances, and a run gives the same weights and the same cells with either search as with exact distances. A complete program reading such events writes the same output files, or ends with the same error, whichever search is chosen; with several threads this holds for every schedule.", "quantifier": "all lists of events with at most three particles of each type (or more, with an accurate assignment algorithm) and separated distances, all finite or infinite maximum cell sizes, all strategies, all weights that are not NaN, all correct sort and selection algorithms", "why_tests_cant": "whether rounded distances are ordered like the exact ones depends on the momenta; equality of complete runs must hold for every list of events", "anchors": ["src/distance.rs: EuclWithScaledPt::distance", "src/neighbour_search.rs: NaiveNeighbourSearch, TreeSearch", "src/vptree.rs: nearest_in", "src/resampler.rs: Resampler::resample", "src/cell.rs: Cell::new, Cell::resample"]}
{"id": "C94", "title": "Results do not depend on units and orientation", "statement": "If the momenta of all events are given in other units and with respect to axes that are rotated around or reflected along the beam (or rotated in any way, if the weight of transverse momenta is zero), then all distances are multiplied by the factor between the units, and a resampling run with the maximum cell size in the new units gives the same weights and the same cells.", "quantifier": "all pairs and lists of events, all factors, all orthonormal axes that keep the beam, all strategies, both searches, all maximum cell sizes, all numbers of threads and schedules; for runs, events without equal distances", "why_tests_cant": "a continuum of rotations and factors and all events; the assignment of particles to each other must stay the same for every event", "anchors": ["src/distance.rs: EuclWithScaledPt::distance, pt_dist, min_paired_distance", "src/four_vector.rs: FourVector", "src/resampler.rs: Resampler::resample", "src/neighbour_search.rs: NaiveNeighbourSearch, TreeSearch"]}
{"id": "C95", "title": "Distances are continuous and infrared safe", "statement": "If momenta of the particles of an event change, its distance from every other event changes at most by sqrt(1 + tau^2) times the sum of the changes; adding particles changes the distance from every other event at most by sqrt(1 + tau^2) times the sum of their momenta, so arbitrarily soft particles have arbitrarily little effect. (Splitting a particle into two collinear ones is not a small change: this is left to the clustering.)", "quantifier": "all events, all changes of momenta, all additional particles of any types, all weights tau of transverse momenta", "why_tests_cant": "a bound for all events and all changes; small changes may switch the optimal pairing of particles", "anchors": ["src/distance.rs: EuclWithScaledPt::distance, set_norm, min_paired_distance", "src/cluster.rs: DefaultClustering"]}
{"id": "C96", "title": "Auxiliary weights are passive and treated linearly", "statement": "If the weights of all events are replaced by linear combinations of the original weights, the central weight only being multiplied by a positive factor, then the resampling run builds the same cells, and the resulting weights are the same linear combinations of the original results. In particular the normalisation of the weights does not matter, auxiliary weights can be removed or added without effect on the others, and sums and differences of weights (such as scale variations) may be taken before or after resampling.", "quantifier": "all lists of events, all numbers of weights, all matrices of coefficients, all strategies, all searches, all distances that ignore weights, all numbers of threads and schedules", "why_tests_cant": "all linear combinations and all runs; averaging happens many times, in cells that overlap", "anchors": ["src/resampler.rs: Resampler::resample", "src/cell.rs: Cell::resample", "src/seeds.rs: StrategicSelector::select_seeds", "src/event.rs: Weights"]}
{"id": "C97", "title": "Isolated parts of a sample can be resampled separately", "statement": "If a part of the events is farther than the maximum cell size from all other events, then resampling the part alone gives its events the weights they get when the whole sample is resampled, and the cells that start in the part are the same. So far-away events never matter, and a sample that consists of well separated parts can be processed in pieces. (Parts that touch, such as the regions of a partition, cannot.)", "quantifier": "all samples without ties and all isolated parts, in any order and interleaving of the events, all strategies, all searches that are exact, any arithmetic, all numbers of threads and all schedules (with several threads: the possible outcomes for the part are those of the part alone)", "why_tests_cant": "all samples and parts; the order in which seeds of different parts are treated changes, and indices of events differ between the runs", "anchors": ["src/resampler.rs: Resampler::resample", "src/cell.rs: Cell::new, Cell::resample", "src/seeds.rs: StrategicSelector::select_seeds", "src/neighbour_search.rs: NaiveNeighbourSearch, TreeSearch", "src/bin/classify-events.rs"]}
{"id": "C98", "title": "A maximum cell size that no cell exceeds has no effect", "statement": "If all cells of a run have radii of at most M, then the run with the maximum cell size M gives the same weights and the same cells. So the limit may be lowered to the largest radius that is found without changing anything, and limits above all distances are as good as none, with any number of threads. (Larger limits do not always leave fewer events with negative weights.)", "quantifier": "all samples without ties, all pairs of limits, all strategies, all searches that are exact, any arithmetic; all numbers of threads and schedules for limits above all distances", "why_tests_cant": "all samples and limits; the limit changes what the searches deliver for every seed, and each cell changes the weights seen by later ones", "anchors": ["src/resampler.rs: Resampler::resample, ResamplerBuilder::max_cell_size", "src/cell.rs: Cell::new", "src/neighbour_search.rs: NaiveNeighbourSearch, TreeSearch", "src/bin/opt_cres.rs: max_cell_size"]}
