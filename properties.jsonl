{"id": "C01", "title": "Determinisation preserves the language", "statement": "Graph::from_nfa(I, F, d) returns a DFA that accepts exactly the bit words the NFA (I, F, d) accepts.", "quantifier": "every finite NFA over {0,1} (any number of states, several initial states, empty and duplicate transition lists) and every bit word", "why_tests_cant": "the language is an infinite object and the subset construction interleaves a queue, a map and a visited set; tests compare a handful of dumps", "anchors": ["src/graph.cpp:248 Graph::from_nfa", "src/graph.cpp:342 Graph::next_state", "src/graph.cpp:336 Graph::is_final_state"]}
{"id": "C02", "title": "Determinisation terminates and rejects exactly the dangling NFAs", "statement": "Graph::from_nfa terminates on every input; it throws std::out_of_range exactly when a state number that is not a row of the transition table is reachable, and otherwise returns a total DFA with initial state 0, all of whose states are reachable, with at most 2^n states.", "quantifier": "every NFA table, including ones with dangling targets", "why_tests_cant": "termination and the state bound depend on an inductive argument over all subsets", "anchors": ["src/graph.cpp:248 Graph::from_nfa"]}
{"id": "C03", "title": "Reversal accepts exactly the mirrored words", "statement": "g.reversed() accepts w iff g accepts w read backwards.", "quantifier": "every well-formed DFA and every bit word", "why_tests_cant": "infinitely many words; the reversal goes through parent lists and the subset construction", "anchors": ["src/graph.cpp:434 Graph::reversed", "src/graph.cpp:89 Graph::Graph"]}
{"id": "C04", "title": "Minimisation preserves the language", "statement": "g.minimized() terminates without error and accepts exactly the words g accepts.", "quantifier": "every well-formed DFA and every bit word", "why_tests_cant": "language equality over all words; the algorithm is table filling plus union-find", "anchors": ["src/graph.cpp:444 Graph::minimized", "src/graph.cpp:485 Graph::grouped_nondistinguishable"]}
{"id": "C05", "title": "Minimisation is minimal", "statement": "No DFA with the same language as g has fewer states than g.minimized(); minimising again does not change the size.", "quantifier": "every well-formed DFA, compared with every other well-formed DFA", "why_tests_cant": "quantifies over all competitor automata", "anchors": ["src/graph.cpp:444 Graph::minimized"]}
{"id": "C06", "title": "Removing unreachable states keeps exactly the reachable ones", "statement": "g.removed_unreachable() accepts the same words as g, every state of the result is reachable, and its size is the number of states reachable in g.", "quantifier": "every well-formed DFA", "why_tests_cant": "needs reachability over paths of any length", "anchors": ["src/graph.cpp:449 Graph::removed_unreachable"]}
{"id": "C07", "title": "State merging merges exactly the indistinguishable states", "statement": "g.grouped_nondistinguishable() keeps the language even if unreachable states are present, and no two of its states accept the same language.", "quantifier": "every well-formed DFA, every pair of states, every distinguishing word length", "why_tests_cant": "a pair may be separated only by a very long word, so no bounded test settles it", "anchors": ["src/graph.cpp:485 Graph::grouped_nondistinguishable"]}
{"id": "C08", "title": "Negation is complement", "statement": "g.negated() accepts w iff g rejects w, with the same transitions and initial state.", "quantifier": "every well-formed DFA and every word", "why_tests_cant": "all words", "anchors": ["src/graph.cpp:568 Graph::negated"]}
{"id": "C09", "title": "spec2spec option combinations compose", "statement": "spec2spec with any combination of --negated, --reversed, --minimized prints a specification whose language is: complement if --negated, then mirrored if --reversed, and otherwise unchanged; with --minimized no specification of the same language has fewer states.", "quantifier": "every well-formed input specification, all 8 flag combinations, every word", "why_tests_cant": "order of the options matters for all words at once", "anchors": ["src/main.cpp:482 do_spec2spec"]}
{"id": "C10", "title": "Predecessor lists are the exact inverse of the transition function", "statement": "p occurs in prev_states(q,b) exactly once if next_state(p,b)=q and not at all otherwise.", "quantifier": "every well-formed DFA (row i of the table is labelled i), all states and input bits", "why_tests_cant": "all graphs", "anchors": ["src/graph.cpp:89 Graph::Graph", "src/graph.cpp:348 Graph::prev_states"]}
{"id": "C11", "title": "states_at_depth is exact bounded reachability", "statement": "After reserve_states_at_depth(d), states_at_depth(i) for i<d is the ascending duplicate-free list of the states reachable from the initial state by exactly i input bits; states_at_depth(i) for i>=d throws.", "quantifier": "every well-formed DFA, every d and i", "why_tests_cant": "quantifies over all words of length i for every i", "anchors": ["src/graph.cpp:370 Graph::reserve_states_at_depth", "src/graph.cpp:397 Graph::states_at_depth"]}
{"id": "C12", "title": "track_live_states is exact reachability from a set", "statement": "track_live_states(L, d) returns d+1 levels; level 0 is L and level i>0 lists, ascending and without duplicates, exactly the states reachable from L by i input bits.", "quantifier": "every well-formed DFA, every list of states and depth", "why_tests_cant": "all words of all lengths", "anchors": ["src/graph.cpp:409 Graph::track_live_states"]}
{"id": "C13", "title": "transition64 equals stepwise execution on the low bits", "statement": "transition64(q, x, len) equals running next_state over bits 0..len-1 of x (least significant first), for every len up to 64.", "quantifier": "every DFA, state, 64-bit x and len in 0..64", "why_tests_cant": "the failure (if any) sits at a shift-width boundary that random short tests never reach", "anchors": ["src/graph.cpp:357 Graph::transition64"]}
{"id": "C14", "title": "Text round trip of specifications", "statement": "Reading back what dump() printed gives a graph with the same initial state, finals and transitions.", "quantifier": "every well-formed DFA of any size (decimal numbers of any number of digits)", "why_tests_cant": "all sizes of automaton and number widths", "anchors": ["src/graph.cpp:577 Graph::dump", "src/graph.cpp:107 Graph::from_istream"]}
{"id": "C15", "title": "A specification file denotes the automaton written in it", "statement": "from_istream on a text returns a DFA accepting exactly the language of the (possibly nondeterministic) automaton whose rows are the lines that match the documented line format, other lines being ignored; the initial states are the '>' rows, or row 0 if there is none.", "quantifier": "every byte sequence", "why_tests_cant": "all texts; the DFA and NFA paths through the parser differ", "anchors": ["src/graph.cpp:107 Graph::from_istream"]}
{"id": "C16", "title": "Malformed specification rows are rejected", "statement": "from_istream fails (never returns a graph) when a matching row carries a state number different from its position, when a transition list has an empty item, when a number exceeds INT_MAX, or when a deterministic table has a transition to a missing row.", "quantifier": "every byte sequence", "why_tests_cant": "all malformed texts", "anchors": ["src/graph.cpp:107 Graph::from_istream", "src/graph.cpp:89 Graph::Graph"]}
{"id": "C17", "title": "AT&T round trip preserves the language", "statement": "att2spec applied to the output of spec2att gives an automaton with the language of the original specification.", "quantifier": "every well-formed DFA and every word", "why_tests_cant": "all automata, including those whose initial state is not state 0", "anchors": ["src/graph.cpp:615 Graph::dump_att", "src/graph.cpp:203 Graph::from_att_istream"]}
{"id": "C18", "title": "AT&T files denote the automaton written in them", "statement": "from_att_istream accepts exactly the language of the NFA given by the transition lines and final-state lines with initial state 0, and fails on any line of another shape.", "quantifier": "every byte sequence", "why_tests_cant": "all texts", "anchors": ["src/graph.cpp:203 Graph::from_att_istream"]}
{"id": "C19", "title": "No graph has a dangling transition", "statement": "Every Graph value obtained from the constructor or any factory or transformation has all transition targets and final states below size(), so next_state and is_final_state never throw when run from a valid state.", "quantifier": "every construction history", "why_tests_cant": "an invariant over all ways of obtaining a graph", "anchors": ["src/graph.cpp:89 Graph::Graph"]}
{"id": "C20", "title": "Input file decoding", "statement": "Reading a file that packs valuations of ap bits, least significant bit first and each padded to whole bytes, feeds exactly the concatenation of the valuations, in order, whatever the padding bits are.", "quantifier": "every ap >= 1, every sequence of valuations, every padding", "why_tests_cant": "all lengths and byte-boundary cases of ap", "anchors": ["src/utility.hpp:9 each_input_bit"]}
{"id": "C21", "title": "Truncated input files are detected", "statement": "Reading an input file with ap bits per valuation aborts iff the number of bytes is not a multiple of ceil(ap/8); in all cases the number of bits delivered before that is determined by the length only.", "quantifier": "every byte sequence and every ap >= 1", "why_tests_cant": "all lengths", "anchors": ["src/utility.hpp:9 each_input_bit"]}
{"id": "C22", "title": "Ciphertext serialisation round trip", "statement": "Loading a saved TRGSW ciphertext returns the same bit pattern and consumes exactly one block, whatever follows in the stream; a short stream aborts.", "quantifier": "every ciphertext (all 64-bit patterns, including NaNs and infinities) and every continuation", "why_tests_cant": "all bit patterns", "anchors": ["src/tfhepp_util.cpp:33 TRGSWLvl1FFTSerializer::save", "src/tfhepp_util.cpp:91 TRGSWLvl1FFTDeserializer::load"]}
{"id": "C23", "title": "Forward input stream yields the file in order under every prefetch schedule", "statement": "A forward ciphertext stream over a file of n saved ciphertexts returns them in order, size() is the number not yet returned, and the (n+1)-th next() aborts; the background loader's timing has no influence.", "quantifier": "every sequence of ciphertexts, every interleaving of the loader thread with the caller", "why_tests_cant": "thread schedules", "anchors": ["src/tfhepp_util.cpp:101 TRGSWLvl1InputStreamFromCtxtFile", "src/tfhepp_util.cpp:131 next"]}
{"id": "C24", "title": "Reversed input stream yields the file backwards under every prefetch schedule", "statement": "A reversed ciphertext stream returns the n saved ciphertexts in reverse order, size() counts down, the (n+1)-th next() aborts, no seek before the beginning of the file happens, under every loader timing.", "quantifier": "every sequence of ciphertexts, every interleaving of the loader thread with the caller", "why_tests_cant": "thread schedules and seek arithmetic modulo 2^64", "anchors": ["src/tfhepp_util.cpp:144 ReversedTRGSWLvl1InputStreamFromCtxtFile", "src/tfhepp_util.cpp:86 seek"]}
{"id": "C25", "title": "Ciphertext files with a partial block are refused", "statement": "Opening a ciphertext stream on a file whose length is not a multiple of the ciphertext block size aborts, before any ciphertext is delivered.", "quantifier": "every byte sequence", "why_tests_cant": "all lengths", "anchors": ["src/tfhepp_util.cpp:69 TRGSWLvl1FFTDeserializer::tell"]}
{"id": "C26", "title": "End-of-stream and begin-of-stream predicates", "statement": "is_beg() is true exactly at offset 0 and is_end() is true exactly at the end of the stream.", "quantifier": "every stream and position", "why_tests_cant": "the comparison is against a seekdir enumerator, which is wrong only at particular offsets", "anchors": ["src/tfhepp_util.cpp:76 is_beg", "src/tfhepp_util.cpp:81 is_end"]}
{"id": "C27", "title": "Decryption threshold", "statement": "Decrypting a bit ciphertext gives 1 exactly when its phase lies strictly between 1/4 and 3/4; hence any noise of absolute value below 1/4 around {0,1/2} decrypts correctly, and the bound is tight.", "quantifier": "every ciphertext and key, all 2^32 phases", "why_tests_cant": "boundary of modular arithmetic over all phases", "anchors": ["src/tfhepp_util.cpp:395 decrypt_TLWELvl1_to_bit"]}
{"id": "C28", "title": "Ciphertext addition and rotation act on the phase as ring operations", "statement": "Adding ciphertexts adds their phases; multiplying by X^k multiplies the phase by X^k in Z_{2^32}[X]/(X^n+1), for every 0<=k<=2n, and k>2n is out of contract.", "quantifier": "every key, every ciphertext, every k, every ring dimension", "why_tests_cant": "all k and all coefficient patterns", "anchors": ["src/tfhepp_util.cpp:259 TRLWELvl1_add", "src/tfhepp_util.cpp:268 PolyLvl1_mult_X_k", "src/tfhepp_util.cpp:292 TRLWELvl1_mult_X_k"]}
{"id": "C29", "title": "Bootstrapping helpers map the message space as documented", "statement": "do_SEI_IKS_GBTLWE2TRLWE_2 / BS_TLWE_0_1o2_to_TRLWE_0_1o2 map messages {0,1/2} to {0,1/2}, the _3 / m1o8_1o8 variants map {0,1/2} to {-1/8,+1/8}, and the first variant maps {-1/8,1/8} to {-1/8,1/8}, with output noise independent of the input noise as long as the latter is below the margin.", "quantifier": "every ciphertext within the margin, every TFHE back end meeting its contract", "why_tests_cant": "all noise values", "anchors": ["src/tfhepp_util.cpp:317", "src/tfhepp_util.cpp:332", "src/tfhepp_util.cpp:349", "src/tfhepp_util.cpp:363", "src/tfhepp_util.cpp:378"]}
{"id": "C30", "title": "Offline run computes acceptance", "statement": "After feeding the inputs last-to-first, the offline runner's result decrypts to whether the DFA accepts the input word.", "quantifier": "every well-formed DFA, every input length and word, every bootstrapping frequency whose noise budget fits, every thread schedule, every TFHE back end meeting its contract", "why_tests_cant": "all DFAs, words and lengths; unreached states hold stale buffers", "anchors": ["src/offline_dfa.cpp:7", "src/backstream_dfa_runner.cpp:44 BackstreamDFARunner::eval", "src/backstream_dfa_runner.cpp:36 result"]}
{"id": "C31", "title": "Reverse online run reports acceptance of every prefix", "statement": "After any number of inputs, the reverse runner's result decrypts to whether the DFA accepts the prefix consumed so far; with --spec-reversed the given specification is used as the mirrored automaton.", "quantifier": "every well-formed DFA, every word, every prefix, every schedule, every frequency within the noise budget", "why_tests_cant": "all histories", "anchors": ["src/online_dfa.cpp:100 OnlineDFARunner2", "src/backstream_dfa_runner.cpp:44"]}
{"id": "C32", "title": "Block online run reports acceptance of every non-empty prefix", "statement": "After any history of eval_one and result calls with at least one input, the block runner's result decrypts to whether the DFA accepts the inputs so far; intermediate result calls do not disturb later results.", "quantifier": "every well-formed DFA, queue size, word and interleaving of result calls, every schedule", "why_tests_cant": "all histories and queue boundaries", "anchors": ["src/online_dfa.cpp:376 OnlineDFARunner4", "src/online_dfa.cpp:411 eval_queued_inputs"]}
{"id": "C33", "title": "FLUT online run reports acceptance of every prefix", "statement": "After any history of eval_one and result calls, the FLUT runner's result decrypts to whether the DFA accepts the inputs so far, provided the look-up table fits the ring.", "quantifier": "every well-formed DFA, queue size, LUT depth, bootstrapping frequency within the budget, word and interleaving of result calls, every schedule", "why_tests_cant": "all histories and queue boundaries", "anchors": ["src/online_dfa.cpp:120 OnlineDFARunner3", "src/online_dfa.cpp:244 eval_queued_inputs"]}
{"id": "C34", "title": "FLUT refuses too many live states and accepts every documented LUT depth", "statement": "A FLUT evaluation step exits with an error iff the number of next live states is at least 2^max-second-lut-depth; for every positive --max-second-lut-depth that passes the command line check, the run is either refused or correct.", "quantifier": "every DFA, every queue content, every positive depth", "why_tests_cant": "depths beyond log2 of the ring dimension only fail for large automata", "anchors": ["src/online_dfa.cpp:271", "src/main.cpp:193"]}
{"id": "C35", "title": "All encrypted run modes agree with the plaintext run", "statement": "For every specification and input file for which run plain prints a bit: encrypting the input, running it encrypted and decrypting the result prints the same bit. This holds for offline and reverse runs (also with a pre-reversed specification from spec2spec) on every input, for block runs on every non-empty input (on an empty one the block run aborts), and for FLUT runs whose live states always fit the lookup table. It holds however the ciphertext prefetch thread and the parallel loops are scheduled, and no other file changes.", "quantifier": "every file system content, specification, input file, mode, and schedule of the loader thread and of the parallel loops", "why_tests_cant": "all specifications and inputs, including the empty input", "anchors": ["src/main.cpp:239 do_enc", "src/main.cpp:253 do_run_offline", "src/main.cpp:314 do_run_reverse", "src/main.cpp:368 do_run_flut", "src/main.cpp:436 do_run_block", "src/main.cpp:466 do_dec", "src/main.cpp:524 do_run_dfa_plain"]}
{"id": "C36", "title": "Results do not depend on thread scheduling", "statement": "Each parallel region writes each slot from at most one task and the value left in memory is the same for every interleaving of the tasks' steps, so every runner computes the same ciphertexts under every schedule.", "quantifier": "every interleaving of every parallel region in every history", "why_tests_cant": "schedules", "anchors": ["src/backstream_dfa_runner.cpp:60", "src/online_dfa.cpp:298", "src/online_dfa.cpp:345", "src/online_dfa.cpp:482", "src/online_dfa.cpp:206"]}
{"id": "C37", "title": "Obliviousness: public behaviour is independent of the inputs", "statement": "Two runs of the same runner on input sequences of equal length have the same observable behaviour: same failures, same live-state counts, same LUT depths, same operation counts, same times at which bootstrapping happens and outputs are written.", "quantifier": "every pair of equal-length ciphertext sequences, every runner and parameter choice, every TFHE back end", "why_tests_cant": "a hyperproperty over pairs of runs", "anchors": ["src/online_dfa.cpp", "src/backstream_dfa_runner.cpp", "README.md"]}
{"id": "C38", "title": "Look-up table selects the entry addressed by the input bits", "statement": "lookup_table leaves in slot 0 the entry whose index has the given bits, least significant first, with noise growing by one CMUX per level.", "quantifier": "every table of size 2^k and every k bits", "why_tests_cant": "all k", "anchors": ["src/online_dfa.cpp:190 lookup_table", "src/online_dfa.cpp:215 lookup_table_with_timer"]}
{"id": "C39", "title": "Offline input size is a contract", "statement": "An offline runner created for n inputs aborts on the (n+1)-th input and never before.", "quantifier": "every DFA, n and input sequence", "why_tests_cant": "all n", "anchors": ["src/backstream_dfa_runner.cpp:50"]}
{"id": "C40", "title": "Sanitisation is never silently ignored", "statement": "Constructing any runner with result sanitisation requested fails; no result is ever produced with the request ignored.", "quantifier": "every runner and every argument", "why_tests_cant": "decision rule over all arguments", "anchors": ["src/backstream_dfa_runner.cpp:25", "src/online_dfa.cpp:23", "src/online_dfa.cpp:141", "src/online_dfa.cpp:388"]}
{"id": "C41", "title": "Periodic outputs are the verdicts of the prefixes", "statement": "With an output directory, a reverse or FLUT run writes <i>.out for every positive i that is a multiple of the output frequency, plus <n>.out at the end, each file decrypts to the acceptance of the first i inputs, and no other file is touched.", "quantifier": "every word, frequency and specification, every schedule", "why_tests_cant": "all lengths and frequencies", "anchors": ["src/main.cpp:348", "src/main.cpp:416"]}
{"id": "C42", "title": "LTL monitors become NFAs over the bit encoding", "statement": "ltl2spec's automaton accepts a bit word iff it splits into whole valuations on which the monitor has a run (or, with --make-all-live-states-final, iff additionally a partial last valuation can be completed by a monitor edge); the printed specification reads back to that automaton; no automaton is produced when the monitor tests a proposition other than p0 .. p(n-1).", "quantifier": "every monitor automaton with BDD-labelled edges, every number of variables, every word", "why_tests_cant": "all automata, BDD shapes (skipped variables) and words", "anchors": ["src/graph.cpp:639 Graph::ltl_to_nfa_tuple", "src/graph.cpp:313 from_ltl_formula"]}
{"id": "C43", "title": "Reversed LTL automata", "statement": "from_ltl_formula_reversed accepts exactly the mirrored words of from_ltl_formula.", "quantifier": "every monitor automaton, every word", "why_tests_cant": "all words", "anchors": ["src/graph.cpp:321 from_ltl_formula_reversed", "src/graph.cpp:852 reversed_nfa_delta"]}
{"id": "C44", "title": "Timing summary totals", "statement": "dumpCSV prints, for every operation kind that was recorded, exactly one line, whose count and duration are the totals over all recorded samples of that kind.", "quantifier": "every sequence of recorded samples", "why_tests_cant": "all histories", "anchors": ["src/timeit.cpp:30 TimeRecorder::dumpCSV"]}
{"id": "C45", "title": "Weights and bit strings", "statement": "uint2weight followed by weight2bitstring shows the 64 bits of the integer, least significant first, followed by zeros.", "quantifier": "every 64-bit integer and ring dimension", "why_tests_cant": "all 2^64 integers", "anchors": ["src/tfhepp_util.cpp:404 uint2weight", "src/tfhepp_util.cpp:416 between_25_75", "src/tfhepp_util.cpp:437 weight2bitstring"]}
{"id": "C46", "title": "The legacy online runner never reports a wrong verdict", "statement": "OnlineDFARunner either refuses to be constructed or aborts when a result is requested; it never returns a ciphertext in the wrong message space.", "quantifier": "every DFA and history", "why_tests_cant": "all histories", "anchors": ["src/online_dfa.cpp:38 OnlineDFARunner::result", "src/online_dfa.cpp:11"]}
{"id": "C47", "title": "Encrypted counter automata agree with the plaintext counter runner", "statement": "BTTRunner's accept bit equals BTTPlaintextRunner's accept bit after every input.", "quantifier": "every binarised temporal tester and every input word", "why_tests_cant": "all automata and histories; the random test in counter.cpp uses one automaton whose only singleton live set is state 0", "anchors": ["src/counter.cpp:531 BTTRunner::eval_queued_inputs", "src/counter.cpp:624 BTTPlaintextRunner::eval_one"]}
{"id": "C48", "title": "Encrypted counters count down to zero", "statement": "A counter of w bits initialised with v, after k applied borrows, holds v-k modulo 2^w, and its zero test is 1 iff that is 0; reset restores v.", "quantifier": "every width, initial value and history of borrow/reset operations", "why_tests_cant": "all histories and wrap-around", "anchors": ["src/counter.cpp:138 Counter", "src/counter.cpp:184 minus_one", "src/counter.cpp:162 is_zero"]}
{"id": "C49", "title": "Key files", "statement": "genkey followed by genbkey leaves two key files that every later command accepts, and touches no other file.", "quantifier": "every file system content, every two different paths", "why_tests_cant": "all contents and path names", "anchors": ["src/main.cpp:225 do_genkey", "src/main.cpp:231 do_genbkey", "src/archive.hpp:13 read_from_archive", "src/archive.hpp:49 write_to_archive"]}
{"id": "C50", "title": "The counter self-test never fails", "statement": "The test program of counter.cpp, which feeds the same input bits to BTTRunner (encrypted) and to BTTPlaintextRunner on its built-in tester and compares the decrypted answer with the plaintext answer after every input, never finds a difference. With its built-in tester the encrypted answer after an input is yes exactly when one of the last twelve inputs was 1. A tester is built exactly when its initial state is 0 and its edges are listed state by state, the edge on 0 before the edge on 1; any other list stops with an assertion failure.", "quantifier": "every input word of any length the random generator may produce, every ciphertext of those bits, every order in which the parallel reduction of the zero test combines its operands", "why_tests_cant": "the test draws one random word per run; only a proof covers all words and all reduction orders", "anchors": ["src/counter.cpp:653 test", "src/counter.cpp:531 BTTRunner::eval_queued_inputs", "src/counter.cpp:624 BTTPlaintextRunner::eval_one"]}
{"id": "C51", "title": "The command line means what the manual says", "statement": "Every command line that names a subcommand, gives each of its options once in any order and its positional arguments in their order runs exactly that command with those values; every other command line is refused before anything is read, written or printed. The sessions of README.md therefore work as typed: genkey, genbkey, enc, run, dec print what run plain prints for each encrypted runner, and ltl2spec | spec2spec --minimized | spec2dot prints the picture of a smallest automaton of the formula. The options --out-dir and --sanitize-result are refused everywhere.", "quantifier": "every list of argument words (apart from the spellings name=value, dashes without a letter, repeated flags, numbers not in plain decimal and misplaced subcommand names, which are left open), every file system, every standard input, every formula and monitor, every schedule", "why_tests_cant": "there are infinitely many argument lists, orders and file contents", "anchors": ["src/main.cpp:590 main", "src/main.cpp:67 register_general_options", "src/main.cpp:112 register_run_common", "src/main.cpp:663 dispatch", "README.md:25"]}
{"id": "C52", "title": "spec2dot draws the automaton", "statement": "What spec2dot prints is a well-formed DOT text with exactly one reading. It draws one node per state, an edge with the right label per transition, a double circle exactly for the final states and an arrow into the initial state and nothing else, and two automata with the same picture are the same.", "quantifier": "every well-formed automaton and specification of any size", "why_tests_cant": "all automata, and the absence of any other reading of the text", "anchors": ["src/graph.cpp:593 dump_dot", "src/main.cpp:497 do_spec2dot"]}
{"id": "C53", "title": "The plain randomised test reports exactly the differences there are", "statement": "test_plain_random's oracle says yes to a word exactly if the formula's monitor can read its valuations one after another. A word passes if and only if the automaton of the formula, its reversal, the directly reversed automaton and their minimised forms all give that verdict, and any other verdict stops the program. For every file of formulas, 1 to 32 propositions and all random words the program ends without reporting a difference; with 0 or more than 32 propositions its behaviour is undefined.", "quantifier": "every file of formulas, every monitor meeting the Spot contract whose edges lead to states with edges, every number of propositions, every sequence of random lengths and bits, every six automata to compare", "why_tests_cant": "this is the test: it looks at 300 words per formula and one seed, the claim is about all formulas, words and wrong automata", "anchors": ["src/test_plain_random.cpp:38 check_if_accept", "src/test_plain_random.cpp:85 int2bvec", "src/test_plain_random.cpp:96 random_bvec", "src/test_plain_random.cpp:121 test_from_ltl_formula"]}
{"id": "C54", "title": "The encrypted randomised test passes if the encrypted runs are right", "statement": "For every formula and word, test_crypto_random runs the encrypted automaton on the word that the oracle gets, and the decrypted verdict of each of its three methods equals the oracle's, so the program ends without reporting a difference.", "quantifier": "every formula's monitor meeting the Spot contract, every word of whole valuations, the three methods, every implementation of the TFHEpp functions within the noise contract", "why_tests_cant": "all formulas, words, keys and noises", "anchors": ["src/test_crypto_random.cpp:173 create_table_to_permutate_input_bits", "src/test_crypto_random.cpp:203 permutate_input_bits", "src/test_crypto_random.cpp:236 test_from_ltl_formula"]}
{"id": "C55", "title": "The benchmark program prints right results and sizes", "statement": "For every specification and input file, benchmark plain, reversed, qtrlwe2 and bbs print one result line after every out-freq inputs, with the automaton's verdict (the mirrored word's, under --spec-reversed) on the inputs read so far, and benchmark offline prints the verdict on the whole input, except that it prints 0 when there is no input. plain prints every state of the run. The printed numbers of states and inputs are those of the automaton the method works on (for reversed the smallest one of the mirrored language) and of the input; every num_live_states line is the number of states reachable with the inputs consumed at that moment. qtrlwe2 stops with an error exactly when a lookup table would be too short. With --sanitize-result every method stops with an error. The output of a method starts with its name and the settings it was given, one line each, and every other line is under one of a fixed list of keys.", "quantifier": "every specification with at least one state, every input file of whole valuations, every out-freq, queue size, bootstrapping interval and table depth, every implementation of the TFHEpp functions within the noise contract", "why_tests_cant": "all automata, inputs, frequencies, keys and noises", "anchors": ["src/benchmark.cpp:38 enc_run_dec_loop", "src/benchmark.cpp:234 do_plain", "src/benchmark.cpp:265 do_offline", "src/benchmark.cpp:321 do_reversed", "src/benchmark.cpp:362 do_qtrlwe2", "src/benchmark.cpp:405 do_bbs"]}
{"id": "C56", "title": "The operation counts of the benchmark are exact", "statement": "The table printed by benchmark reversed counts inputs times states CMUXes and (inputs divided by the bootstrapping interval) times states bootstrappings. The table of benchmark bbs counts one CMUX per reachable state and input, and for each evaluation that starts from more than one reachable state the lookup of its number, bit by bit: that many circuit bootstrappings and a CMUX for each inner node of the lookup tree. A line is printed for exactly the operations that occurred, for every order of the recorder's map.", "quantifier": "every specification, input, out-freq, interval and queue size, all measured durations with sums below 2^63 microseconds, every iteration order of the recorder's map", "why_tests_cant": "all automata and schedules of evaluations; the counts feed published performance comparisons", "anchors": ["src/benchmark.cpp:321 do_reversed", "src/benchmark.cpp:405 do_bbs", "src/timeit.cpp:19", "src/online_dfa.cpp OnlineDFARunner4", "src/backstream_dfa_runner.cpp"]}
{"id": "C57", "title": "The benchmark's command line, and the agreement of its methods", "statement": "Each method of benchmark accepts its documented options in any order, with or without --verbose, and every other command line is rejected (apart from spellings listed as left open). Given the same specification, input and out-freq, plain, reversed, qtrlwe2 and bbs print the same results, and offline prints the last of them when out-freq divides the number of inputs.", "quantifier": "every command line, every specification and input within the limits of C55, every clock reading and date", "why_tests_cant": "all command lines; all pairs of methods on all inputs", "anchors": ["src/benchmark.cpp:444 main"]}
{"id": "C58", "title": "Interrupted commands leave nothing that is misread", "statement": "Whenever a command is killed or aborts, only its own outputs may have changed. An interrupted enc leaves its output as it was, or a file that every run command refuses, or a complete ciphertext file for the first bits of the input, whose answer is the automaton's on those bits. An interrupted run leaves each output as it was, refused by dec, or right; with per-file reports at most one of them is incomplete and all reports due before it are complete and right. dec refuses every proper prefix of a result. An interrupted genkey or genbkey leaves the old file, the whole key, or a file that every reader refuses (when the archive reader rejects proper prefixes).", "quantifier": "every crash point of every command: each byte of each file, every position of the loader thread and of the caller; every specification, input, key and option within the limits of C35", "why_tests_cant": "all crash points and schedules; a test kills at a few moments", "anchors": ["src/archive.hpp:49 write_to_archive", "src/main.cpp:225 do_genkey", "src/main.cpp:239 do_enc", "src/main.cpp:253 do_run_offline", "src/main.cpp:314 do_run_reverse", "src/main.cpp:368 do_run_flut", "src/main.cpp:436 do_run_block", "src/main.cpp:466 do_dec"]}
{"id": "C59", "title": "Killed commands can simply be run again", "statement": "In a session genkey, genbkey, enc, run, dec, each command may be killed any number of times, at any moments, before it is finally run to its end. Every one of these final runs succeeds, and dec prints the automaton's verdict on the input.", "quantifier": "all numbers of failed attempts, all crash points of each of them, all random choices of each attempt at enc, every specification, input and option within the limits of C35, all four encrypted modes", "why_tests_cant": "all histories of crashes", "anchors": ["src/main.cpp:225 do_genkey", "src/main.cpp:231 do_genbkey", "src/main.cpp:239 do_enc", "src/main.cpp:253 do_run_offline", "src/main.cpp:314 do_run_reverse", "src/main.cpp:368 do_run_flut", "src/main.cpp:436 do_run_block", "src/main.cpp:466 do_dec"]}
{"id": "C60", "title": "The counter program's self-test tells the truth", "statement": "When the self-test of the program counter ends, standard error holds the numbers of its five tests followed by reports. Every report describes, with its inputs, both answers and both states, the first difference between the encrypted and the plaintext runner that this test met within its first 10000 inputs; and there is no report exactly if the two runners agree on the first 10000 inputs of all five tests. With a working cryptosystem nothing is ever reported and nothing fails. The self-test always ends, and once a difference has been recorded no test begins another input.", "quantifier": "every interleaving of the five parallel tests, all bits drawn, all ciphertexts, all orders of the parallel reductions, every cryptosystem (also a broken one)", "why_tests_cant": "the schedule and the bits are random; a self-test cannot check that it would notice", "anchors": ["src/counter.cpp:653 test", "src/counter.cpp:645 BTTPlaintextRunner::dump", "src/counter.cpp:497 BTTRunner::dump", "src/counter.cpp:745 main"]}
{"id": "C61", "title": "The counter program uses keys that belong together", "statement": "The program counter keeps its keys in the files _skey and _bkey. Once a run has got its keys, every later run uses the same ones and changes no file. Starting in a directory without _bkey, whatever runs are made and whenever they are killed, each run uses a secret key and an evaluation key that belong together, or refuses the archives.", "quantifier": "all histories of runs, every crash point of each of them, all keys that the runs would generate", "why_tests_cant": "all histories and crash points", "anchors": ["src/counter.cpp:745 main", "src/archive.hpp:49 write_to_archive", "src/archive.hpp:13 read_from_archive"]}
{"id": "C62", "title": "The test script judges rightly, and the shipped specifications mean what it says", "statement": "test_homfa.sh ends for every list of checks, and it succeeds if and only if every check expects what the specification says about the word in the input file; it changes no file but its four scratch files. For the checks and files that are shipped it always succeeds. test/10.spec accepts exactly the words whose number of ones is a multiple of nine, the mirrored specifications accept exactly the mirrored words, and the families of words in the script's comments are judged as written there for every number of repetitions.", "quantifier": "all lists of checks in all six modes, all file systems with or without keys from earlier runs, all random choices of enc, all thread schedules, all words for the specifications", "why_tests_cant": "the script is the test: that it would fail for a wrong answer, and succeeds for every key, noise and schedule, is not something one run of it can show", "anchors": ["test_homfa.sh:25 enc_run_dec", "test_homfa.sh:61 check_true", "test_homfa.sh:66 check_false", "test/01.spec", "test/01_rev.spec", "test/10.spec", "test/10_rev.spec", "bench.sh:30", "bench_ltl.sh:28"]}
{"id": "C63", "title": "Reversing twice prints a canonical form", "statement": "Two specifications accept the same words if and only if `spec2spec --reversed | spec2spec --reversed` prints the same text for both. That text is an automaton that accepts the words of the specification, and no automaton that accepts them has fewer states. The results of minimising two specifications that accept the same words differ only in the names of the states.", "quantifier": "all specifications that can be read (and are not blank), all pairs of them, all words", "why_tests_cant": "whether two automata are equivalent quantifies over all words, and the canonical form over all automata for one language", "anchors": ["src/main.cpp:482 do_spec2spec", "src/graph.cpp:434 Graph::reversed", "src/graph.cpp:248 Graph::from_nfa", "src/graph.cpp:577 Graph::dump", "src/graph.cpp:444 Graph::minimized"]}
{"id": "C64", "title": "The benchmark test script compares rightly", "statement": "test_benchmark.sh ends for every list of tests. It succeeds if and only if every test has at least thirty input bits and, after every thirty of them, its second specification says of the reversed input what the first says of the input; it changes no file but its three logs. So the four encrypted methods never make it fail within their noise budgets, and a wrong mirrored specification does if it is wrong at one of the places compared. For the tests and files that are shipped it always succeeds.", "quantifier": "all lists of tests, all pairs of specifications, all inputs, all file systems, all measured durations, times of day and orders of the printed tables", "why_tests_cant": "the script is the test: that it would fail for a wrong specification, and that it cannot fail for a reason in timing, noise or text processing, is not something one run of it can show", "anchors": ["test_benchmark.sh:15 run_benchmark", "test_benchmark.sh:75 run_test", "test_benchmark.sh:96", "src/benchmark.cpp:234 do_plain", "src/benchmark.cpp:321 do_reversed", "src/benchmark.cpp:25 print"]}
{"id": "C65", "title": "What the encrypted counter runner answers in every case", "statement": "For every tester, queue size and history of inputs and questions, the decrypted answers of the encrypted counter runner, and the state and counters it dumps, are those of a small machine on plain bits and numbers: each round tests every counter once and then reads all waiting inputs; the effects of all edges walked apply, counters are reset before they are decremented, and marks on one bit count modulo 4; when only one state is possible the round starts in state 0, at the first even position at which state 0 is possible. The runner throws exactly when there is no such position, in the same round.", "quantifier": "all testers (any edges, resets, increments with repetitions, targets that need not fit), all queue sizes, all histories, all ciphertexts within the noise budget, all orders of the parallel reductions", "why_tests_cant": "the runner departs from the plaintext runner in ways that depend on the tester, the queue size and the whole history; only a statement over all of them says what it computes instead", "anchors": ["src/counter.cpp:423 BTTRunner", "src/counter.cpp:507 eval_block_cmuxs", "src/counter.cpp:531 eval_queued_inputs", "src/counter.cpp:183 Counter::minus_one", "src/counter.cpp:386 alter_weight", "src/counter.cpp:497 dump"]}
{"id": "C66", "title": "The verdicts are about the formula", "statement": "Take a formula whose monitor Spot translates rightly, the specification that ltl2spec prints for it (or spec2spec --minimized makes of that), and an input file with one or more valuations. The verdict that run plain prints, and that dec prints after genkey, genbkey, enc and any of the four encrypted runs, is 1 if and only if the valuations can be continued to an infinite sequence that satisfies the formula. So a verdict 0 is final and no continuation satisfies the formula; on a sequence that satisfies it every verdict is 1; and if a sequence violates a safety formula, the verdict is 0 from some finite time on. With --make-all-live-states-final the same holds after every single bit.", "quantifier": "all formulas, numbers of propositions, valuations and infinite sequences, all file contents and orders of options, all ciphertexts within the noise budget", "why_tests_cant": "the claim quantifies over infinite sequences and over all formulas; a test can only compare finitely many finite prefixes with a verdict somebody worked out", "anchors": ["src/graph.cpp:639 Graph::ltl_to_nfa_tuple", "src/main.cpp:474 do_ltl2spec", "src/main.cpp:482 do_spec2spec", "src/main.cpp:524 do_run_dfa_plain", "src/main.cpp:253 do_run_offline", "src/main.cpp:314 do_run_reverse", "src/main.cpp:436 do_run_block", "src/main.cpp:368 do_run_flut"]}
{"id": "C67", "title": "What a run does with a ciphertext file depends only on how many ciphertexts are in it", "statement": "Give any of the four encrypted runs a ciphertext file that consists of whole ciphertexts, whatever the bytes are: corrupted, made with another key, or made up. Whether the run succeeds, which files it writes and how long they are is determined by the specification, the options and the number of ciphertexts alone, for every implementation of the TFHE functions. Offline and reversed runs always succeed; a flut run is refused exactly when too many states are reachable at some flush; a block run is refused exactly when the file is empty. A file that is not a whole number of ciphertexts is refused by all of them. dec prints 0 or 1 for every result file, and the number of ciphertexts enc writes depends on the size of its input only.", "quantifier": "all byte contents of the ciphertext file, all implementations of the TFHE functions, specifications, options and schedules", "why_tests_cant": "nobody can feed every sequence of bytes, nor every key, to the server, and a test uses one implementation of the TFHE functions", "anchors": ["src/main.cpp:253 do_run_offline", "src/main.cpp:314 do_run_reverse", "src/main.cpp:368 do_run_flut", "src/main.cpp:436 do_run_block", "src/main.cpp:466 do_dec", "src/main.cpp:239 do_enc", "src/tfhepp_util.hpp:77 ReversedTRGSWLvl1InputStreamFromCtxtFile, TRGSWLvl1InputStreamFromCtxtFile"]}
{"id": "C68", "title": "Commands can run at the same time", "statement": "Let any number of processes run in one directory at the same time, each a list of commands (genkey, genbkey, enc, the four encrypted runs, dec, run plain) executed one after another. If no process writes a file that another one reads or writes, then in whatever order the processes and their threads make their steps, all of them end; each prints what it prints when it runs alone and leaves the files it leaves then; and all other files stay as they are. So any number of users sharing keys, specifications and inputs, each encrypting, running and decrypting under file names of their own, all read the answers of the plaintext run. Each command reads and writes only the files on its command line. The condition cannot be dropped: genbkey that starts while genkey writes the key anew may fail.", "quantifier": "all numbers of processes, all lists of commands with their options, all directory contents, all interleavings of processes, loader threads and parallel loops", "why_tests_cant": "the interleavings of processes are not under the control of a test, and their number grows exponentially with the number of steps", "anchors": ["src/main.cpp:225 do_genkey", "src/main.cpp:231 do_genbkey", "src/main.cpp:239 do_enc", "src/main.cpp:253 do_run_offline", "src/main.cpp:314 do_run_reverse", "src/main.cpp:368 do_run_flut", "src/main.cpp:436 do_run_block", "src/main.cpp:466 do_dec", "src/main.cpp:524 do_run_dfa_plain", "src/archive.hpp:13 read_from_archive, write_to_archive", "src/tfhepp_util.cpp:99 input streams"]}
{"id": "C69", "title": "The unit test program and the whole test script never fail by chance", "statement": "For every key, all random choices and every order in which threads proceed, test0 ends. Its tests of serialisation and of the two input streams always pass, so its result is decided by the automata alone; it changes no file but _test_in. With the specifications in test/ it succeeds if and only if ltl2spec prints the expected automaton for four formulas. test_homfa.sh as a whole - test0, the conversion to AT&T and back, the keys, the checks - then succeeds exactly under the same condition on Spot.", "quantifier": "all contents of the other files, all ciphertext words, all behaviours of Spot, all random choices of enc, all thread schedules", "why_tests_cant": "one run of a test program shows one key, one encryption and one schedule; whether it can fail or hang in another one is a statement about all of them", "anchors": ["src/test0.cpp:26 test_graph_dump", "src/test0.cpp:121 test_graph_reversed", "src/test0.cpp:158 test_graph_minimized", "src/test0.cpp:206 test_monitor", "src/test0.cpp:275 test_negated", "src/test0.cpp:370 test_serializer_deserializer", "src/test0.cpp:391 test_input_stream", "test_homfa.sh:72", "test_homfa.sh:77"]}
{"id": "C70", "title": "Determinisation does not depend on how the states are numbered", "statement": "What spec2spec prints for a nondeterministic specification does not depend on the numbers of its states or on the order in which targets are listed: renumbering gives the very same text with every combination of --minimized, --reversed and --negated. With --reversed this holds for deterministic specifications too; without it the numbering of a deterministic specification stays visible. More exactly, two nondeterministic specifications give the same text if and only if they accept the same words and the same pairs of words lead to the same set of states.", "quantifier": "all pairs of specifications, all renumberings, all options", "why_tests_cant": "the order in which sets are enumerated could depend on the numbers in some larger automaton; a test compares finitely many numberings of finitely many automata", "anchors": ["src/graph.cpp:248 Graph::from_nfa", "src/graph.cpp:107 Graph::from_istream", "src/graph.cpp:434 Graph::reversed", "src/main.cpp:482 do_spec2spec"]}
{"id": "C71", "title": "A truncated specification is noticed, with exactly known exceptions", "statement": "Take a specification that the program printed and whose states are all reachable, and keep any initial part of the text (full disk, interrupted copy, killed process). Reading it back fails, or leaves an automaton without states whose every use fails, or gives the same automaton (exactly when nothing but the final newline is missing), or the cut went through the last number of a row and left a smaller number (only with eleven or more states), or the cut was made before the row of the initial state. For what spec2spec prints from a nondeterministic specification or with --reversed, with up to ten states and any other option, a plaintext run over the truncated file therefore never gives a wrong answer. With eleven states, with a deterministic specification whose initial state is not the first row, and in the AT&T format, a truncation can go unnoticed and change the language.", "quantifier": "every automaton, every place where the text is cut, every input of the later run", "why_tests_cant": "the cut can be made at any character of any printed automaton; whether the remaining rows happen to be closed is a global property of the automaton", "anchors": ["src/graph.cpp: Graph::dump", "src/graph.cpp: Graph::from_istream", "src/graph.cpp: Graph::from_att_istream", "src/graph.cpp: Graph::dump_att", "src/main.cpp: do_spec2spec"]}
{"id": "C72", "title": "A full disk does not lead to wrong answers", "statement": "Let the disk have room for any number of bytes of a command's output, and let the output stream pass its bytes on in any way its buffer allows. enc changes no other file; if it reports success and the buffer is smaller than a ciphertext, its output is complete or every run command refuses it; with enough room it does what it does on an unlimited disk. A key or result archive that did not fit is refused by every reader (dec never prints an answer from it), even if the write was reported as successful, which happens exactly when no more bytes than the buffer holds are missing. A truncated printed specification is covered as in C71. If an output cannot be opened for writing at all, the command fails and no file changes. Success may be reported although the file is incomplete: the error of the final flush is ignored; with a buffer of a ciphertext or more, enc can silently leave fewer ciphertexts than there are inputs.", "quantifier": "every disk size, buffer size and flushing behaviour, an output that can be opened or not, every input, key and result", "why_tests_cant": "a full disk can strike at every byte, and its effect depends on how the library buffers; a test fixes one point and one library", "anchors": ["src/tfhepp_util.cpp: TRGSWLvl1FFTSerializer::save_binary, save", "src/archive.hpp: write_to_archive", "src/main.cpp: do_genkey, do_genbkey, do_enc, do_dec, do_spec2spec"]}
{"id": "C73", "title": "Pipelines of spec2spec have five results, up to negation", "statement": "For every readable specification and every pipeline of one or more `spec2spec` calls with any options, what the pipeline prints is determined by three things: whether the number of --negated is odd, the number of --reversed, and whether --minimized is given anywhere. Without --reversed, and with one, only the presence of --minimized matters, not where or how often it is given; from the second --reversed on --minimized makes no difference and only the parity of the number of --reversed counts; an odd number of three or more is `--minimized --reversed`. So printing a printed specification again changes nothing, negating twice cancels, minimising is idempotent, negation commutes with everything, and minimising commutes with reversing, all as texts, state numbers included. Every pipeline prints what one call prints, or two for an even number of --reversed. Pipelines that differ in these three things print different texts for some specification. With two --reversed, or one and --minimized, the text depends on the set of accepted words only, and two specifications give the same text exactly when they accept the same words. The printed specification accepts the words of the original, mirrored and complemented according to the parities.", "quantifier": "every readable specification, every finite sequence of calls with every combination of the three options; texts between calls of at most 2^31 characters", "why_tests_cant": "The sequences of calls are unbounded and the claim is textual equality for every automaton, including the numbering of the states, which depends on the order of several nested loops (union-find classes, subset construction, table filling).", "anchors": ["src/main.cpp: do_spec2spec", "src/graph.cpp: Graph::minimized, Graph::removed_unreachable, Graph::grouped_nondistinguishable, Graph::reversed, Graph::negated, Graph::from_nfa, Graph::dump, Graph::from_istream"]}
{"id": "C74", "title": "What benchmark has printed is right at any moment, also when it is killed or stops with an error", "statement": "A command line that the manual does not list prints nothing and is an error. Whenever one looks at the output of `benchmark`, after a kill, an error or while it runs, the lines there are the beginning of what it would print: first the date and the complete configuration as given on the command line, then only the documented keys. Every `result` line printed so far is the verdict of the corresponding prefix of the input, in order and without gaps. If the specification cannot be read, or the input is missing or is not a sequence of whole valuations, or --sanitize-result is given to a method with ciphertexts, the program stops with an error and no result line has been printed. `qtrlwe2` stops with an error exactly when 2^max-second-lut-depth or more states are possible after some evaluation of the queue; it stops while it handles the input of the first such evaluation, every result due before has been printed, and the live state numbers printed are right.", "quantifier": "every file system, specification, input, number of propositions, every positive frequency and queue size within the noise margins, every prefix of the output lines", "why_tests_cant": "The moment of the kill and the input at which qtrlwe2 gives up depend on the schedule and on the automaton; a test sees one stopping point.", "anchors": ["src/benchmark.cpp: print, print_elapsed, enc_run_dec_loop, do_plain, do_offline, do_reversed, do_qtrlwe2, do_bbs, main", "src/online_dfa.cpp: OnlineDFARunner3::eval_queued_inputs"]}
{"id": "C75", "title": "A run command on a full disk, or with outputs it cannot open, never leaves a wrong answer", "statement": "Whatever space the disk has, also when it shrinks while the command writes, and whichever outputs cannot be opened for writing, `run offline`, `reverse`, `flut` and `block` end with success or with an error exit. At every moment (killed or not) each result file, the one given by --out or those in --out-dir, is as it was before, or refused by `dec`, or decrypts to the verdict of its prefix of the input; no other file changes; and once a later report has been touched no earlier report is stale. If every result fits, the command succeeds and all results are right; if a result lacks more bytes than the stream's buffer holds, the command fails; if a result cannot be opened, it fails with an assertion and with --out no file has changed. When a command with --out-dir has failed at some report, every earlier report has been written (and is right if there was room for it) and no later one has been touched.", "quantifier": "every file system, specification, ciphertext file, report frequency, amount of space as a function of the files and the path, set of files that can be opened (it may change with the files), buffer size and flushing behaviour, every schedule, every moment", "why_tests_cant": "The byte at which the disk is full, the moment a flush happens and the interleaving with the loader thread cannot be enumerated.", "anchors": ["src/main.cpp: do_run_offline, do_run_reverse, do_run_flut, do_run_block", "src/archive.hpp: write_to_archive"]}
{"id": "C76", "title": "The log of a run is right, at every moment and verbosity", "statement": "For every file of n ciphertexts, `run offline`, `reverse`, `flut` and `block` log, in order: one line per line of the specification that is not a row; the parameters, with the right number of inputs, the number of states of the automaton that is run (for offline and reverse the smallest one), the queue size, frequencies and destination; a warning exactly if reports are asked for at a distance that is not a multiple of the queue size; with --verbose also one line per input and one at every bootstrapping, and for flut at every evaluation of the queue the numbers of states reachable before and after it and the split of the tables. `Total #CMUX` is the number of CMUXes that the run then performs. Nothing more is logged, with --quiet nothing is seen, without --verbose no debug line appears, and what is logged at any moment is a beginning of this log. The verbosity does not change the results.", "quantifier": "every specification file, ciphertext file (any contents), option values, implementation of TFHE, verbosity, schedule and moment", "why_tests_cant": "The log is a function of the whole specification, of all inputs and of the reachable states after every number of inputs; a test sees single runs.", "anchors": ["src/main.cpp: do_run_offline, do_run_reverse, do_run_flut, do_run_block, register_general_options, main", "src/graph.cpp: Graph::from_istream", "src/backstream_dfa_runner.cpp: BackstreamDFARunner::eval", "src/online_dfa.cpp: OnlineDFARunner3::eval_queued_inputs", "src/error.hpp: error::initialize"]}
{"id": "C77", "title": "A run may be started while its input is still being written", "statement": "Whatever is appended to the ciphertext file of a running `run offline`, `reverse`, `flut` or `block`, at whatever moments, the command ends as if the file had stayed as it was when the command opened it. So a run started while `enc` is still writing either stops at once, if the file then holds a broken ciphertext, or answers for the first n bits, n being the number of ciphertexts in the file at that moment. If bytes are also cut off at the end, the run ends in the same way or stops with a failed assertion. At every moment, also when it is killed, the files it has written are files that it could have written with an unchanged input. (A file that is overwritten with other values while it is read can be delivered half old and half new.)", "quantifier": "every command line, ciphertext file of any contents, number of bytes enc has written, and every interleaving of appends and cuts with the steps of the command's two threads and of its parallel regions", "why_tests_cant": "The moments at which the file changes relative to the prefetching thread are chosen by the scheduler; a test sees a few of them.", "anchors": ["src/tfhepp_util.cpp: TRGSWLvl1InputStreamFromCtxtFile, ReversedTRGSWLvl1InputStreamFromCtxtFile, TRGSWLvl1FFTDeserializer", "src/main.cpp: do_run_offline, do_run_reverse, do_run_flut, do_run_block, do_enc"]}
{"id": "C78", "title": "A rejected specification is explained by its first wrong line", "statement": "Reading a specification reports every line that is not a row with one message, in order. If all rows are in order nothing else is said. Otherwise the reader stops at the first row that is wrong: if a list of targets has an empty entry before any number too large for an int, or the state number is not the number of rows before, exactly one complaint follows (with the backtrace announced and printed) and the tool exits; it gives the two state numbers. If instead a number is too large, the exception is not caught and nothing is said. So the tool exits because of a specification exactly if it has logged an error, and with --quiet this error is still shown. att2spec names the first line that is neither a transition nor a final state (again silent if only a number is too large), says nothing about files in order, and names a file that cannot be opened; every other reader of a missing file fails an assertion. So does ltl2spec on a formula that Spot cannot parse, and nothing is printed.", "quantifier": "every text given as specification or AT&T file, every formula that does not parse, every file system and file name, with or without --quiet", "why_tests_cant": "Which complaint is made depends on which of many defects comes first in a text of any length; tests try single defects in short files.", "anchors": ["src/graph.cpp: Graph::from_istream, Graph::from_file, Graph::from_att_istream, Graph::from_att_file", "src/error.hpp: error_die", "src/main.cpp: do_spec2spec, do_spec2dot, do_spec2att, do_att2spec"]}
{"id": "C79", "title": "What homfa logs for every command line", "statement": "A command line that the parser refuses logs nothing (the parser prints its own message). Every other one first logs the header: logo, how the program was built, the command line exactly as it was given, the profiling variables of the environment and the number of processors. Then each command logs what belongs to it and nothing else at level info or above: genkey, ltl2spec and enc and genbkey with a good key nothing; dec and run plain the result that is printed; the tools what they say about the specification they read; a file that holds no key or no ciphertext is named in an error; a missing subcommand is an error. (A run on ciphertexts is followed here up to its beginning; what it logs afterwards is C76.) The program exits with an error if and only if it has logged one, and this error is the last thing logged. With --quiet nothing is seen unless the program exits with an error, and then exactly this error is seen; without it everything is seen.", "quantifier": "every command line, every file system and standard input, every setting (build type, revision, environment, number of processors)", "why_tests_cant": "That no path ends with exit and without a message, and that no successful path logs an error, is a statement about all command lines, key files and specifications.", "anchors": ["src/main.cpp: dumpBasicInfo, main, print_result, do_genbkey, do_enc, do_dec, do_run_dfa_plain, do_spec2spec, do_spec2dot, do_spec2att, do_att2spec, register_general_options", "src/archive.hpp: read_from_archive", "src/error.hpp: error_die, initialize"]}
{"id": "C80", "title": "A run on ciphertexts that cannot be done says why, and touches no file", "statement": "For every file of ciphertexts: if the bootstrapping key file holds no bootstrapping key, if the specification has a bad row, if for flut the file given with --debug-skey holds no secret key, or if sanitized results are asked for, then `run offline`, `reverse`, `flut` and `block` exit with an error, having logged the lines of the specification that are no rows (as far as it was read) and then one error that names the reason (the file, what is wrong with the row, or that sanitization is not implemented), and no file is created or changed at any moment. Of several reasons the one that is met first is reported: the key before the specification with offline and reverse, after it with flut and block. A run of flut in which too many states are possible at some evaluation of the queue exits at the first such evaluation, having logged its parameters, everything about the inputs and evaluations before it, and an error with the number of states and the limit. These errors are seen at every verbosity, also with --quiet; and what is logged at any moment is a beginning of this log.", "quantifier": "every specification file, ciphertext file (any contents), key file, option values, implementation of TFHE, verbosity, schedule and moment", "why_tests_cant": "A test sees single broken files; that every broken file is reported with its reason, before anything is written and under every schedule, is a statement about all of them.", "anchors": ["src/main.cpp: do_run_offline, do_run_reverse, do_run_flut, do_run_block", "src/archive.hpp: read_from_archive", "src/graph.cpp: Graph::from_istream", "src/backstream_dfa_runner.cpp: BackstreamDFARunner", "src/online_dfa.cpp: OnlineDFARunner3, OnlineDFARunner4, eval_queued_inputs", "src/error.hpp: error_die, initialize"]}
{"id": "C81", "title": "A run on ciphertexts exits with an error only after logging it, and a run that succeeds has logged none", "statement": "Whatever the files hold and whatever options are given: if `run offline`, `reverse`, `flut` or `block` ends by exiting with an error, then it has logged exactly one error message, this is the last thing it has logged, and the message is there at every verbosity. If the run succeeds, it has logged no error message. With --quiet, errors are all that is logged. Nothing exits with an error before the input file is opened, nor when it is opened.", "quantifier": "every content of every file, option value, implementation of TFHE, verbosity and schedule of the loader thread", "why_tests_cant": "A test sees the exits it provokes; that no other computation of the run can exit silently, or report an error and go on, is a statement about every input and schedule.", "anchors": ["src/error.hpp: error_die, initialize", "src/main.cpp: do_run_offline, do_run_reverse, do_run_flut, do_run_block", "src/online_dfa.cpp: OnlineDFARunner3, OnlineDFARunner4, eval_queued_inputs", "src/archive.hpp: read_from_archive"]}
{"id": "C82", "title": "The whole standard error of a run on ciphertexts, from the command line", "statement": "For every command line of the manual that runs on ciphertexts (general flags, then `run offline`, `reverse`, `flut` or `block` with its options in any order), with a bootstrapping key, a specification that can be read and a file of ciphertexts: the program succeeds, and on its standard error is the header with the command line as given, followed by the log of the run, as far as the general flags let it through (--verbose: everything; --quiet, also together with --verbose: only errors; none: all but debug messages); at every moment before the end it is a beginning of this. If the key file holds no key, the program exits with an error, leaves the files alone, and the last thing on the standard error is a message that names the file. For every command line that runs on ciphertexts and whatever the files hold: if the program exits with an error, one error is on the standard error and it is the last thing there, also with --quiet; if it succeeds there is none.", "quantifier": "every command line of the manual (any order of options, any combination of the general flags), content of every file, implementation of TFHE, environment, schedule and moment", "why_tests_cant": "A test runs a few command lines on a few files; that the level, the header and the log fit together for every one of them, at every moment, is a statement about all.", "anchors": ["src/main.cpp: main, dumpBasicInfo, register_general_options, do_run_offline, do_run_reverse, do_run_flut, do_run_block", "src/error.hpp: initialize, error_die", "src/online_dfa.cpp: eval_queued_inputs", "src/backstream_dfa_runner.cpp: eval"]}
{"id": "C83", "title": "A failed write is reported with the name of the file that is incomplete", "statement": "Every run on ciphertexts (offline, reverse, flut, block) that exits with an error, whatever the files hold and however little the disk can hold, has logged exactly one error and this is the last thing in its log, also with --quiet. If the error is that a result could not be written, the reason is logged before it and the error names the file: it is the file of --out or one of the reports of --out-dir, it could be opened, it has as much of an encrypted result as it could hold and less than a whole one, and it was the last file written. With a key and a specification that can be read and without --sanitize, offline, reverse and block exit with no other error. A run that succeeds has logged no error. The log has no influence on the outcome or on the files. The same holds of the whole standard error of the program, for every command line that runs on ciphertexts.", "quantifier": "every content of every file, options, verbosity, implementation of TFHE, buffer size, space (which may depend on what is on the disk), way the bytes are handed over, set of files that can be opened, and schedule", "why_tests_cant": "A test fills the disk at one point of one run; here the write may fail at any result, after any number of bytes, with any schedule of the loader thread.", "anchors": ["src/archive.hpp: write_to_archive", "src/error.hpp: error_die", "src/main.cpp: do_run_offline, do_run_reverse, do_run_flut, do_run_block"]}
{"id": "C84", "title": "The verbose log of ltl2spec leads to the transition that cannot be translated", "statement": "With --verbose, ltl2spec logs its progress through the monitor: every state with the number of states, and every transition with its source and destination, in the order of the monitor, and for each transition a closing line once it is translated. If a specification is printed, the log is complete, with a closing line for every transition. If the formula has propositions beyond the number given on the command line, the last transition named in the log is the first one, in this order, whose condition depends on such a proposition, it has no closing line, and the command fails. The log has no influence on what is printed: without --verbose none of these lines is seen, and with --quiet nothing at all.", "quantifier": "every monitor, number of propositions, command line of ltl2spec, verbosity and content of the files", "why_tests_cant": "A test looks at the log of one formula; here the monitor has any number of states and transitions and the offending proposition may be anywhere in any condition.", "anchors": ["src/graph.cpp: Graph::ltl_to_nfa_tuple", "src/main.cpp: do_ltl2spec, main"]}
{"id": "C85", "title": "A key that does not fit on the disk is reported, at the latest by the next command", "statement": "genkey and genbkey, called from the command line on a disk that can be full: either the key is stored completely, nothing is logged and the command succeeds; or the standard error ends with the reason and an error that names the file, the command exits with an error, and the file has as much of the key as it could hold; or nothing is logged and the command succeeds although the key is incomplete, but then no more is missing than fits into the stream's buffer; or the file cannot be opened, is left as it was, and an assertion fails without a message in the log. In the two cases of an incomplete key the next command that reads it (genbkey, enc, dec; for an evaluation key every run on ciphertexts) logs an error that names this file, and exits. enc logs nothing about a failed write: it ends with a failed assertion. A secret key that cannot be read is named by genbkey and enc and no file is touched. With --quiet exactly the errors are seen. All other files stay as they were, and with room enough the outcome is that of the command on a disk that never fills up.", "quantifier": "every command line of the three commands, content of the files, implementation of TFHE, buffer size, space, way the bytes are handed over, and every command that reads the key afterwards", "why_tests_cant": "A test fills the disk at one byte; here the space, the buffer and the way the archive hands over its bytes are arbitrary.", "anchors": ["src/archive.hpp: write_to_archive, read_from_archive", "src/main.cpp: do_genkey, do_genbkey, do_enc, main", "src/tfhepp_util.cpp: save_binary", "src/error.hpp: error_die"]}
{"id": "C86", "title": "An option may be written with its value in one word", "statement": "In every command line each option that takes a value can be written --name value or --name=value, in any mixture and order, and the command does what the manual says. The value is everything after the first \"=\", and the word after --name is its value even if it looks like another option. Every command line is either in the manual in one of these spellings, or refused before anything is read, written or printed; this includes --name=value with an unknown name, with --out-dir and --sanitize-result, and an option given in both spellings. Left open are an empty value, a flag with a value, dashes without a letter, a repeated flag, a number not in plain decimal, and a misplaced name of a subcommand. Command lines without this spelling do what they do in C51. The same holds for the benchmark program and its manual.", "quantifier": "every list of argument words, every file system, every standard input, every implementation of TFHE and every monitor", "why_tests_cant": "there are infinitely many argument lists, and a test tries a few of the mixtures of the two spellings", "anchors": ["src/main.cpp:590 main", "src/main.cpp:67 register_general_options", "src/main.cpp:649 CLI11_PARSE", "src/benchmark.cpp:444 main"]}
{"id": "C87", "title": "The counter program takes nothing but a number of threads, which changes no key", "statement": "The program counter is called without arguments, with --cpu n or with --cpu=n, where n is a decimal int of at least 1. It then reads its two keys, or makes and writes them, in the same way whatever n is. Every other command line (a plain word, another option, --cpu without a number or with a word that is no number, --cpu twice) is refused before a key is read, made or written. Left open are strange words, 0, numbers that are no int, and other spellings of numbers.", "quantifier": "every list of argument words, every file system, every pair of keys and every file format of the keys", "why_tests_cant": "there are infinitely many argument lists, numbers and contents of key files", "anchors": ["src/counter.cpp:745 main", "src/counter.cpp:751 CLI11_PARSE"]}
