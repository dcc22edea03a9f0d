# A Rocq model of homfa

The source modelled is `/repo/src` (C++20). Everything is in `rocq/theories`,
logical name `Verif`, standard library only.

## 1. Conventions of the model

* **Outcomes.** Every C++ function that can stop the program is a function into
  `res A := Ok a | Fail f`. The faults are distinct: `FOutOfRange` (an
  `std::out_of_range` leaving `vector::at`/`map::at`/`stoi`), `FAssert` (a failed
  `assert`; `CMakeLists.txt` empties `CMAKE_CXX_FLAGS_RELEASE`, so `NDEBUG` is not
  defined in either build type and asserts are live), `FExit` (`error_die`),
  `FBadOptional` (`optional::value` on nothing), `FUndefined` (undefined
  behaviour: division by zero, out-of-bounds `operator[]`, data races, shift
  overflow), `FFuel` (a loop ran out of the model's fuel; proved impossible).
* **Loops** over a known range are folds. `while (!que.empty())` loops have a bound
  on their number of iterations that is computed from the input; running out is
  `FFuel`, and the theorems show that it does not happen.
* **Numbers.** Graph states (`int`) are `nat`; the placeholder `-1` is `None`.
  State counts above `2^31` are not modelled. Torus elements are `Z` modulo `2^32`
  with the wrap written explicitly; file sizes and sample counts wrap at `2^64`.
* **std::set<int>** is the strictly ascending list of its elements.
  `std::unordered_map` iteration order is left open (a relation up to permutation).
* **Threads.** Parallel regions (`std::for_each(par)`, `tbb::parallel_for`) are sets of
  small programs over shared cells, run under every interleaving, with arbitrary
  intermediate contents of half-written cells (`ParModel`). The ciphertext streams
  have a loader thread that interleaves with the caller step by step
  (`StreamModel`), and the commands are clients of such a stream (`ClientModel`).

## 2. Files

| model | what it models |
|-------|----------------|
| `Base` | outcomes, vectors, sets, loops |
| `GraphModel` | `graph.cpp`: constructors, subset construction, reversal, minimisation, grouping, depths, `transition64` |
| `TextModel` | `graph.cpp`: specification and AT&T readers and printers, the regular expressions, `stoi` |
| `BitsModel` | `utility.hpp` `each_input_bit`, `do_run_dfa_plain` |
| `CliModel` | the converters of `main.cpp` |
| `StreamModel` | `tfhepp_util.cpp/.hpp`: serialiser, deserialisers, input streams with their loader thread |
| `TorusModel` | `tfhepp_util.cpp`: torus, TLWE/TRLWE arithmetic, bootstrapping helpers, bit strings; the record `tfhe` of TFHEpp entry points |
| `RunnerModel` | `backstream_dfa_runner.cpp`, `offline_dfa.cpp`, `online_dfa.cpp`: all runners |
| `ParModel` | the parallel regions of those files as tasks with shared cells |
| `ClientModel`, `CmdModel` | `main.cpp`: genkey, genbkey, enc, run offline/reverse/flut/block, dec over a file system; `archive.hpp` |
| `CrashModel` | the same commands killed at any moment |
| `DiskModel` | genkey, genbkey, enc and `write_to_archive` on a disk that can be full |
| `DiskRunModel` | the run commands with any way to store a result, in particular on a disk that can be full |
| `LogModel` | the run commands with what they log, the messages of `from_istream`, `eval` and `eval_queued_inputs`, the errors of the archives, of the specification, of sanitization and of flut, the verbosity |
| `GrowModel` | the run commands while another process changes their input file |
| `MsgModel` | the readers of specifications with their messages, `error_die`, `from_att_file` |
| `SayModel` | `dumpBasicInfo`, `print_result`, `read_from_archive` with its message, the commands other than runs on ciphertexts with what they log, the switch of `main` with its messages, `--quiet` |
| `StderrModel` | `main` for the runs on ciphertexts with the level that the flags ask for, the header and the log |
| `LogDiskModel` | the runs on ciphertexts with their log on a disk that can be full, with the messages of a failed write |
| `LtlLogModel` | the debug messages of `ltl2spec` (`--verbose`), as they come while the monitor is translated |
| `KeyDiskModel` | `genkey`, `genbkey` and `enc` from the command line, on a disk that can be full, with their messages |
| `JoinedModel` | the command line of `MainModel` with options spelled `--name=value` in one word |
| `JoinedBenchModel` | the same for the benchmark program |
| `ProcModel` | the same commands as processes that run at the same time in one directory, step by step |
| `LtlModel` | `graph.cpp` 313-329, 625-867: automata from monitors, formulas that do not parse; `do_ltl2spec` |
| `DotModel` | `graph.cpp`: `dump_dot`; `do_spec2dot` |
| `MainModel` | `main.cpp`: the options of every subcommand, the parser, `main` |
| `RandomModel` | `test_plain_random.cpp`, `test_crypto_random.cpp` |
| `TimeModel` | `timeit.cpp` |
| `BenchModel` | `benchmark.cpp` |
| `BenchOutModel` | `benchmark.cpp` with the lines it has printed when it ends in an error |
| `CounterModel` | `counter.cpp`: encrypted counters, weights, both testers' runners; the record `gates` of the additional TFHEpp gates |
| `CtestModel` | `counter.cpp` 645-774: the self-test (five parallel tests, abort flag, messages) and the key files of `main` |
| `CtestCliModel` | `counter.cpp` 745-771: the command line (`--cpu`) and `main` up to the self-test |
| `ScriptModel` | `test_homfa.sh`: its commands and 46 checks, the files of `test/` it uses; the run commands of `bench.sh`, `bench_ltl.sh` |
| `Test0Model` | `test0.cpp`: the unit test program |
| `BenchScriptModel` | `test_benchmark.sh`: its commands, `grep`, `tail`, `diff` and redirections on file contents, its nine tests |

Specifications, written without the model's helpers: `Spec` (automata), `TextSpec`
(file formats), `InputSpec` (bits and streams), `TfheSpec` (phases, noise, contract of
TFHEpp), `RunnerSpec` (histories and their verdicts), `ObliviousSpec` (what an observer
sees), `CmdSpec` (contract of keys and archives), `LtlSpec` (monitors), `CounterSpec` (counters,
testers, contract of the gates), `DotSpec` (DOT texts and pictures), `MainSpec` (the manual), `JoinedSpec`, `JoinedBenchSpec` (the two spellings of an option), `RandomSpec` (agreement of monitors and automata),
`BenchSpec` (what the benchmark must print), `BenchManual` (its command lines), `ScriptSpec` (what a check of the test script means), `BenchScriptSpec` (what a test of the benchmark script means), `MachineSpec` (the machine of C65), `LtlSemantics` (LTL over infinite sequences, safety formulas, what the monitor of a formula must do), `ServerSpec` (files of ciphertexts and result files), `ProcSpec` (processes at the same time; users of the key files), `Test0Spec` (what a success of `test0` means), `NumberSpec` (renumbered specifications), `CutSpec` (truncated specifications), `PipeSpec` (the effect of a pipeline of `spec2spec` calls), `CtestSpec` (what the counter program's self-test means), `LogSpec` (the messages of a run), `MsgSpec` (what a reader must say about a text), `RefuseSpec` (runs that exit with an error: their log and that they leave the files alone), `BlameSpec` (errors in the log of a run), `LogDiskSpec` (the error of a failed write, for C83), `LtlLogSpec` (the progress that `ltl2spec` reports, for C84), `KeyDiskSpec` (what storing an archive on a full disk says and leaves, for C85), `StderrSpec` (the whole standard error of a run), `SaySpec` (the header as it is read, what each command says), `GrowSpec` (files that change in length).
`Conformance` runs the model on the inputs of `test0.cpp` and `test_homfa.sh` and compares with the
answers expected there; these are tests of the model, not theorems.
Proofs are in the `*Facts*` files and `FromNfa`, `GraphOps`, `GraphMore`, `Minimize`,
`Quotient`, `TextClaims`, `Canonical`, `Numbering`. The theorems of the manifest are in the `Props*` files, each
followed by an example that meets its hypotheses and by `Print Assumptions`.

## 3. Trusted base

* Coq 8.16.1's kernel (`vm_compute` is used for examples and witnesses).
* **Axioms: none.** `Print Assumptions` prints "Closed under the global context" for
  every theorem in the manifest. The modules of the standard library that are
  loaded contain the seven opaque constants of `Coq.ssr.ssrunder.Under_rel`
  (`Under_rel`, `Under_rel_from_rel`, `Under_relE`, `Over_rel`, `over_rel`,
  `over_rel_done`, `under_rel_done`), which a module signature hides; no theorem
  here depends on them.
* **Contracts**, which appear as hypotheses of the theorems that need them:
  * `tfhe_ok T s0 s1 bit E` (`TfheSpec`): TFHEpp is not in the repository (empty
    submodule). CMUX, identity key switch, blind rotation, packing key switch and
    circuit bootstrapping give a result whose phase differs from the ideal value by
    at most the bounds in `E`. Used by C29-C34, C35, C36 (command level), C38, C41, C47, C48, C50, C55-C60, C62, C64-C66, C74, C75, C77.
    Satisfied by a concrete instance with noise, for every key and ring dimension.
  * `crypto_ok` (`CmdSpec`): encryption gives a ciphertext of the bit, saving and
    loading it returns it, key archives are accepted when read back. Used by C35, C41, C49, C55-C59, C62, C64, C74, C75, C77.
    Satisfied by the instance in `PropsCmd`.
  * `spot_lib` (`LtlModel`): Spot is a parameter: whether a formula parses, and the monitor it is translated into.
    `ltl2spec` fails an assertion on a formula that does not parse (C78_formula); C51, C53, C66 and C69 are about formulas that do.
  * `monitor_ok` (`LtlSpec`): what Spot's translator returns: states exist, conditions
    are ordered BDDs over the registered propositions in ascending order, no
    condition is unsatisfiable. Used by C42, C43, C51, C53, C54. Satisfied by the monitor in `PropsLtl`.
    C53 and C54 also need `no_dead_ends` (`RandomSpec`): no edge leads to a state without edges.
  * `monitors` (`LtlSemantics`): Spot's monitor of a formula has a run on one or more valuations if and
    only if they can be continued to a sequence that satisfies the formula. Used by C66. Proved for
    the monitors of G(p0 -> X p1) and F p0 in `PropsMonitor`.
  * `gates_ok` (`CounterSpec`): HomOR, HomANDNY, HomNOT and circuit bootstrapping from level 0
    (the last one is called by `counter.cpp` but declared nowhere in the repository). Used by
    C47, C48, C50, C60, C65. Satisfied by the instances in `CounterSpec` and `PropsCounter`.
    C65 also needs `andny_sign` (`MachineSpec`): HomANDNY decides the sign of b - a - 1/8, also on
    bits that carry several marks. Satisfied by `sign_gates` in `PropsMachine`.
* The reading of C++ given by the model's comments. In particular `std::regex` is the
  language of the regular expression, `std::sort`/`std::set` are their specifications,
  CLI11 (not in the repository) reads words as `MainModel` says, and `cereal` archives are
  opaque byte strings (except the TLWE result, which is written out).

* For C58, C59, C61: a killed process leaves in each file it was writing a prefix of the bytes it would have
  written; opening for writing empties the file at once. That the key readers reject proper
  prefixes is a hypothesis of `C58_genkey`, `C58_genbkey` and of C61.

### Not modelled

* Command lines with dashes without a letter, flags with a value (`--quiet=true`), options with an empty value (`--out=`), repeated flags, numbers not in plain decimal or misplaced subcommand
  names (`still_outside` in `JoinedSpec`): the model ends in `FUndefined`. `MainModel` also leaves
  `--name=value` open (`outside` in `MainSpec`); `JoinedModel` adds it, with the same outcome for all command lines that `MainModel` reads (C86_same).
  For the benchmark program likewise (`JoinedBenchModel`, C86_bench_same). The log models (C76-C85) are without it. `--help`
  counts as an unknown option.
* What CLI11 prints, process exit codes other than success or failure, wall-clock time (measured durations are inputs).
* Of the log (C76): time stamps and the tag in front of a message (C76 is about runs that succeed, C80 about those that exit with an error; C83 about writes that fail, C78 and C79 about the other commands). A message and the computation it belongs to are logged and done in this order; nothing observable lies between them.
* The inside of TFHEpp, Spot, cereal, TBB; memory exhaustion; write errors other than a full disk or a file that cannot be opened (C72, C75); data lost when the machine (not the process) stops.
* In `test0.cpp`: comparing ciphertexts with NaN (equality is of bit patterns). The log files and the random number
  generator of `test_*_random.cpp`, whose numbers are inputs of the model.
* In `test_homfa.sh`: the file `_test_stderr`, the shell beyond the sequence of commands and
  comparisons. The rest of `bench.sh` and `bench_ltl.sh`.
* The TBB arena that `--cpu` of `counter.cpp` sets up (C87 is about the command line). The file is off by default in `CMakeLists.txt`
  and does not compile against the current headers; the model follows its text.
* Processes at the same time (C68): opening and reading a file is one step, so a process never sees a file
  change between two of its reads (C77 is about such changes of a ciphertext file); the theorems are about processes of which none writes a file that another
  one uses. File names are compared as texts: two names for one file (links, `./x`) are not recognised.

## 4. Properties

| id | model | proof |
|----|-------|-------|
| C01, C02 | `from_nfa` | invariant of the worklist loop, measure `2*(2^U-visited)+queue` |
| C03 | `reversed` | C01 + predecessor lists (C10) + path reversal |
| C04, C05, C07 | table filling, union-find, grouping as written | marked = distinguishable; union-find refinement; Myhill-Nerode counting |
| C06 | worklist loop | invariant |
| C08-C12 | direct | induction on words / depth |
| C13 | `transition64` with `int` shift semantics | proved up to 31 bits; refuted at 32; undefined beyond |
| C14-C18 | `TextModel` | round trip by induction; regex semantics given separately |
| C19 | `wf_graph` | invariant over constructors |
| C20, C21 | `each_input_bit` | induction on bytes |
| C22-C26 | `StreamModel` | invariant over histories and schedules |
| C27-C29 | `TorusModel` | modular arithmetic, negacyclic extension |
| C30, C31, C39 | backstream runner | invariant with noise bound |
| C32, C33, C34, C38 | block and FLUT runners | invariant with noise bound |
| C35, C41, C49 | `CmdModel` | weakest-precondition style composition over clients of the stream |
| C36 | interleavings of every parallel region | race-free tasks commute; the set of outcomes is a singleton |
| C37 | two-run relation over every runner | simulation for any two TFHE implementations |
| C40, C46 | constructors | case analysis |
| C42, C43 | `LtlModel` | invariants of the two worklists; a state represents the rest of a BDD |
| C44, C45 | direct | induction |
| C51 | `MainModel` | the parser inverts every arrangement of a command's options; composition with C35, C42, C09, C52 |
| C52 | `DotModel` | a lexer relation with one result; the statements listed one by one |
| C53, C54 | `RandomModel` | the oracle as a set of monitor runs; composition with C03, C04, C42, C43, C30, C31, C33 |
| C55, C56 | `BenchModel` | the loop is a history of the runner with a question every `out-freq` inputs; composition with C30-C33; widths of the reachable sets; invariant of the loops for the keys of the lines |
| C57 | `BenchModel` | as C51; C55 for all methods |
| C58 | `CrashModel`, the moves of a client with its files | all reachable file states of a client, by induction on its program (`always`); reachability of every cut (`can`) |
| C59 | `CrashModel` | invariant over the attempts: only the command's own output changes |
| C60 | `CtestModel`: all interleavings of the five tests; specification in `CtestSpec` | invariant over the reachable worlds (what each test has compared, its message, the flag); a decreasing measure |
| C61 | `CtestModel` (key files), crashes as in C58 | invariant over histories of killed runs |
| C62 | `ScriptModel` over `MainModel` | composition of C51 (command lines) with C35; the shipped automata by a bisimulation and by induction on the word |
| C63 | `from_nfa`, `reversed`, `dump` and the command line | loop invariant: the states are numbered by first discovery; a reversed reachable automaton has no two equivalent states (Brzozowski); both together determine the automaton |
| C64 | `BenchScriptModel` over `BenchModel` | composition of C57 (command lines) with C55; invariant of all loops of the program: no printed line contains a newline, and only result lines begin with `result`, so `grep` finds exactly the results |
| C47, C48, C50 | `CounterModel` | C48: carry chain as a number, zero test as a fold in any order; C47: invariant relating every live state's weight to the plaintext runner; C50: C47 on the built-in tester, whose counts stay below 11; what its answers mean by an invariant on the distance to the last 1 (`PropsCounter3`); the constructor's checks by induction on the edges |
| C65 | `CounterModel` | invariant of the two weight buffers: each slot holds the effect of walking from its state at the last position of its parity where the state was possible; marks as multiples of 1/4, lowest bit of the subtraction by cases modulo 4 |
| C66 | `MainModel`, `LtlModel`, `CmdModel` | composition of C42, C14, C04, C20 and the sessions of C51 with the semantics of LTL; bad prefixes of safety formulas by induction on the formula |
| C67 | `CmdModel`, `RunnerModel`, `StreamModel` | any bytes are ciphertexts; success of a runner is shown for a noise-free scheme and carried over to every implementation by C37 (nothing observable depends on ciphertexts), and from the sequential runner to every schedule by C36; sizes of archives by computation |
| C68 | `ProcModel`, `CmdModel` | every command as the sequence of its file accesses, stream calls and computations; interleavings of processes are projected to runs of each process on a directory of its own (agreement on the files it may access is invariant), termination by well-founded induction over all processes; each command alone is shown to follow the model of the single command, so C35 and C49 carry over |
| C69 | `Test0Model`, `ScriptModel` | the graph tests are sequential and computed for the files in `test/` (for Spot only what it prints is assumed); the stream tests are client programs of the stream model, proved to give one outcome under every schedule; the script theorem composes test0, the AT&T round trip and C62 |
| C70 | `GraphModel`, `TextModel`, `CliModel`, `MainModel` | `NumberSpec`: sets of states reached by a word, renumbered rows; the subset construction numbers its sets in the order in which words first reach them (`Canonical`, `Numbering`), so its result is determined by which words lead to the same set; a renumbering keeps that |
| C71 | `GraphModel`, `TextModel`, `CliModel`, `BitsModel`, `MainModel` | `CutSpec`: the ways in which a truncated text can be read; a cut leaves whole rows and possibly one with a shorter last number (`CutFacts`); rows that are closed and contain the initial state contain every reachable state |
| C72 | `DiskModel`, `CmdModel`, `CrashModel`, `MainModel` | a file that may not be openable, or that can grow to a given size behind a buffer with any flushing behaviour; induction over the pieces handed to the stream (`DiskFacts`): everything handed over is in the file or the buffer until a write fails |
| C73 | `CliModel`, `GraphModel`, `MainModel` | negation, reversal and minimisation as operations on numbered automata satisfy eight equations (`PipeAlgebra`): classes are numbered in the order of their least members, so the quotient is determined by the indistinguishability relation and keeps a numbering in the order of first visits; canonical automata are equal when they accept the same words; every pipeline rewrites to one of ten forms, and one specification tells all ten apart |
| C74 | `BenchOutModel`, `BenchModel` | a writer monad: a run is the lines printed and the outcome; same outcome as `BenchModel` for every command line (`C74_same`); each line is a flush (`std::endl`), so what a killed process has printed is a prefix of the lines (and of the last one); for `qtrlwe2` induction over the inputs gives the input at which it stops, with the invariant of C31 |
| C75 | `DiskRunModel`, `DiskModel`, `ClientModel` | the run commands with the way a result is stored as a parameter (with an unlimited disk the same terms as in `CmdModel`, `C75_same`); the space may depend on the files written so far; induction over the inputs gives the list of results the command tries to write, in order, and the states of the disk at any moment and at the end (`DiskRunFacts`); a file may not be openable, which may depend on the files, too |
| C76 | `LogModel`, `ClientModel` | the run commands with the way to log as a parameter (without it the same interactions as in `CmdModel`, `C76_same`); the world of a client is the log with the files; induction over the inputs gives the log and the logs at any moment (`LogFacts`); for flut the messages depend on public data only, so they are computed with a scheme without noise |
| C77 | `GrowModel`, `StreamModel`, `ClientModel` | every step with a longer or shorter file is the step with the original file, or a read past the end (which the assertion in `load_binary` stops); the invariant of C23/C24 excludes reads past the original end; composition with C58 for `enc` in progress |
| C78 | `MsgModel`, `TextModel` | the readers as computations with a log (the results are those of `TextModel`, `C78_same`); case analysis of one line against the formats of `TextSpec`, induction over the lines (`MsgFacts`) |
| C79 | `SayModel`, `MsgModel`, `MainModel` | the commands and `main` as computations with a log (the results are those of `MainModel`, `C79_same`); case analysis of the manual of C53; `C79_exit` from `noexit` of every function that contains no `error_die` (`SayFacts`, `SayClaims`) |
| C80 | `LogModel`, `MsgModel`, `ClientModel` | as C76 for computations that fail: a predicate for clients that fail on every schedule with one log, and leave the files alone (`RefuseFacts`); flut fails before its parallel loops, so that the sequential failure is the only outcome |
| C81 | `LogModel`, `ClientModel` | an invariant of clients: what has been logged holds no error, and a computation that exits is one in front of which the error was logged; each computation of a run is paired with its messages (`BlameFacts`) |
| C82 | `StderrModel`, `SayModel`, `LogModel`, `MainModel` | the parser lemmas of C51 give the command that a command line begins; its log is that of C76, C80, C81 at the level that the flags ask for |
| C83 | `LogDiskModel`, `LogModel`, `DiskRunModel` | the invariant of C81, with the way a result is stored as a parameter: an error is in the log before the program exits; a simulation relates a run with its log to the run of C75 without it; from the command line as in C82 |
| C84 | `LtlLogModel`, `LtlModel`, `StderrModel` | the translation with its messages is the one of `LtlModel`; a case analysis per transition (it ends, or the translation fails there) is lifted by induction to the states; a transition fails exactly if its condition depends on a proposition that was not asked for |
| C85 | `KeyDiskModel`, `DiskModel`, `SayModel` | by cases on C72_archive for the writes; the command lines as in C79; the next command by C79_notes and C82_bad_key |
| C86 | `JoinedModel`, `JoinedBenchModel`, `MainModel`, `BenchModel` | the parser lemmas of C51 once more, for items that are written in either spelling |
| C87 | `CtestCliModel`, `CtestModel` | induction over the words for the values of `--cpu`; cases of the number |

## 5. What the proofs found

Statements that are false of the code carry the suffix `_refuted`, with the witness.

* C13: `transition64` with `len == 32` reads the wrong bit from bit 31 on and `len >= 33` shifts an `int` too far.
* C17: the AT&T format does not say which state is initial: a graph whose initial state is not 0 does not survive `dump_att` and reading back.
* C18: the AT&T reader throws when a reachable state is larger than every source state of a line.
* C26: `is_end` answers for the file position of the prefetching thread, not for the caller.
* C32, C35: the BLOCK runner aborts on an empty input when the result is asked for.
* C34: FLUT runners do not reject a `max_second_lut_depth` with which the table (live states times assignments of the second half of the queue, `table_fits`) is longer than the ring; the answer is then wrong. Depths of 32 and more are an undefined shift. Live states beyond `2^max_second_lut_depth` are refused only when they appear.
* C45: `weight2bitstring` takes the closed interval [1/4, 3/4] for 1, decryption the half-open one.
* C46: the legacy online runner asserts false whenever its result is asked for.
* C47: `BTTRunner` reads `weight.at(0)` where the single live state is meant; counters wrap where the
  plaintext runner counts on; with a queue of several inputs counters are tested once per block; the
  plaintext runner ignores effects of test edges; incrementing a counter twice on an edge
  is outside the contract of the gates (no effect in `C47_twice_refuted`; with gates that decide signs, as TFHEpp's,
  two marks subtract 2 but three add 1 to an even number, `C65_marks`).
* C48: counters wider than 64 bits, and decryption of counters wider than 32 bits, shift too far.
* `each_input_bit` reports a truncated file only after delivering all whole valuations (C21).
* C51: `--out-dir` and `--sanitize-result` are never registered with the argument parser, so the
  per-file reports of C41 cannot be asked for from the command line; `--out-freq` is required but has
  no effect together with `--out`; the benchmark commands have no subcommand.
* C53: `int2bvec` shifts an `int` too far from 33 propositions on; with 0 propositions the test divides by zero.
* C54: `test_crypto_random` pads the permutation of the propositions with 0 when the formula does not use all
  of them ("FIXME: correct?" in the source), so the encrypted run gets another word than the oracle; and it
  decrypts verdicts encoded as 0 and 1/2 by the sign of the phase, so that the noise decides the answer.
* C55: `benchmark offline` prints 0 for an empty input even if the empty word is accepted; `--sanitize-result`, which
  `homfa` never registers, is registered here and always ends the program (C40). The date in the first line has the
  month minus one (`tm_mon`), and `bbs` misspells the key `config-sanitize_result`.
* C58: no file says how many bits it holds, so an `enc` killed between two ciphertexts leaves a file that
  the run commands take for a shorter input (`C58_enc_noticed_refuted`; the example shows a wrong verdict).
* C60: the program `counter` exits with status 0 although its self-test reports a difference
  (`C60_status_refuted`).
* C61: a run of `counter` killed while it writes `_bkey` leaves files with which every later run ends
  at once (`C61_again_refuted`). If only `_bkey` was there, a killed run can leave a mixture of keys that
  the next run uses (`C61_mixture_refuted`). An existing `_skey` is replaced when `_bkey` is missing
  (`C61_kept_refuted`).
* C64: `test_benchmark.sh` compares results after every thirty bits only; an input of 1 to 29 bits makes it fail
  with no message, because `grep` finds no line (`C64_script`, example `C64_wrong`).
* C62: `bench.sh` and `bench_ltl.sh` call `run-offline-dfa` and `run-online-dfa`, which the program no longer has
  (`C62_bench_refuted`). As the failing command is piped into `tee`, the scripts go on; `bench.sh` then looks for
  "Result (bool): true", which `dec` never prints, and `bench_ltl.sh` decrypts whatever an earlier run left in `_test_out`.
  `test_homfa.sh` keeps an existing `_test_bk` even if `_test_sk` is missing, and then generates a key that does not
  belong to it; `keys_ready` excludes this state.
* C71: a specification file has no end mark. If the cut goes through the last number of a row (state numbers of two digits
  or more) and the rows read so far are closed, the automaton read has another language (`C71_long_refuted`: "10" read as "1").
  If the initial state is not the first row, a cut before its row makes row 0 the initial state (`C71_initial_refuted`).
  An AT&T text that lost its final-state lines is accepted and rejects every word (`C71_att_refuted`).
* C72: nobody looks at the error of the last flush, which happens in the destructor of the stream (or at exit for `std::cout`).
  A key, a result or a printed specification that fits into the buffer can be lost completely with exit status 0
  (`C72_reported_refuted`). For `enc` the loss is noticed later because a ciphertext is larger than the usual buffer of 8 KiB;
  it would not be with a larger buffer (`C72_buffer_refuted`).
* C75: the same holds for the results of the run commands (`C75_reported_refuted`); with `--out-dir` the command then goes on with the next report. The loss is noticed by `dec`, which refuses the file.
* C78: numbers above 2147483647 in a specification or an AT&T file end in an uncaught std::out_of_range: the line is not named, unlike for every other defect. A missing specification file fails an assertion, a missing AT&T file is named.
