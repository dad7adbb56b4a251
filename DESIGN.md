# DESIGN — machine-checked model of cornell-brg/pymtl3-mem (blocking cache)

The deliverable is `rocq/theories`: a cycle-accurate model of the blocking cache and of
the test infrastructure around it, and the property theorems in the `Prop*.v` files.
A theorem `Cnn_...` belongs to property `Cnn` of `properties.jsonl`; `MANIFEST.json` lists
them. Each `Prop*.v` holds statements, one-line proofs that name a lemma, `Print
Assumptions`, and `Example`s exhibiting concrete runs that meet the hypotheses.

## Layers

| layer | files | what it is |
|---|---|---|
| bit vectors | `Bits.v` | PyMTL `BitsN` values as `N`; truncation, slices, concatenation, masked writes |
| parameters, messages | `Params.v`, `Msg.v` | CacheDerivedParams.py, MemMsg.py, constants |
| units | `Units.v`, `Units2.v` | every component of `blocking_cache/units`, the PyMTL and Verilog SRAMs, counters, bit layouts of the structs |
| RTL | `Rtl.v` | BlockingCacheCtrlRTL + BlockingCacheDpathRTL, one definition per wire or register; `next`/`output : params -> st -> inp -> ...`; `run` iterates it |
| memory | `Mem.v`, `MemCl.v`, `MemClMulti.v` | byte memory and one request on it; MemoryCL.py with its ports, also serving n caches |
| reference model | `Fl.v` | BlockingCacheFL.py: HitMissTracker, ModelCache |
| test bench | `Procs.v`, `Multicore.v`, `MultiSys.v`, `Bench.v` | ProcModel.py; MulticoreModel.py; n caches over one memory; the random request generators |
| specification | `Spec.v`, `System.v`, `Traffic.v`, `MultiSys.v`, `DynSpec.v`, `BulkSpec.v`, `LockSpec.v`, `LiveSpec.v`, `IsoSpec.v` (and the other `*Spec.v`), top of `Wide.v`, `Faults.v` | flat memory, supported requests, runs (client + cache + memory), the LRU line lists and the traffic one request may cause, ownership |
| proof device | `Tl.v` | a transaction-level machine; nothing in a statement mentions it |
| proofs | all other files | |

`Rtl.v` works for every `wf_params`: any power-of-two number of lines, line width any
power of two of at least 64 bits, data width 32..line width, any address and opaque width,
associativity 1 or 2 (the code supports no more: `BitsAssoclog2`, `ReplacementBitsReg`).

## How the properties are proved

* **RTL refines the transaction machine** (`RefineInv/Stall/Req/Adv1-3/Proofs.v`): for every
  input sequence in which requests come only when ready and memory answers only what is
  outstanding, in order, there is a run of the transaction machine with the same visible
  events. The invariant has one record per phase of the pipeline.
* **Transaction machine + memory refines flat memory** (`ViewDefs/Ops/Proofs`, `SysProofs`):
  the program-visible byte is the cache's if the word is dirty or the line valid, memory's
  otherwise; each request preserves this.
* C01 C02 C07: the two refinements composed. C03 C05 C06 C08 C09 C18 C42: plus an LRU/
  residency/pending-words invariant (`MetaProofs`, `PendProofs`, `TrafProofs`). C04 C19: shape of
  the requests. C10-C13 C17: the phase invariant. C14: two runs compared (`Timing`). C15: a measure
  that falls in each productive cycle (`Progress`). C16 C34: explicit infinite/faulty runs.
* C20-C25 C36 C37 C39: bit-level lemmas by `N.testbit` extensionality; induction over port operations.
* C26 C27: which words a client can change, for any request width (`Wide`); counterexamples by
  computation (`_refuted` theorems state the negation of the naive claim).
* C28: simulation of the port queues (`MemFacts`). C29-C31: list-based LRU and flat-memory
  simulation of the reference model, then C01+C03 (`FlProofs`, `FlModel`).
* C32 C33: each cache's refinement is local; a rely/guarantee invariant with a ghost memory per
  cache that agrees with the real one on the words the cache owns (`MultiProofs`, `MultiFacts`).
* C43: each AMO is one memory request; a global invariant relates the memory's AMO log to what each
  cache has accepted and answered (`MultiAmo`), and every other word is free (`AmoAll`). C44: the generators' masks give supported, aligned
  requests; the dictionary covers all addresses; then C31 and C15 (`Bench`).
* C45: from the traffic of C09 alone: after each write-back the whole line of memory is current, because
  words outside the mask are not pending; AMOs act on lines with nothing pending (`Crash`). C46: the reset
  edge is computed; initialisation is shown to ignore memory answers; then C01 and C45.
* C47: a bisimulation between the cache with held and with arbitrary idle SRAM outputs; the outputs that
  matter are exactly those of the cycle after a read or saved in a stall register (`SramJunk`).
* C48: a bisimulation that ignores every data field (`Obliv`). C49: by C48 a run over any memory has the
  same control as a run over the ideal one, constructed answer by answer (`Proto`). C50: each cache among
  several sees such a memory.
* C51: per word, an invariant of all caches and the memory in which each cache may touch, may modify or
  may do neither to the word (`DynProofs`: one cache, `DynEvict`: replacement writes back, `DynFacts`: all
  caches, `DynMore`: all words together and an executable check); the discipline is `synced` in `DynSpec`.
* C52: MulticoreModel's release rule (C40) makes the messages of a race-free list hand words over as C51
  wants (`BulkProofs`); the acceptance order is then permuted, word by word, to the order of the list
  (`BulkMore`). The repository's tests are read as text by `tools/multi.py` into `MultiData.v`; race
  freedom and expected responses of these are decided by computation (`BulkHarness`).
* C59: C43's order of the AMOs on the lock word gives mutual exclusion; then holding the lock is the right to
  modify of C51 (`Lock`); a counter by induction over cycles (`LockCount`); `LockSpec` is the discipline.
* C53: C15's measure gives an empty pipeline, which is ready (`Live`); an accepted-or-not count over productive
  cycles. Several caches: in each round, until all is done, some cache accepts, some cache answers, or the
  current order grows; these three are bounded (`LiveMulti`).
* C54: an exact count of the remaining productive cycles, indexed by the memory requests sent so far, which
  every cycle decreases by exactly one when both sides are ready (`Service`); waiting cycles are charged to
  memory requests; lifted to any memory by C48's obliviousness and to several caches (`Service2`).
* C60: lower bounds from the same exact count, now for every schedule (`RunTime`): a cycle decreases it by at most
  one; a request is accepted only when at most two are left. Upper bound: an invariant over offering cycles. The time-out
  is the lower bound at 40 INVs (`RunTime2`).
* C61: an executable specification (`ExactSpec`): pending words, the line in each way, the way to use next; `predict`
  gives the groups of memory requests of a program. `Exact` relates it to the transaction-level cache and shows one
  step for each kind of request (the mask of a line is its dirty bits, the way found is that of the tag comparison,
  the victim that of the replacement bit); `Exact2` inducts over histories, lifts to runs with any memory data
  (C48's lifting) and to each cache among several, and combines with C54's exact count.
* C62: `ScheduleSpec` computes the cycles from the bookkeeping of C61 (`gap`, `starts`, `ends`). From the cycle-exact
  remaining-time function of C54: in every phase of a request that is not a hit the cache is not ready and the time left is
  more than 2 cycles (`cur_ready`); hits by the lemma of C38, their `write_hit_clean` by the pending words. Hence
  readiness and the answer as equivalences (`ready_iff`, `answered_iff`); the schedule by induction over cycles.
* C63: memory requests of the last L cycles form a queue (`que`); its head is the answer of this cycle, its number of entries
  what is outstanding. Two facts from the refinement's phases (the second request of a miss goes out in the cycle after
  the first; a FLUSH has at most one outstanding) make the number of cycles waited a function of the queue
  (`wst`, preserved by every cycle). With C62 this gives acceptance and answer of one request to the cycle, then of programs by induction.
* C64: `Line.v` models Ctrl's line_trace as strings, `LineSpec.v` reads columns out of the text. The columns by
  concatenation lemmas; labels against message types by an invariant of all inputs (`labelled`); requests, colours and the
  state column from the phases, colours tied to the hit bit through C03.
* C65: two runs with alike clients: by induction over cycles the memory port's enables and answer types agree, then C55 (idle
  ports) and C48 (data) compare the runs through a third one (`Iso`); the schedule is C63 for each cache, by C50.
* C66: the relation of C48 with tag arrays that differ in rows not yet initialised (`Power`), preceded by C47's relation for array
  outputs and stall registers. Data: by C09 the masked words of a write-back and by C01 the response data are functions of the
  program; memory is shown to treat requests that differ elsewhere alike (`Power2`).
* C67: the simulation of C55 with requests related instead of equal, stage by stage (`Unused`): which fields a transaction may
  differ in depends on what it is; the MSHR by the request's type. The type a transaction works for is part of the invariant.
* C68: the invariant of C32 (one cache in the crowd, J2 in MultiFacts.v) with one more clause, "every line's own part is that
  of some prefix of the history, past the completed durable requests": a write-back makes the owner's part of its line current
  (everything not pending already is), an AMO likewise, requests of others do not touch it, and completing a FLUSH or AMO leaves
  nothing pending in the line (CrashMulti.v).
* C69: `Directed.should` zips the three specifications of C01-C03 (echoed fields, pseudo-LRU hits, flat memory) into whole
  responses; it equals the responses of any run up to a prefix. For each table the kernel computes that `should` gives the
  listed responses (`tests_good`), so the test passes under every schedule; that it ends is C53.
* C70: `InitSpec.explained` says what each response must be from the client's own knowledge (which line each set has, which
  bytes are known). The refinement of C01 is extended by the state "WRITE_INIT in M1" and the step `tl_ini` (Init.v: one way
  makes the replacement bit constant); Init2.v proves that the knowledge is so in every reachable cache state, Init3.v
  runs it along. Memory is unconstrained apart from the answers' types. The stale dirty mask WRITE_INIT takes from the MSHR
  is an arbitrary mask in `tl_ini`; two concrete runs show what that does to memory. For the ten directed tests with
  WRITE_INIT and one way the kernel computes that the promise leaves only the listed responses (Init4.v).
* C71: the measure of C15 (Progress.v: cycles until the response of the current request is in M1) also decreases when a
  WRITE_INIT is accepted or in M1, where its response already is (Init5.v); nothing else of C15 and C53 depends on the request type.
* C72: CrashMulti.v's per-cycle invariant (a line of memory equals the flat memory after k of the accepted requests), with
  that k carried along and shown never to need lowering (Moment.v); a single cache is a system of one cache (Moment2.v).
  Specification in MomentSpec.v.
* C73: inclusion between the bookkeepings of C61 (ExactSpec.v) of the two caches: what is in the small cache is in the big one
  and not closer to replacement, where also the line in front of it is the same or gone (Bigger2.v; INV and AMO leave holes
  that a plain stack argument does not cover); each step moves pending words to write-backs one for one (Bigger3.v), so
  `write-backs + pending` can be compared step by step (Bigger4.v). Hits by the lists of C03 (Bigger5.v). Time (Bigger6.v):
  by C63 a request takes one cycle for its write-back, which is counted as above, and a rest that is compared request by request.
  Specification in BiggerSpec.v and LatSpec.v.
* C74: the invariant of C51 (per word: which cache may touch, which may modify) along histories that also contain accesses of
  a device (Dma.v): an access needs that no cache has the corresponding right, so the value of the word is that of memory.
  Device accesses are bytes between two cycles; the discipline is `dev_synced` in DmaSpec.v. Accesses of several bytes are
  the bytes one after the other; between two cycles nothing else is accepted.
* C75: MemoryCL for request classes without `wr_mask` (`plain_exec`), any number of ports with arbitrary delays (`pmem`); an
  invariant relates memory at a port's bytes to a private memory (MemTest.v); the test cases are transcribed from
  MemoryCL_test.py with the base address as a parameter and checked once at base 0 by computation from an arbitrary memory,
  then moved by a shift lemma; the random case for all values. That the tests end is not stated (see Findings, 16).
* C55: two-run simulation (`Idle.ieq`): registers that hold a message equal only while the transaction in
  that stage carries one, tag entries equal up to the tag of invalid clean lines; the phases of RefineInv
  give the facts about reachable states the simulation needs. C56: every output unfolded; it mentions only
  the state and the ready inputs.
* C57: `HierSpec.stack` wires two RTL models together (well defined by C56). One induction over cycles
  proves both environments at once (`Hier`): C02 and C01 of the second level make its responses those of
  a memory, C13's shapes and C11's traffic of the first make its requests supported ones. Liveness (`Hier2`): in a
  stretch without a productive cycle of the first level nothing is sent down, so by C15 and C53 the second
  level empties and becomes ready, which makes the next cycle productive for the first.
* C58: `Flow.v` models replace_sram as Python string functions on lines and the wrapper with its hard
  cells. Text: decimal numbers are injective and self-delimiting, so an instance line contains one of the
  four patterns iff its shape is that one. Wrapper: induction over operations. Cache: C47 with the
  unreplaced arrays' own outputs as junk.
* C35 C40: induction over cycles. C38 C41: cycle-exact symbolic execution of hits (`Latency`).

## Trusted base

* Coq 8.16.1's kernel (including `vm_compute`, used for the concrete examples and counterexamples).
* `Print Assumptions` of **every** property theorem says `Closed under the global context`: no
  axioms, not even the standard library's. (The seven `Coq.ssr.ssrunder` names a dependency listing
  may show are module-type parameters of Coq's own prelude, used by no theorem.)
* The reading of the Python sources as the definitions of `Bits.v, Params.v, Msg.v, Units.v,
  Units2.v, Rtl.v, Line.v, Mem.v, MemCl.v, Fl.v, Procs.v, Multicore.v, Bench.v, Flow.v` and `rst_next` of `Crash.v`; each definition cites its lines.
* The specification vocabulary in the files of that row above.

## Validation of the model

`tools/conform.py` reads the tables of the repository's 75 directed tests (GenericTestCases, AmoTests,
InvFlushTests, OtherCiferTests) as text and writes `ConformData.v`; `Conform.v` replays them on the RTL
model (and on the model of ModelCache, where the repository does) and checks every field of every
expected response, hit/miss bits included, by computation. All pass. `tools/units_conform.py` does the
same for the vectors of units/tests (`UnitsConformData.v`, `UnitsConform.v`): DataReplicator,
WriteBitEnGen, DataSelectMux and FastDataSelectMux meet all rows but two (finding 13). This is evidence
that the definitions mean what the Python does; no property rests on it. The tests SramRTL_test.py,
SramPRTL_test.py and MemoryCL_test.py are written for earlier interfaces (byte-wise write enables, old
module paths, messages without masks) and are not replayed.

## Modelled

BlockingCacheCtrlRTL.py (with its line_trace, `Line.v`), BlockingCacheDpathRTL.py, BlockingCacheRTL.py (wiring), CacheDerivedParams.py,
cacheStructs.py (bit layouts), cache_constants.py, constants.py, MemMsg.py (types, widths, layouts),
units/*.py, SramPRTL.py, SramGenericPRTL.py and the behavioural branch of
brg_gf14_sram_generic_synopsys.v, BlockingCacheFL.py (HitMissTracker, ModelCache), MemoryCL.py,
ProcModel.py, MulticoreModel.py, MultiCache (sim_utils.py), gen_reqs (HypothesisTest.py) and
random_test_generator (RandomTestCases.py).

## Simplifications

* Two-valued logic: no X propagation; SRAMs power up with arbitrary contents, registers in
  their reset values (`reset_state` leaves everything the reset does not define arbitrary).
* PyMTL's scheduler is not modelled: combinational blocks are functions of registers and inputs
  (the design has no combinational cycles inside the cache; the one through ProcModel is C35).
* Control/datapath structs are flattened into their fields. Line traces other than the control unit's (the
  others print messages with pymtl3's formatting or are empty), string conversion, the Verilog back end and foundry SRAM macros are not modelled (C58 models replace_sram of translate.py;
  the text PyMTL3 generates for an SRAM instance is the pattern translate.py itself searches for; cells
  without a model in the repository are taken to behave like those that have one, their idle output is
  arbitrary).
* `//= lambda` in a loop (muxes.py 79) is taken to bind the loop variable at connection time.
* pymtl3's stdlib queues in MemoryCL (StallCL, DelayPipeDeqCL, DelayPipeSendCL) are FIFOs that may
  delay arbitrarily; TestSrcCL/TestSinkCL are arbitrary clients.
* `Mem.v` performs AMOs on 4 bytes: requests supported (`wf_req`) have AMOs of 4 bytes.
* `Fl.v`: `int(math.log(x,2))` is the integer logarithm; a `Bits` key and an `int` key of equal value
  are different dictionary keys (pymtl3 hashes a `Bits` by width and value), which is what makes
  `ModelCache.amo` raise in C30.
* `Bench.v`: random numbers are arbitrary values in their range; the simulation's cycle limit
  appears only in C60 (C44 and C60 bound productive cycles).
* Several caches: each has its own size and associativity, all the same widths (as CacheTestParams of sim_utils.py 250-275 has it); each
  has its own port, and ports are served in any interleaving.
* WRITE_INIT is modelled in the RTL but excluded from `wf_req`; C27 (two ways) and C70 (one way) are about it.

## Findings about the code (1-12 stated as theorems)

1. A WRITE wider than 4 bytes marks one word dirty; the rest is lost on eviction (C26).
2. WRITE_INIT in a 2-way cache writes the tag to the victim way but the data to way 0, and never marks
   anything dirty (C27).
3. No progress if memory and the response sink are never ready in the same cycle (C16).
4. A write acknowledgement that overtakes replaces an accepted request by a stale one (C34).
5. The two data-select muxes differ for AMOs when the data width is over 32 (C22).
6. ModelCache.amo raises on a line that is neither in the initial memory nor touched by a read or write
   before, and in the upper half of the address space; a len=3 WRITE means three bytes to the
   model, eight to the RTL (C30, C31).
7. CounterEnRst ignores `load` (C39). The Verilog SRAM clears its output when idle, PyMTL's holds it (C25).
8. Two copies of this cache do not form a two-level hierarchy once the client writes (C57), although
   BlockingCacheRTL.py 49 and blocking_cache/README.md 40 name a lower-level cache as a possible memory.
9. blocking_cache/README.md 78 says that only opaque and data of memory answers are used; the type is used, the
   opaque is not (C55). The opaque of a FLUSH's write-backs is whatever the idle request port shows (C55).
10. The request port's ready depends combinationally on the response port's ready (C56).
11. A memory answer that arrives after a reset of the cache alone replaces an accepted request (C46);
    without FLUSH, writes to different lines reach memory in any order (C45).
12. The property-based tests can run into the simulation's limit of 20000 cycles although the cache is
    correct: lists with some 40 INV or FLUSH on a cache of 512 lines need more (C60).
13. The rows with len = 3 of units/tests/arithmetics_tests.py (lines 29 and 44) expect what DataReplicator did
    before its len==3 branch (arithmetics.py 41-48, 77-78) and contradict the source (`UnitsConform.v`);
    nobody notices, because pytest.ini 16 collects `*_test.py` and these files are named `*_tests.py`.
14. blocking_cache/README.md 245 counts at most two cycles per flushed line; against a memory that answers in
    the next cycle a dirty line costs more than that (C61, `TimeSpec.service`). The stage-M1 label of the line
    trace for the write-back of a FLUSH is "frw", that of stages M0 and M2 "flw" (BlockingCacheCtrlRTL.py 824).
15. In a direct-mapped cache a word written by WRITE_INIT stays clean and is lost when its line is replaced; WRITE_INIT also takes
    the dirty bits from the MSHR, which still holds those of an earlier miss, so that words nobody wrote can be written
    back over memory; a dirty line it replaces is dropped (C70).
16. The harness of test/MemoryCL_test.py passes `mem_latency` as MemoryCL's third argument, which is `stall_prob`, and drops its own
    `stall_prob` (MemoryCL_test.py 30, MemoryCL.py 31-32): a latency of 1 or 4 becomes a stall probability of 1 or 4. With 1 or more
    pymtl3's StallCL presumably never lets a request through, so these cases would not end; C75 is about what they expect.
