import json
P=[]
def p(title,statement,quant,why,anchors):
    P.append(dict(id="C%02d"%(len(P)+1),title=title,statement=statement,quantifier=quant,why_tests_cant=why,anchors=anchors))
CT="blocking_cache/BlockingCacheCtrlRTL.py"; DP="blocking_cache/BlockingCacheDpathRTL.py"; AR="blocking_cache/units/arithmetics.py"
MX="blocking_cache/units/muxes.py"; FL="blocking_cache/BlockingCacheFL.py"; MM="test/MemoryCL.py"
p("Cache plus memory behaves as flat byte memory",
  "Take a cache just out of reset connected to a memory that answers requests in order after arbitrary delays. For any sequence of accepted READ, WRITE (at most one 32-bit word, or the len=3 double word), AMO, INV and FLUSH requests, the responses carry exactly the data that a flat byte-addressed memory executing the requests one at a time in acceptance order returns: evictions, refills, invalidations and flushes are invisible.",
  "every supported configuration, every initial memory and power-up SRAM content, every request sequence, every schedule of source, sink and memory",
  "The number of histories and of memory/sink timings is unbounded; random tests sample a few hundred accesses at a few delays.",
  [CT+":BlockingCacheCtrlRTL",DP+":BlockingCacheDpathRTL","blocking_cache/BlockingCacheRTL.py:BlockingCacheRTL",MM+":up_mem"])
p("One response per request, in order, with echoed fields",
  "The n-th response has the type, opaque and len of the n-th accepted request; no response is produced without a request, none is duplicated or reordered, and the data field of WRITE, INV and FLUSH responses is zero.",
  "every configuration, every legal input history",
  "Loss, duplication or reordering can depend on an exact interleaving of stalls, evictions and refills.",
  [CT+":cs_table_M2",DP+":cacheresp_M2"])
p("The hit flag is true LRU",
  "The test field of every READ/WRITE response is 1 exactly when a true-LRU set-associative tag tracker with the same geometry would hit (with INV clearing all valid lines and an AMO dropping its line and making its way the next victim); AMO, INV and FLUSH responses have test=0.",
  "associativity 1 and 2, every request history and schedule",
  "Replacement state depends on the whole history of the set.",
  [CT+":status_logic_M1","blocking_cache/units/ReplacementPolicy.py:ReplacementPolicy","blocking_cache/units/registers.py:ReplacementBitsReg",FL+":HitMissTracker"])
p("AMO is performed once, at memory, after pending dirty data",
  "For each AMO request the cache sends exactly one AMO message to memory with the request's type, full address and operand, preceded (if the line holds any dirty word, valid or not) by a write of exactly those dirty words; the response data is the low 32 bits of memory's answer, zero extended.",
  "every cache state, request and schedule",
  "Requires all combinations of valid/invalid/dirty state and all stall patterns.",
  [CT+":status_logic_M1",CT+":cs_table_M2",AR+":OffsetLenSelector"])
p("AMO leaves the line uncached",
  "After an AMO completes, no way holds the AMO's line as valid or dirty, so the next READ/WRITE of that line misses and refetches from memory, and no other line is dropped.",
  "every history", "The line can be resident in any way, partially dirty or invalid-but-dirty, before the AMO.",
  [CT+":cs_table_M0",CT+":tag_array_val_logic_M0"])
p("INV drops every valid line without losing dirty data or talking to memory",
  "Serving INV sends no memory request; afterwards every READ/WRITE misses on its first access to a line, and all previously written data is still observable by later reads.",
  "every history and every cache size", "Depends on the number of lines, on which words are dirty and on what happens to invalid-dirty lines later.",
  [CT+":fsm_M0_next_state","blocking_cache/units/UpdateTagArrayUnit.py:UpdateTagArrayUnit"])
p("FLUSH makes memory equal to the program-visible contents",
  "When the FLUSH response is produced, every byte of memory equals the byte a program would read through the cache at that point.",
  "every history, memory and schedule", "Any line may be dirty in any subset of words; the flush loop visits all lines and interleaves with memory acknowledgements.",
  [CT+":fsm_M0_next_state",CT+":up_flush_tag_read_logic_M1"])
p("FLUSH keeps lines resident and is idempotent",
  "FLUSH does not change which accesses hit; and a FLUSH executed with no WRITE since the previous FLUSH sends no memory request.",
  "every history", "Same.", [CT+":cs_table_M0","blocking_cache/units/UpdateTagArrayUnit.py:UpdateTagArrayUnit"])
p("Write-back masks are exact",
  "A memory WRITE carries a word mask; the words selected are exactly those of that line written by the processor since the line was last written back, so words written by another master are never overwritten with stale data.",
  "every history", "The set of dirty words is a function of the whole history.", [DP+":write_mask_M1",AR+":WriteBitEnGen"])
p("Ready/enable protocol",
  "The cache asserts memory-request enable only when memory is ready, and response enable only when the sink is ready, never raises both a memory request and a response in the same cycle, and always accepts memory responses.",
  "every state, reachable or not, and every input", "Must hold in each of the exponentially many pipeline states.", [CT+":cs_table_M2",CT+":memresp_rdy"])
p("Blocking and bounded in-flight requests",
  "At most two accepted requests are ever unanswered, and while a miss, AMO, INV or FLUSH is being served the cache does not accept requests.",
  "every legal history", "The bound must hold at every cycle of every schedule.", [CT+":cachereq_rdy","blocking_cache/units/MSHR.py:MSHR"])
p("Bounded outstanding memory requests",
  "At most one refill or AMO is outstanding at memory; at most two memory requests are outstanding in total; during a flush at most one write is outstanding.",
  "every legal history", "Same.", [CT+":cs_table_M2",CT+":fsm_M0_next_state"])
p("No needed memory response is lost",
  "A memory response arriving while the pipeline is stalled is dropped only if it is the acknowledgement of an eviction write; refill data, AMO results and flush acknowledgements are always captured, even though the cache never back-pressures memory.",
  "every legal history, every stall pattern", "The dangerous coincidence (response in a stall cycle) is a race.", [CT+":memresp_rdy",DP+":pipeline_reg_M0"])
p("Timing independence",
  "Two runs of the cache that accept the same requests and receive memory responses computed by the same memory function produce the same response sequence and the same memory request sequence (up to how far each has progressed), whatever the stalls and latencies.",
  "every pair of schedules", "Quantifies over pairs of unbounded schedules.", [CT+":ostall_M2","blocking_cache/units/StallEngine.py:StallEngine"])
p("Progress",
  "If memory answers every request and in each cycle from some point memory and the sink are both ready, every accepted request is eventually answered, within a number of non-stalled cycles bounded by a function of the cache size and of memory latency.",
  "every reachable state", "Liveness over unbounded executions.", [CT+":fsm_M0_next_state"])
p("Progress needs both sides ready in the same cycle",
  "If memory and sink are each ready infinitely often but never in the same cycle, the cache never makes progress: a pending request is never answered.",
  "one infinite schedule (counterexample to a natural liveness claim)", "An infinite execution.", [CT+":cs_table_M2"])
p("Initialisation after reset",
  "Whatever the power-up SRAM contents and inputs, the cache refuses requests for exactly N = number of lines cycles after reset, sends nothing in the meantime, and then starts with every line invalid and clean.",
  "every power-up content, every cache size", "Power-up contents are arbitrary and the loop length is a parameter.", [CT+":fsm_M0_next_state","blocking_cache/units/counters.py:CounterEnRst"])
p("A line lives in at most one way",
  "In every state between requests, no two ways of a set both hold (as valid or dirty) the same line, so hit detection is unambiguous.",
  "every history, 2-way", "Inductive invariant over histories mixing misses, INV and AMO.", [AR+":TagArrayRDataProcessUnit"])
p("Memory request well-formedness",
  "Every READ and WRITE sent to memory is line aligned with len 0 (full line); every WRITE has a non-zero mask; every AMO carries the processor's exact address; no other types are sent.",
  "every legal history", "Over all histories.", [AR+":OffsetLenSelector",DP+":memreq_M2"])
p("Subword writes touch only the addressed bytes",
  "A WRITE of len n at offset o changes exactly bytes o..o+n-1 of the line in the data array to the low n bytes of the request data, and leaves all other bytes of all lines unchanged.",
  "every data width, line width, length, aligned offset and data value", "2^128 line values times lengths and offsets.", [AR+":DataReplicator",AR+":WriteBitEnGen"])
p("Subword reads select and zero-extend",
  "A READ of len n at aligned offset o returns bytes o..o+n-1 of the line, zero extended to the data width; responses that carry no data return 0; an AMO response returns the low word.",
  "every data width, line width, length, aligned offset and line", "Same.", [MX+":FastDataSelectMux",MX+":FastSubInputMux"])
p("Fast and chained select muxes agree",
  "The chained DataSelectMux and the FastDataSelectMux return the same value for every naturally aligned access; they differ on AMO responses when the data width exceeds 32 bits.",
  "every line value, offset and len", "Input space 2^128 and parameter dependent chains.", [MX+":DataSelectMux",MX+":FastDataSelectMux"])
p("Address slicing is lossless and rows are distinct",
  "tag, index and offset reassemble to the address; two (way, index) pairs of the geometry use the same data array row only if they are equal, and every row is used; the line counter enumerates each (way, index) exactly once.",
  "every supported geometry and address", "Parameters are unbounded.", ["blocking_cache/CacheDerivedParams.py:CacheDerivedParams",AR+":Indexer","blocking_cache/cacheStructs.py:mk_addr_struct"])
p("Derived parameters are consistent",
  "For power-of-two geometries, line count, index, offset and tag widths fit together: tag+index+offset = address width, 2^index * ways = lines, 2^offset bytes per line, one dirty bit per 32-bit word.",
  "every supported geometry", "Parameters are unbounded.", ["blocking_cache/CacheDerivedParams.py:CacheDerivedParams.__init__"])
p("SRAM port contract",
  "The SRAM with bit write enables: a write changes exactly the enabled bits of the addressed word; a read returns, one cycle later, the last values written; the output holds while not reading.",
  "every sequence of port operations, every width and depth", "Unbounded operation sequences.", ["sram/SramGenericPRTL.py:SramGenericPRTL","sram/SramPRTL.py:SramPRTL"])
p("Writes wider than a word are durable (false)",
  "Claim: a WRITE wider than 4 bytes (64/128-bit data port) survives eviction. The code marks only one word dirty, so the rest of the write is lost when the line is evicted.",
  "refutation: one configuration and request sequence, plus the general statement of which bytes survive", "Needs eviction after a wide write.", ["blocking_cache/units/UpdateTagArrayUnit.py:UpdateTagArrayUnit",AR+":TagArrayRDataProcessUnit"])
p("WRITE_INIT semantics",
  "Claim: WRITE_INIT followed by READ of the same word returns the written value. In a 2-way cache the tag and the data can be written to different ways and the claim is false.",
  "refutation: one configuration and request sequence", "Depends on replacement state.", [CT+":tag_array_val_logic_M0",CT+":asso_data_array_offset_way_M1"])
p("Test memory is an in-order sequential memory",
  "The behavioural memory answers each port's requests in order, with the values of a sequential byte memory: masked line writes change exactly the selected words, reads return the current bytes, an AMO returns the old word and stores the operation's result, for any interleaving of ports and any stalls.",
  "every request sequence, every latency and stall pattern", "Unbounded sequences.", [MM+":MemoryCL.up_mem"])
p("Reference tracker implements true LRU",
  "The n-way hit/miss tracker hits exactly when fewer than n distinct other lines of the same set were accessed since the last access of the line.",
  "every associativity, every access sequence", "Unbounded sequences and ways.", [FL+":HitMissTracker"])
p("Reference model is flat memory",
  "The functional cache model's data results for READ/WRITE equal those of a flat byte memory.",
  "every request sequence", "Unbounded.", [FL+":ModelCache"])
p("RTL agrees with the reference model",
  "For every request sequence both accept, the RTL cache's responses (data and hit flag) are those the functional model generates as expected test outputs.",
  "every request sequence, schedule, geometry with 1 or 2 ways", "The test-suite itself only samples this.", [FL+":ModelCache",CT+":BlockingCacheCtrlRTL"])
p("False sharing between caches is safe",
  "Caches over one memory whose processors write disjoint 32-bit words (possibly in the same lines): no processor's flushed or evicted write is ever overwritten by another cache's write-back, so after all caches flush, memory holds each word's last written value.",
  "any number of caches, each of its own size and associativity, any interleaving", "Interleavings are unbounded.", [DP+":write_mask_M1","test/MulticoreModel.py:MulticoreModel"])
p("FLUSH then INV passes messages between caches",
  "If one cache writes data and completes a FLUSH, and another cache then completes an INV, subsequent reads by the second cache return the first cache's data (for words the second cache has not itself written).",
  "any histories of both caches, each of its own size and associativity", "Same.", [CT+":fsm_M0_next_state","blocking_cache/test/MultiCacheTestCases.py"])
p("Out-of-order acknowledgements are unsafe",
  "The cache relies on in-order memory: if the acknowledgement of an eviction write is delivered after the refill response, a later accepted request can be replaced by a replay of an old one.",
  "one schedule (counterexample)", "A specific race.", [CT+":cachereq_memresp_mux_sel_M0"])
p("Processor model in-flight counter and ready loop",
  "Wrapped around the cache, the processor model's 2-bit in-flight counter never wraps and equals accepted minus answered requests, and the combinational ready loop between them is harmless: when nothing is in flight, the cache's request ready does not depend on its response ready.",
  "every legal history", "Invariant over histories.", ["test/ProcModel.py:ProcModel"])
p("Message encodings are bijective",
  "Tag entries, addresses and message records pack to and unpack from bits without loss, and message types have the documented distinct codes.",
  "every field value", "2^n values.", ["mem_ifcs/MemMsg.py:MemMsgType","blocking_cache/cacheStructs.py:mk_tag_array_struct"])
p("len=3 double-word write",
  "With a 32-bit data port a WRITE with len=3 at an 8-byte aligned address stores the word zero-extended to 64 bits: low word = data, next word = 0, both marked dirty and both written back.",
  "every line, address and data; every history", "Any state.", [AR+":DataReplicator",AR+":WriteBitEnGen","blocking_cache/units/UpdateTagArrayUnit.py:UpdateTagArrayUnit"])
p("Write hits do not disturb other requests",
  "A WRITE hitting a clean word takes exactly one extra cycle, during which no request is accepted and no memory request is made; a WRITE hitting a dirty word and a READ hit take none.",
  "every reachable state", "Over all states.", [CT+":status_logic_M1",CT+":cachereq_rdy"])
p("Counters wrap and count exactly",
  "The down counter visits N-1..0 and wraps to N-1; the up/down counter applies up, down, both or load as documented, modulo its width.",
  "every width and input sequence", "Unbounded.", ["blocking_cache/units/counters.py:CounterEnRst","blocking_cache/units/counters.py:CounterUpDown"])
p("Multicore test ordering barrier",
  "The multicore model releases a transaction of order k only when all transactions of smaller orders have been answered.",
  "every transaction list and schedule", "Interleavings.", ["test/MulticoreModel.py:MulticoreModel"])
p("Hit throughput",
  "In a stall-free environment a sequence of READ hits is served one per cycle with a latency of two cycles.",
  "every resident set of lines, any length of sequence", "Any length.", [CT+":cachereq_rdy"])
p("Memory traffic per request",
  "Memory requests come in order, grouped by the request that needs them: a hit and an INV cause none; a READ/WRITE miss causes at most one write-back, of a different line of the same set, and then exactly one full-line READ of the missing line with the request's opaque; an AMO at most one write-back of its own line and then the AMO; a FLUSH only write-backs, after which no word is pending. All requests of an answered request have been sent.",
  "every history and schedule", "Histories and schedules are unbounded.", [CT+":is_evict_M1",CT+":memreq_en_M2",DP+":memreq_type_mux_M2"])
p("AMOs of several caches are linearizable",
  "Several caches share one memory with a port each. On words that no processor WRITEs, whatever else the processors do (reading and writing all other words, of the same lines too, without any discipline), the AMOs of all caches take effect one at a time, at a moment between acceptance and response, in an order consistent with every cache's own order and with real time: the values returned and the final contents are those of executing them sequentially. So at most one of any number of test-and-set AMOs wins, and fetch-and-adds are never lost.",
  "any number of caches, all programs, all words nobody WRITEs, all interleavings and memory timings",
  "Atomicity is a statement about all interleavings of unboundedly many requests.",
  [CT+":is_amo_M1", DP+":memreq_type_mux_M2", "blocking_cache/test/MultiCacheTestCases.py:MultiCacheTestCases", "test/MemoryCL.py:MemoryCL"])
p("The random tests expect nothing wrong of this cache",
  "For every configuration, initial memory and list of transactions the repository's property-based and random test benches can generate, the reference model runs through without an exception and generates only requests the cache supports; and whatever the timing of source, sink and memory, the RTL cache's responses to a prefix of those requests are a prefix of the model's expected responses, all of them once enough time has passed. So an unexpected response is never a false alarm caused by generator or model (running out of cycles can be: see the property on how long a program takes).",
  "all configurations, memories and transaction lists the generators can draw, all schedules",
  "The tests sample a few hundred of the possible draws and schedules.",
  ["blocking_cache/test/HypothesisTest.py:gen_reqs","blocking_cache/test/HypothesisTest.py:hypothesis_test_harness","blocking_cache/test/RandomTestCases.py:random_test_generator","test/sim_utils.py:rand_mem","test/sim_utils.py:gen_req_resp","blocking_cache/BlockingCacheFL.py:ModelCache"])
p("Main memory is consistent at every crash point",
  "If the cache is lost at any moment, every cache line of main memory holds, as a whole, what it held after some number of the accepted requests; that number is past every answered FLUSH and every answered AMO on that line. (Different lines may stand at different moments: without FLUSH the order of writes to different lines is not kept.)",
  "every configuration, history, schedule and crash point", "Quantifies over all crash points of all runs.",
  [CT+":is_evict_M1", DP+":write_mask_M2", CT+":FSM_STATE_FLUSH"])
p("Reset recovers from every state",
  "One or more cycles with reset high bring the cache from any state to its initial state. A session after a reset sees a flat memory starting from main memory's contents at the reset; if the last answered request was a FLUSH and nothing followed, the two sessions form one flat history. If memory is not reset with the cache, answers to old requests are harmless if they arrive before the last cycle of initialisation, and corrupt an accepted request if they arrive later.",
  "every state, reset point, history and schedule", "Every state and every moment of reset.",
  [CT+":FSM_state_M0", CT+":counter_M0", "blocking_cache/units/registers.py:ReplacementBitsReg", "blocking_cache/units/MSHR.py:MSHR"])
p("Idle SRAM outputs do not matter",
  "Whatever the tag and data SRAMs show after a cycle in which they are not read (last value, zero as in the Verilog replacement, or anything else, differently in every cycle), every output of the cache in every cycle is the same.",
  "every configuration, power-up contents, input sequence (legal or not) and choice of idle outputs", "Any value in any idle cycle of any run; the Python simulation always holds the last value.",
  ["sram/SramGenericPRTL.py:SramGenericPRTL","sram/brg_gf14_sram_generic_synopsys.v","blocking_cache/units/StallEngine.py:StallEngine",DP+":tag_arrays_M1",DP+":data_array_M2"])
p("Data never influence control or timing",
  "Two runs whose inputs differ only in the data of requests and of memory answers produce, cycle by cycle, the same ready signals, the same responses (type, opaque, hit flag, length) and the same memory requests (type, opaque, address, length, mask). There is no data-dependent timing channel.",
  "every state, all input sequences (legal or not), all data", "A relation between all pairs of runs.",
  [CT+":ctrl_tag_access", DP+":memreq_type_mux_M2", CT+":hit_M1"])
p("Control is right over any memory",
  "Over a memory that answers every request once, in order and with the right type, but with arbitrary data, the cache still answers all requests in order with type, opaque and length echoed, with LRU hit flags, with at most two requests in flight and two memory requests outstanding, sends exactly the memory requests a correct cache sends (up to data), and makes progress.",
  "every configuration, history, schedule, and every sequence of memory answers", "Any data in any answer.",
  [CT+":memresp_en_M0", CT+":FSM_state_M0", "blocking_cache/units/MSHR.py:MSHR"])
p("Caches that share memory cannot block each other",
  "Any number of caches over one memory, whose clients may race on any words: each cache keeps its protocol (order, echo, hit flags, bounds, request shapes) and answers everything it has accepted within the same number of its own productive cycles as a single cache.",
  "any number of caches of different sizes and associativities, all programs including racing ones, all interleavings and memory timings", "All interleavings of unbounded runs.",
  ["blocking_cache/test/MultiCacheTestCases.py:MultiCacheTestCases", "test/MemoryCL.py:MemoryCL", "test/MulticoreModel.py:MulticoreModel", CT+":FSM_state_M0"])
p("Software coherence gives sequential consistency",
  "Any number of caches over one memory, whose clients hand words over in software. At any time either one cache may modify a word and no other may touch it, or any number may read it. A cache touches the word only if its line was absent (invalidated, replaced, never fetched) at some time since it may; before it gives up the right to modify the word, its modifications have been answered and so has, after its last write, a request that writes the line back (FLUSH, an AMO on the line, the request that replaces the line); before it gives up the right to touch the word its accesses have been answered. Then every response on every cache is the one a single memory would give that executes all requests of all caches in the order of their acceptance, and memory holds the current value of every word nobody may modify. It holds word by word, so other words (of the same lines too) may be shared without discipline. Without the INV a reader may see old data although the writer's FLUSH was answered.",
  "any number of caches, all programs keeping the discipline, all interleavings and memory timings, changing owners, falsely shared lines", "All interleavings of unbounded runs with changing owners.",
  ["blocking_cache/test/MultiCacheTestCases.py:MultiCacheTestCases", "test/MemoryCL.py:MemoryCL", "test/MulticoreModel.py:MulticoreModel", CT+":FSM_STATE_INV", CT+":FSM_STATE_FLUSH", DP+":write_mask_M2"])
p("Race-free multi-cache tests pass in every run",
  "A multi-cache test is a list of messages (cache, order, request). The test bench sends each cache its own messages in order, and a message only when all messages of smaller order are answered. If no word has a race (a cache that modifies it in one order, or has not yet written modifications back, is the only one to touch it in that order; readers of later orders do not hold an old copy of its line), then in every run every response is the one of executing the messages one at a time in the order of the list on one memory, hit flags included. The repository's four multi-cache tests are race-free, and the responses written in them are those: no timing can make one of them fail. With a race responses may differ.",
  "any number of caches, all race-free message lists, all schedules of sources, sinks and memory", "The tests run four lists with one or two timings; the claim covers all lists and timings.",
  ["blocking_cache/test/MultiCacheTestCases.py:MultiCacheTestCases", "test/MulticoreModel.py:MulticoreModel", "test/sim_utils.py:MultiCacheTestHarness", "test/ProcModel.py:ProcModel"])
p("Programs and tests always finish",
  "Over any memory that answers each request once and in order: after a bounded number of productive cycles without a new request the cache is ready again whenever both of its sides are; a client that keeps offering its requests gets all of them accepted and answered within a bounded number of productive cycles. Several caches driven by MulticoreModel, with any messages (races included) whose orders do not decrease per cache: every message is sent and answered after a bounded number of rounds in which each cache gets some productive cycles and then one in which its source may send; with bounded memory latency and source delay, after a bounded number of cycles. Race-free tests, the repository's among them, so end with exactly the expected responses. A message followed by one of smaller order for the same cache is never sent.",
  "every configuration, program, history, schedule and memory latency; any number of caches", "Bounded liveness of all runs of any length.",
  [CT+":FSM_state_M0", CT+":cachereq_rdy", "test/MulticoreModel.py:MulticoreModel", "blocking_cache/test/MultiCacheTestCases.py:MultiCacheTestCases", "test/ProcModel.py:ProcModel"])
p("Exact service times",
  "With both sides ready, the response to a request is sent exactly so many cycles after the cycle in which it is accepted, not counting cycles in which memory owes an answer and sends none: 2 for a READ or WRITE hit; 7 for a miss, 8 if it replaces a dirty line; 6 for an AMO, 7 if its line must be written back first; one per line plus 3 for INV; one per line plus 4 per dirty line plus 3 for FLUSH. If a side is not always ready the count of productive cycles is an upper bound. INV makes no memory request, FLUSH at most one per line, other requests at most two; so with a memory that answers within L+1 cycles there is a worst-case number of cycles for each kind of request. All of it holds whatever data memory answers and for every cache among several sharing a memory.",
  "every configuration, request, history, schedule and memory timing", "Exact timing after every history; tests look at a few histories and at data only.",
  [CT+":FSM_state_M0", CT+":trans_M0", DP, "blocking_cache/units/StallEngine.py:StallEngine", "blocking_cache/units/MSHR.py:MSHR"])
p("What idle ports show does not matter",
  "Between runs with a well-behaved client and a memory that answers in order, change in any cycles what the request port shows while not enabled, what the memory response port shows while not enabled, and the opaque and length fields of memory answers. Then all outputs in all cycles stay the same (ready, responses, memory requests), except the opaque field of memory WRITE requests; the opaque of a FLUSH's write-backs really is whatever the idle request port shows. The type of a memory answer matters, contrary to README.md 78.",
  "every configuration, program, history, schedule, and every content of idle ports in every cycle", "A relation between all pairs of runs; a simulator shows one value on an idle port.",
  [CT+":trans_M0", DP+":cachereq_M1", DP+":cachereq_M2", "blocking_cache/units/MSHR.py:MSHR", "blocking_cache/README.md"])
p("Outputs react to the ready inputs only",
  "What the cache shows on its outputs in a cycle is determined by the past and the two ready inputs of that cycle: enabling a request, the request itself or a memory answer has no combinational effect on any output. Nothing is sent to either side unless both sides are ready. The request port's ready output does depend on the response port's ready input in the same cycle.",
  "every state, all inputs, legal or not", "Absence of an influence for all states and inputs.",
  [CT+":cachereq_rdy", CT+":ostall_M2", DP, "test/ProcModel.py:ProcModel"])
p("Two levels of cache",
  "Connect the memory port of one cache to the client port of another whose data width is the first one's line width (64 or 128 bits). If the client sends READs, AMOs, INV and FLUSH but no WRITE (an instruction cache, say), the pair behaves like one cache over a memory: responses are those of a flat byte memory, in order, and everything else proved of one cache holds of each level; the two levels do not block each other, and every accepted request is answered after a bounded number of cycles in which the client takes responses and the second level is served. With WRITEs it is false: a write-back is a WRITE of a whole line to the second level, which marks only one word dirty, so data is lost when the second level replaces the line.",
  "all pairs of fitting configurations, all programs without WRITE, histories, schedules and memory timings", "All runs of a composition that the repository never simulates.",
  ["blocking_cache/BlockingCacheRTL.py:BlockingCacheRTL", "blocking_cache/README.md", "mem_ifcs/MemMsg.py:mk_mem_req_msg", CT+":cachereq_rdy", DP+":memreq_M2"])
p("SRAM replacement for synthesis",
  "translate.py --replace-sram rewrites, in the generated Verilog, exactly the instances of SRAMs of 128x256, 26x128, 25x256 and 128x512 (bits x words) into instances of the wrapper with the same parameters, and leaves every other line as it is. The wrapper holds the same contents as the PyMTL SRAM after every sequence of operations and shows the same data after a read, for every shape. The cache with some of its arrays replaced, by cells that show anything when they are not read, has the outputs of the original in every cycle. All arrays of a cache are replaced only for lines of 128 bits, addresses of 32 bits and 4 KB with one or two ways or 8 KB with two; of the sizes the script offers with its default widths, 8 KB and direct-mapped 4 KB need a cell whose model is not in the repository.",
  "every SRAM shape and line of text, every configuration, every sequence of operations and inputs", "All shapes, configurations and runs; the flow is run for one.",
  ["blocking_cache/translate.py:replace_sram", "sram/brg_gf14_sram_generic_synopsys.v", "sram/SramPRTL.py:SramPRTL", DP+":tag_arrays_M1", "test/sim_utils.py:run_sim"])
p("Locks protect shared data",
  "Any number of caches over one memory. The clients use one word as a test-and-set lock: they modify it only by AMO_SWAP of 1 (acquired if it returns 0) and of 0 (by the holder, to release); they touch the protected words only while holding the lock and after an INV; and before an AMO on the lock the accesses have been answered, and after the last write a FLUSH. Everything else is unrestricted. Then at most one client holds the lock at any time; reads and AMOs on protected words return what one memory would that executes the requests of all caches in the order of their acceptance; a value read stays current until the reader releases the lock or modifies it; memory holds the current values whenever nobody holds the lock; and a counter that every client increments by READ and WRITE under the lock loses no increment. Without the FLUSH the next holder may read old data.",
  "any number of caches, all programs keeping the discipline, all interleavings and memory timings", "All interleavings of unbounded runs.",
  ["blocking_cache/test/MultiCacheTestCases.py:MultiCacheTestCases", "test/MemoryCL.py:MemoryCL", CT+":is_amo_M1", CT+":FSM_STATE_INV", CT+":FSM_STATE_FLUSH"])
p("How long a program takes",
  "No schedule makes the cache answer a request in fewer cycles than its service time (a hit 2, a miss 7 or 8, an AMO 6 or 7, INV lines + 3, FLUSH lines + 3 + 4 for each dirty line), or accept the next one more than a cycle before that. So a run that has answered a list of requests lasts at least one cycle for each line (initialisation), one for each request, and for each INV and FLUSH one for each line and 2 instead. Conversely a client that does not decline to send has all its answers after at most one cycle for each line, 9 for each request, and 5 for each line and 4 more for each INV and FLUSH, not counting cycles in which the sides are not ready or memory owes an answer. Hence every list the property-based tests can draw passes in bounded time; but not always in the 20000 cycles that run_sim allows: 40 INVs on a cache of 512 lines cannot finish, so these tests can fail on a correct cache.",
  "all configurations, programs, histories, schedules and memories that answer each request once", "Bounds over all schedules and programs; the false alarm needs a draw that random generation rarely makes.",
  [CT+":FSM_STATE_INV", CT+":FSM_STATE_FLUSH", CT+":cachereq_rdy", "test/sim_utils.py:run_sim", "blocking_cache/test/HypothesisTest.py:hypothesis_test_harness"])
p("The program determines the memory traffic",
  "The memory requests the cache makes, in type, address, length, mask and order, are a function of the types, addresses and lengths of the requests it accepts: not of the state before reset, the data, the opaque fields, the schedule or the memory's timing. The function is simple bookkeeping: which words are written and not written back, which line is in which way of each set, which way is next. A READ or WRITE of a resident line makes no request; of an invalidated line that still has words to be written back, one READ; otherwise it replaces the line of the next way, writing back exactly its pending words if there are any, then one READ. An AMO writes back the pending words of its own line if any, then is sent on, and leaves its way to be used next. INV makes no request. FLUSH writes back the lines with pending words from the last set and way to the first. At any moment the requests made are a prefix of those predicted for the accepted requests and include all those for the answered ones; the exact service time of every request follows. The same holds for each of several caches sharing a memory, whatever the others do.",
  "every configuration, program, state before reset, schedule, memory contents and timing", "A function of unbounded programs, and equality of all pairs of runs; the tests never look at the memory port.",
  [CT+":is_evict_M1", CT+":way_offset_M1", CT+":is_dty_M1", "blocking_cache/units/ReplacementPolicy.py:ReplacementPolicy", "blocking_cache/units/UpdateTagArrayUnit.py", DP+":memreq_M2"])
p("The schedule of a program, to the cycle",
  "If nobody makes the cache wait (the client takes responses and offers its next request whenever the cache is ready, the memory takes requests in every cycle and answers the oldest outstanding one in the next cycle), requests are accepted and answered exactly in cycles computed from the types, addresses and lengths of the requests: the first is accepted when all lines have been cleared; each is answered after its service time (2 for a hit, 7 or 8 for a miss, 6 or 7 for an AMO, lines+3 for INV, lines+3+4*dirty lines for FLUSH), and the next one is accepted one cycle before that, except that a WRITE hit to a word not yet pending delays the next request by one more cycle. With a slow memory the same holds counting only cycles in which memory does not make the cache wait.",
  "every configuration, program, state before reset and data; for the second part every memory timing", "Cycle-exact equality for unbounded programs; the tests check no cycle counts.",
  [CT+":transaction_logic_M0", CT+":is_write_hit_clean_M0", CT+":stall_M0", "blocking_cache/units/MSHR.py:MSHR", "test/sim_utils.py:run_sim"])
p("The schedule with a memory of fixed latency",
  "If the memory answers every request exactly L cycles after it is sent (L >= 1) and nobody else makes the cache wait, requests are accepted and answered exactly in cycles computed from the program and L: each request takes its time with a one-cycle memory, and L-1 cycles more for each time the cache waits for memory. That is once for a miss or an AMO, whether or not a dirty line is written back first, because the two memory requests go out back to back; once for every line a FLUSH writes back; never for a hit or an INV. So every cycle of latency costs a program exactly one cycle per wait.",
  "every configuration, program, latency, state before reset and data", "Cycle-exact equality for unbounded programs and all latencies; the tests check no cycle counts.",
  [CT+":transaction_logic_M0", CT+":FSM_STATE_FLUSH_WAIT", CT+":stall_M0", "blocking_cache/units/MSHR.py:MSHR", "test/MemoryCL.py:MemoryCL", "test/sim_utils.py:run_sim"])
p("The line trace tells what happened",
  "Every cycle the cache's line trace is one line of fixed layout (22 characters once the colours are removed). From its text alone a reader learns, correctly: whether the cache could take a request, whether memory answered, whether a memory request was sent and of which type, whether a request was accepted and of which type, whether a response was sent and of which type; a READ or WRITE is printed green in the second stage if its response will say hit and red if it will say miss; the state column says init in exactly the first cycles, one for each line of the cache, and inv or flush only while such a request is being served.",
  "all parameters; all reset states and all inputs (responses, memory requests), all runs with a client and memory obeying the interfaces (requests, colours, states), every cycle",
  "a wrong label or colour misleads whoever debugs with the trace but changes no response; no test looks at the text", ["blocking_cache/BlockingCacheCtrlRTL.py: line_trace", "blocking_cache/BlockingCacheRTL.py: line_trace"])
p("Caches sharing a memory keep each other's timing",
  "In two systems of caches over a shared memory, with any other caches, programs and memory contents, a cache whose client does the same in every cycle (data apart), on a memory port that serves it without regard to the other ports, shows the same on all its outputs in every cycle, data apart: no timing, hit flag or traffic of one cache tells anything about another. With a port of fixed latency its acceptance and answer cycles are those computed from its own program.",
  "all pairs of systems with any numbers of caches, sizes, programs, initial memories, data-race patterns, port timings that depend on the cache's own past, run lengths",
  "Non-interference compares two runs of unbounded systems; a test observes one run of one system.",
  [CT, DP, "test/MemoryCL.py: MemoryCL.up_mem", "test/sim_utils.py: MultiCache"])
p("Power-up contents never show",
  "Two caches that come out of reset with different contents of the tag and data arrays, of the arrays' output registers and of the stall registers, given the same inputs, show the same outputs in every cycle: for any inputs, legal or not, up to data; with a supported client and a memory, in every bit of the responses and in every bit of the memory requests that memory looks at, and memory ends with the same contents.",
  "all configurations, all pairs of power-up contents the arrays can hold, all input sequences",
  "Simulation starts every array at zero, so no test exercises any other power-up contents, let alone all pairs of them.",
  [CT, DP, "sram/SramGenericPRTL.py: SramGenericPRTL", "blocking_cache/units/StallEngine.py: StallEngine"])
p("Fields a request does not use do not matter",
  "No request uses its opaque field, a READ uses no data, a WRITE only the bits it writes, INV and FLUSH no address, length or data, an AMO on a 32-bit port no length: two runs whose inputs differ only in such fields, on idle ports and in opaque and length of memory answers show the same outputs in every cycle, but for the opaque and (INV, FLUSH, AMO) length fields the responses copy from the requests, the opaque of memory requests and the data field of memory READs; memory ends with the same contents.",
  "all configurations, all pairs of runs with a supported client and a memory that answers in order, all cycles",
  "A relation between two whole executions for every choice of the unused bits; a test runs one choice, usually zeros.",
  [CT, DP, "blocking_cache/units/arithmetics.py: DataReplicator, OffsetLenSelector", "blocking_cache/units/MSHR.py: MSHR"])
p("Losing several caches at once: memory holds whole moments of each owner's part of a line",
  "Several caches share one memory, each word having at most one writer. Whatever the moment all caches are lost, the part of each memory line that belongs to one cache is exactly what that cache's own first k requests left there, for some k past every answered FLUSH of that cache and every answered AMO of that cache on the line; the other caches' activity, even on the same line, does not matter. A cache that ended with an answered FLUSH finds, after a restart of all caches (of any size) on that memory, its own words as one flat memory through both sessions. Parts of one line with different owners may be from different moments.",
  "every number, size and associativity of caches, every ownership of words, every run and interleaving, every moment, every line, every restart",
  "Tests never cut power to caches in the middle of transactions of several caches on a shared line; the claim is over all moments of all interleavings.",
  [CT+":BlockingCacheCtrlRTL", DP+":BlockingCacheDpathRTL", "blocking_cache/test/MultiCacheTestCases.py", "test/sim_utils.py:MultiCacheTestHarness"])
p("The directed tests pass under every schedule",
  "Every directed test of one cache (GenericTestCases, AmoTests, InvFlushTests, OtherCiferTests) whose requests are supported ones gets, with any delays of source, sink and memory, only the responses written in its table, in order; and if the source keeps offering and the cache's sides keep being ready, all of them. In general the whole response (type, opaque, test, length, data) is a function of the accepted requests and the initial memory alone.",
  "all 60 of the 75 tests whose requests are supported, all states before reset, all schedules of source, sink and memory, all run lengths",
  "The test suite runs each table with a few stall probabilities, latencies and delays; passing under one schedule says nothing about the others.",
  ["blocking_cache/test/GenericTestCases.py", "blocking_cache/test/AmoTests.py", "blocking_cache/test/InvFlushTests.py", "blocking_cache/test/OtherCiferTests.py", "test/sim_utils.py:TestHarness"])
p("WRITE_INIT works in a direct-mapped cache",
  "In a cache with one way, clients may mix WRITE_INIT (aligned, of the sizes supported for WRITE) with all other supported requests: every response is the one determined by what earlier requests and responses tell. A WRITE_INIT is answered with test 0 and data 0, uses no memory, makes its line present, and its bytes (and all other known bytes of lines that stay in the cache) are read back, with test 1 and again without memory, until the line is replaced, invalidated or hit by an AMO. Not so: the word is never written back, and a WRITE_INIT can make the cache write back words nobody wrote.",
  "all well-formed parameters with one way, all states before reset, all request sequences, all timings of client and memory, and whatever data memory answers",
  "The tests use WRITE_INIT to set up a word and read it back under a few delays; that it holds for every history, schedule and memory content is not settled by that.",
  [CT+":BlockingCacheCtrlRTL", DP+":BlockingCacheDpathRTL", "blocking_cache/units/UpdateTagArrayUnit.py"])
p("WRITE_INIT does not block a direct-mapped cache",
  "In a cache with one way, clients may mix WRITE_INIT with all other supported requests without losing progress: everything accepted is answered within 2 * (5 * lines + 3) productive cycles (within that times the memory latency plus one, if both sides are always ready), at most two requests and two memory requests are unanswered at a time, the cache becomes ready for the next request again, a client that keeps offering gets its whole program accepted and answered, and the directed tests with WRITE_INIT come to their end with exactly the responses of their tables.",
  "all well-formed parameters with one way, all states before reset, all request sequences, all timings of client and memory, all run lengths",
  "A test that ends shows that one schedule does not deadlock; progress must hold from every reachable state under every schedule.",
  [CT+":BlockingCacheCtrlRTL", "blocking_cache/test/GenericTestCases.py", "test/sim_utils.py:TestHarness"])
p("What main memory holds of a line never goes back in time",
  "Look at main memory at any number of moments of one run. At each moment every line as a whole holds what it held after some number of the accepted requests, past every answered request that made something durable; and these numbers can be chosen so that they never decrease over time: memory never replaces newer contents of a line by older ones. With several caches over one memory the same holds for the part of a line that belongs to a cache, counted in that cache's own requests, whatever the others do.",
  "all well-formed parameters, all states before reset, all supported request sequences of any number of caches, all timings of clients and memory, all lines, all choices of moments",
  "A single late or repeated write-back of old contents is visible only at one moment of one schedule; the order of images must hold over all pairs of moments of all runs.",
  [CT+":BlockingCacheCtrlRTL", DP+":BlockingCacheDpathRTL", MM])
p("A bigger cache is never worse",
  "Give a cache more sets, more ways, or both (same line size and data width), and run the same program, in the sense of types, addresses and lengths, on both: every request that hits in the smaller cache hits in the bigger one, no line is refilled more often, no line and no word of a line is written back more often, and memory receives no more requests in total, whatever data, memories and timings the two runs have, alone or among other caches. If nothing but a memory of fixed latency (no longer for the bigger cache) makes either wait, no request before the first INV or FLUSH is accepted or answered later, counted from the end of the initialisation; a FLUSH can take longer. More ways with the same total number of lines can be worse.",
  "all pairs of well-formed parameters of which one has at least the sets and ways of the other, all supported request sequences, all memories and timings of either run",
  "It is an inclusion between two machines kept over unbounded histories, through INV, FLUSH and AMOs that leave holes in the sets; a test compares two sizes on a few traces.",
  [CT+":BlockingCacheCtrlRTL", "blocking_cache/units/ReplacementPolicy.py", "blocking_cache/CacheDerivedParams.py"])
p("A device may share memory with the caches",
  "Let a device (a DMA engine, or a test through read_mem and write_mem) read and write the memory behind any number of caches, at any time between two cycles. If the words it reads or writes are flushed by the client before (when modified), and the words it writes are invalidated by the client before they are next requested, then all answers of all caches and all values the device reads are those of one memory on which the requests, in order of acceptance, and the accesses of the device take effect one after the other. Without the INV a later READ misses the device's write, and without the FLUSH the device misses an answered WRITE.",
  "all numbers of caches, all well-formed parameters, all request sequences and timings, all interleavings with accesses of the device that obey the discipline, word by word",
  "Whether a stale line or an unwritten word is still around depends on the whole history of each cache and on the moment of the access; a test checks a few handovers.",
  ["test/MemoryCL.py:MemoryCL.read_mem", "test/MemoryCL.py:MemoryCL.write_mem", CT+":BlockingCacheCtrlRTL"])
p("Ports of the test memory do not disturb each other",
  "With any number of ports and messages without a write mask, ports whose requests use different bytes do not notice each other: each port's responses are, in order, those of a private memory that starts with the same contents and executes only that port's requests, and its bytes end up accordingly. So every test case of the memory's own test suite expects the right responses, on any number of ports, from any base addresses at least 80 bytes apart, under every schedule, and what is written directly is what is read through a port and directly afterwards. With the same base address on two ports it can fail.",
  "all numbers of ports, all schedules of arrival, execution and delivery, all initial contents, all mixtures of the test cases (with any values drawn in the random one)",
  "The tests run one schedule per parameter set; that the expected responses do not depend on the order in which the ports are served is what they silently assume.",
  ["test/MemoryCL.py:MemoryCL", "test/MemoryCL_test.py:TestHarness", "test/MemoryCL_test.py:test_2port", "test/MemoryCL_test.py:test_20port", "test/MemoryCL_test.py:test_read_write_mem"])
open("/verif/properties.jsonl","w").write("".join(json.dumps(x)+"\n" for x in P))
print(len(P))
