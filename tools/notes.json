{
 "C01": {
  "note": "Model: cycle-level RTL (Rtl.v) with an in-order memory of any latency; every supported parameter set (wf_params: 1 or 2 ways, data width 32/64/128), every well-formed request sequence and every ready/valid schedule."
 },
 "C02": {
  "note": "Model: cycle-level RTL (Rtl.v) with an in-order memory of any latency; every supported parameter set (wf_params: 1 or 2 ways, data width 32/64/128), every well-formed request sequence and every ready/valid schedule."
 },
 "C03": {
  "note": "Model: cycle-level RTL (Rtl.v) with an in-order memory of any latency; every supported parameter set (wf_params: 1 or 2 ways, data width 32/64/128), every well-formed request sequence and every ready/valid schedule."
 },
 "C04": {
  "note": "Model: cycle-level RTL (Rtl.v) with an in-order memory of any latency; every supported parameter set (wf_params: 1 or 2 ways, data width 32/64/128), every well-formed request sequence and every ready/valid schedule."
 },
 "C05": {
  "note": "Model: cycle-level RTL (Rtl.v) with an in-order memory of any latency; every supported parameter set (wf_params: 1 or 2 ways, data width 32/64/128), every well-formed request sequence and every ready/valid schedule."
 },
 "C06": {
  "note": "Model: cycle-level RTL (Rtl.v) with an in-order memory of any latency; every supported parameter set (wf_params: 1 or 2 ways, data width 32/64/128), every well-formed request sequence and every ready/valid schedule."
 },
 "C07": {
  "note": "Model: cycle-level RTL (Rtl.v) with an in-order memory of any latency; every supported parameter set (wf_params: 1 or 2 ways, data width 32/64/128), every well-formed request sequence and every ready/valid schedule."
 },
 "C08": {
  "note": "Model: cycle-level RTL (Rtl.v) with an in-order memory of any latency; every supported parameter set (wf_params: 1 or 2 ways, data width 32/64/128), every well-formed request sequence and every ready/valid schedule."
 },
 "C09": {
  "note": "Model: cycle-level RTL (Rtl.v) with an in-order memory of any latency; every supported parameter set (wf_params: 1 or 2 ways, data width 32/64/128), every well-formed request sequence and every ready/valid schedule."
 },
 "C10": {
  "note": "Model: cycle-level RTL (Rtl.v) with an in-order memory of any latency; every supported parameter set (wf_params: 1 or 2 ways, data width 32/64/128), every well-formed request sequence and every ready/valid schedule."
 },
 "C11": {
  "note": "Model: cycle-level RTL (Rtl.v) with an in-order memory of any latency; every supported parameter set (wf_params: 1 or 2 ways, data width 32/64/128), every well-formed request sequence and every ready/valid schedule."
 },
 "C12": {
  "note": "Model: cycle-level RTL (Rtl.v) with an in-order memory of any latency; every supported parameter set (wf_params: 1 or 2 ways, data width 32/64/128), every well-formed request sequence and every ready/valid schedule."
 },
 "C13": {
  "note": "Model: cycle-level RTL (Rtl.v) with an in-order memory of any latency; every supported parameter set (wf_params: 1 or 2 ways, data width 32/64/128), every well-formed request sequence and every ready/valid schedule."
 },
 "C14": {
  "note": "Model: cycle-level RTL (Rtl.v) with an in-order memory of any latency; every supported parameter set (wf_params: 1 or 2 ways, data width 32/64/128), every well-formed request sequence and every ready/valid schedule."
 },
 "C17": {
  "note": "Model: cycle-level RTL (Rtl.v) with an in-order memory of any latency; every supported parameter set (wf_params: 1 or 2 ways, data width 32/64/128), every well-formed request sequence and every ready/valid schedule."
 },
 "C18": {
  "note": "Model: cycle-level RTL (Rtl.v) with an in-order memory of any latency; every supported parameter set (wf_params: 1 or 2 ways, data width 32/64/128), every well-formed request sequence and every ready/valid schedule."
 },
 "C19": {
  "note": "Model: cycle-level RTL (Rtl.v) with an in-order memory of any latency; every supported parameter set (wf_params: 1 or 2 ways, data width 32/64/128), every well-formed request sequence and every ready/valid schedule."
 },
 "C42": {
  "note": "Model: cycle-level RTL (Rtl.v) with an in-order memory of any latency; every supported parameter set (wf_params: 1 or 2 ways, data width 32/64/128), every well-formed request sequence and every ready/valid schedule."
 },
 "C15": {
  "note": "Model: cycle-level RTL (Rtl.v) with an in-order memory of any latency; every supported parameter set (wf_params: 1 or 2 ways, data width 32/64/128), every well-formed request sequence and every ready/valid schedule. Progress counts cycles in which both output ports are ready and memory answers (productive cycles); C16 shows the assumption is needed."
 },
 "C16": {
  "note": "The plain liveness claim (each port ready infinitely often) is refuted by a schedule; the theorem gives the exact condition."
 },
 "C20": {
  "note": "Datapath unit models, all widths the units are instantiated with; unrestricted operands."
 },
 "C21": {
  "note": "Datapath unit models, all widths the units are instantiated with; unrestricted operands."
 },
 "C22": {
  "note": "Agreement for all requests except AMO with data width above 32, where the refutation shows the two muxes differ."
 },
 "C23": {
  "note": "Arithmetic of CacheParams for every wf_params; rows and tags as the RTL slices them."
 },
 "C24": {
  "note": "Arithmetic of CacheParams for every wf_params; rows and tags as the RTL slices them."
 },
 "C25": {
  "note": "pymtl3 SRAM model and the Verilog SRAM; the Verilog one clears its output when idle, hence the hold refutation (C47 shows it does not matter)."
 },
 "C26": {
  "note": "The plain claim is false: a WRITE of more than one word marks one word dirty. Proved: exactly which words reach memory; refutation with a concrete run."
 },
 "C27": {
  "note": "Both plain claims about WRITE_INIT are false for two ways; refuted by concrete runs."
 },
 "C28": {
  "note": "Model of test/MemoryCL.py and its memory operations; port queues and latencies as in the source."
 },
 "C29": {
  "note": "Models of the Python reference tracker and ModelCache; amo_total_refuted: ModelCache.amo raises for some requests."
 },
 "C30": {
  "note": "Models of the Python reference tracker and ModelCache; amo_total_refuted: ModelCache.amo raises for some requests."
 },
 "C31": {
  "note": "Model: cycle-level RTL (Rtl.v) with an in-order memory of any latency; every supported parameter set (wf_params: 1 or 2 ways, data width 32/64/128), every well-formed request sequence and every ready/valid schedule. Against the ModelCache model; double_word_refuted shows the one request (WRITE len=3) on which they differ."
 },
 "C32": {
  "note": "Any number of caches of any supported sizes on one memory with a port per cache, every interleaving; each word has at most one writer (respects) unless the theorem says otherwise."
 },
 "C33": {
  "note": "Any number of caches of any supported sizes on one memory with a port per cache, every interleaving; each word has at most one writer (respects) unless the theorem says otherwise."
 },
 "C68": {
  "note": "Any number of caches of any supported sizes on one memory with a port per cache, every interleaving; each word has at most one writer (respects) unless the theorem says otherwise."
 },
 "C34": {
  "note": "Negative result: with acknowledgements out of order an accepted request is lost; a concrete run. The other theorems assume an in-order memory."
 },
 "C35": {
  "note": "Models of the processor and multicore test models; any number of processors, every schedule."
 },
 "C40": {
  "note": "Models of the processor and multicore test models; any number of processors, every schedule."
 },
 "C36": {
  "note": "Message and tag-entry bit layouts for all field values."
 },
 "C37": {
  "note": "Model: cycle-level RTL (Rtl.v) with an in-order memory of any latency; every supported parameter set (wf_params: 1 or 2 ways, data width 32/64/128), every well-formed request sequence and every ready/valid schedule. 64-bit data; double-word WRITE on the datapath and the whole system."
 },
 "C38": {
  "note": "Model: cycle-level RTL (Rtl.v) with an in-order memory of any latency; every supported parameter set (wf_params: 1 or 2 ways, data width 32/64/128), every well-formed request sequence and every ready/valid schedule. Cycle-exact symbolic execution; sequences of any length."
 },
 "C41": {
  "note": "Model: cycle-level RTL (Rtl.v) with an in-order memory of any latency; every supported parameter set (wf_params: 1 or 2 ways, data width 32/64/128), every well-formed request sequence and every ready/valid schedule. Cycle-exact symbolic execution; sequences of any length."
 },
 "C39": {
  "note": "All widths and values; load_refuted: CounterEnRst ignores its load input."
 },
 "C43": {
  "note": "Any number of caches of any supported sizes on one memory, every interleaving, no ownership assumption; the word with AMOs is not written by WRITE requests."
 },
 "C44": {
  "note": "The request and expectation generators of the random and hypothesis tests, for every choice they can draw; every schedule of source, sink and memory."
 },
 "C45": {
  "note": "Model: cycle-level RTL (Rtl.v) with an in-order memory of any latency; every supported parameter set (wf_params: 1 or 2 ways, data width 32/64/128), every well-formed request sequence and every ready/valid schedule. Crash = loss of all cache state at any cycle; memory keeps its contents."
 },
 "C46": {
  "note": "Model: cycle-level RTL (Rtl.v) with an in-order memory of any latency; every supported parameter set (wf_params: 1 or 2 ways, data width 32/64/128), every well-formed request sequence and every ready/valid schedule. Crash = loss of all cache state at any cycle; memory keeps its contents."
 },
 "C47": {
  "note": "Output of idle or written SRAM cycles arbitrary; control and results unchanged."
 },
 "C48": {
  "note": "Model: cycle-level RTL (Rtl.v) with any memory that answers in order with the right types of any latency; every supported parameter set (wf_params: 1 or 2 ways, data width 32/64/128), every well-formed request sequence and every ready/valid schedule."
 },
 "C49": {
  "note": "Model: cycle-level RTL (Rtl.v) with any memory that answers in order with the right types of any latency; every supported parameter set (wf_params: 1 or 2 ways, data width 32/64/128), every well-formed request sequence and every ready/valid schedule."
 },
 "C50": {
  "note": "Any number of caches, no ownership assumption: the memory may return anything."
 },
 "C51": {
  "note": "Any number of caches of any supported sizes on one memory with a port per cache, every interleaving. Ownership may move with FLUSH/INV (the discipline stated in PropDyn.v); without_inv_refuted shows INV is needed."
 },
 "C52": {
  "note": "The multicore test lists of the repository, and every list of the race-free shape; every schedule."
 },
 "C53": {
  "note": "The multicore test lists of the repository, and every list of the race-free shape; every schedule."
 },
 "C54": {
  "note": "Model: cycle-level RTL (Rtl.v) with an in-order memory of any latency; every supported parameter set (wf_params: 1 or 2 ways, data width 32/64/128), every well-formed request sequence and every ready/valid schedule. Times are exact cycle counts of the RTL model; C63 fixes the memory latency."
 },
 "C60": {
  "note": "Model: cycle-level RTL (Rtl.v) with an in-order memory of any latency; every supported parameter set (wf_params: 1 or 2 ways, data width 32/64/128), every well-formed request sequence and every ready/valid schedule. Times are exact cycle counts of the RTL model; C63 fixes the memory latency."
 },
 "C61": {
  "note": "Model: cycle-level RTL (Rtl.v) with an in-order memory of any latency; every supported parameter set (wf_params: 1 or 2 ways, data width 32/64/128), every well-formed request sequence and every ready/valid schedule. Times are exact cycle counts of the RTL model; C63 fixes the memory latency."
 },
 "C62": {
  "note": "Model: cycle-level RTL (Rtl.v) with an in-order memory of any latency; every supported parameter set (wf_params: 1 or 2 ways, data width 32/64/128), every well-formed request sequence and every ready/valid schedule. Times are exact cycle counts of the RTL model; C63 fixes the memory latency."
 },
 "C63": {
  "note": "Model: cycle-level RTL (Rtl.v) with an in-order memory of any latency; every supported parameter set (wf_params: 1 or 2 ways, data width 32/64/128), every well-formed request sequence and every ready/valid schedule. Times are exact cycle counts of the RTL model; C63 fixes the memory latency."
 },
 "C55": {
  "note": "Two-run simulation of the RTL: outputs compared in every cycle except the fields named in the statement; the refutations show these exceptions are needed."
 },
 "C67": {
  "note": "Two-run simulation of the RTL: outputs compared in every cycle except the fields named in the statement; the refutations show these exceptions are needed."
 },
 "C56": {
  "note": "Model: cycle-level RTL (Rtl.v) with an in-order memory of any latency; every supported parameter set (wf_params: 1 or 2 ways, data width 32/64/128), every well-formed request sequence and every ready/valid schedule."
 },
 "C57": {
  "note": "Two RTL models wired together, upper line width = lower data width (fits). WRITEs are refuted (the stack loses WRITE data), so the positive theorems are for programs without WRITE (no_write)."
 },
 "C58": {
  "note": "String-level model of the replacement script, module wrapper with the hard macros' specified contract."
 },
 "C59": {
  "note": "Any number of caches, test-and-set lock protocol with INV after acquire and FLUSH before release; without_flush_refuted shows it is needed."
 },
 "C64": {
  "note": "Default-level line trace as strings, including colours."
 },
 "C65": {
  "note": "Any number of caches; the memory's answers come at the same times in both runs, whatever they contain."
 },
 "C66": {
  "note": "SRAM and stall-engine contents arbitrary at power-up."
 },
 "C69": {
  "note": "Of the 15 other tables, the ten that use WRITE_INIT with one way are under C70 (C70_init_tests_pass); four use WRITE_INIT with two ways, one a 16-byte WRITE: replayed only under fixed schedules (Conform.v)."
 },
 "C70": {
  "note": "One way only; with two ways WRITE_INIT does not work (C27). The two refuted claims state what is lost on eviction and what is written back wrongly."
 },
 "C71": {
  "note": "One way only, as C70; for caches without WRITE_INIT see C15 and C53."
 },
 "C72": {
  "note": "Per line, not across lines (unflushed writes reach memory out of order: see C46). The guarantee at one moment is C45 and C68."
 },
 "C73": {
  "note": "Time is compared up to the first INV or FLUSH: those and the initialisation after reset take longer in a bigger cache (C73_flush_time_refuted, C17)."
 }
}
