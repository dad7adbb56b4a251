{
 "claims": [
  {
   "property": "C01",
   "status": "proved",
   "theorems": [
    "C01_flat_memory"
   ],
   "note": "Model: cycle-level RTL (Rtl.v) with an in-order memory of any latency; every supported parameter set (wf_params: 1 or 2 ways, data width 32/64/128), every well-formed request sequence and every ready/valid schedule."
  },
  {
   "property": "C02",
   "status": "proved",
   "theorems": [
    "C02_in_order_echo"
   ],
   "note": "Model: cycle-level RTL (Rtl.v) with an in-order memory of any latency; every supported parameter set (wf_params: 1 or 2 ways, data width 32/64/128), every well-formed request sequence and every ready/valid schedule."
  },
  {
   "property": "C03",
   "status": "proved",
   "theorems": [
    "C03_lru_hits"
   ],
   "note": "Model: cycle-level RTL (Rtl.v) with an in-order memory of any latency; every supported parameter set (wf_params: 1 or 2 ways, data width 32/64/128), every well-formed request sequence and every ready/valid schedule."
  },
  {
   "property": "C04",
   "status": "proved",
   "theorems": [
    "C04_amo_once",
    "C04_amo_flushes_line"
   ],
   "note": "Model: cycle-level RTL (Rtl.v) with an in-order memory of any latency; every supported parameter set (wf_params: 1 or 2 ways, data width 32/64/128), every well-formed request sequence and every ready/valid schedule."
  },
  {
   "property": "C05",
   "status": "proved",
   "theorems": [
    "C05_amo_uncaches",
    "C05_next_access_misses",
    "C05_others_stay"
   ],
   "note": "Model: cycle-level RTL (Rtl.v) with an in-order memory of any latency; every supported parameter set (wf_params: 1 or 2 ways, data width 32/64/128), every well-formed request sequence and every ready/valid schedule."
  },
  {
   "property": "C06",
   "status": "proved",
   "theorems": [
    "C06_inv_silent",
    "C06_inv_empties"
   ],
   "note": "Model: cycle-level RTL (Rtl.v) with an in-order memory of any latency; every supported parameter set (wf_params: 1 or 2 ways, data width 32/64/128), every well-formed request sequence and every ready/valid schedule."
  },
  {
   "property": "C07",
   "status": "proved",
   "theorems": [
    "C07_flush_memory"
   ],
   "note": "Model: cycle-level RTL (Rtl.v) with an in-order memory of any latency; every supported parameter set (wf_params: 1 or 2 ways, data width 32/64/128), every well-formed request sequence and every ready/valid schedule."
  },
  {
   "property": "C08",
   "status": "proved",
   "theorems": [
    "C08_flush_keeps_lines",
    "C08_flush_idempotent"
   ],
   "note": "Model: cycle-level RTL (Rtl.v) with an in-order memory of any latency; every supported parameter set (wf_params: 1 or 2 ways, data width 32/64/128), every well-formed request sequence and every ready/valid schedule."
  },
  {
   "property": "C09",
   "status": "proved",
   "theorems": [
    "C09_exact_writebacks",
    "C09_pending_meaning"
   ],
   "note": "Model: cycle-level RTL (Rtl.v) with an in-order memory of any latency; every supported parameter set (wf_params: 1 or 2 ways, data width 32/64/128), every well-formed request sequence and every ready/valid schedule."
  },
  {
   "property": "C10",
   "status": "proved",
   "theorems": [
    "C10_en_rdy"
   ],
   "note": "Model: cycle-level RTL (Rtl.v) with an in-order memory of any latency; every supported parameter set (wf_params: 1 or 2 ways, data width 32/64/128), every well-formed request sequence and every ready/valid schedule."
  },
  {
   "property": "C11",
   "status": "proved",
   "theorems": [
    "C11_in_flight",
    "C11_ready_means_served",
    "C11_ready_quiet"
   ],
   "note": "Model: cycle-level RTL (Rtl.v) with an in-order memory of any latency; every supported parameter set (wf_params: 1 or 2 ways, data width 32/64/128), every well-formed request sequence and every ready/valid schedule."
  },
  {
   "property": "C12",
   "status": "proved",
   "theorems": [
    "C12_outstanding"
   ],
   "note": "Model: cycle-level RTL (Rtl.v) with an in-order memory of any latency; every supported parameter set (wf_params: 1 or 2 ways, data width 32/64/128), every well-formed request sequence and every ready/valid schedule."
  },
  {
   "property": "C13",
   "status": "proved",
   "theorems": [
    "C13_response_captured"
   ],
   "note": "Model: cycle-level RTL (Rtl.v) with an in-order memory of any latency; every supported parameter set (wf_params: 1 or 2 ways, data width 32/64/128), every well-formed request sequence and every ready/valid schedule."
  },
  {
   "property": "C14",
   "status": "proved",
   "theorems": [
    "C14_timing_independent",
    "C14_same_results"
   ],
   "note": "Model: cycle-level RTL (Rtl.v) with an in-order memory of any latency; every supported parameter set (wf_params: 1 or 2 ways, data width 32/64/128), every well-formed request sequence and every ready/valid schedule."
  },
  {
   "property": "C15",
   "status": "proved",
   "theorems": [
    "C15_progress",
    "C15_latency"
   ],
   "note": "Model: cycle-level RTL (Rtl.v) with an in-order memory of any latency; every supported parameter set (wf_params: 1 or 2 ways, data width 32/64/128), every well-formed request sequence and every ready/valid schedule. Progress counts cycles in which both output ports are ready and memory answers (productive cycles); C16 shows the assumption is needed."
  },
  {
   "property": "C16",
   "status": "proved",
   "theorems": [
    "C16_never_both",
    "C16_no_progress",
    "C16_live_refuted"
   ],
   "note": "The plain liveness claim (each port ready infinitely often) is refuted by a schedule; the theorem gives the exact condition."
  },
  {
   "property": "C17",
   "status": "proved",
   "theorems": [
    "C17_init_refuses",
    "C17_init_done"
   ],
   "note": "Model: cycle-level RTL (Rtl.v) with an in-order memory of any latency; every supported parameter set (wf_params: 1 or 2 ways, data width 32/64/128), every well-formed request sequence and every ready/valid schedule."
  },
  {
   "property": "C18",
   "status": "proved",
   "theorems": [
    "C18_unique_line"
   ],
   "note": "Model: cycle-level RTL (Rtl.v) with an in-order memory of any latency; every supported parameter set (wf_params: 1 or 2 ways, data width 32/64/128), every well-formed request sequence and every ready/valid schedule."
  },
  {
   "property": "C19",
   "status": "proved",
   "theorems": [
    "C19_memreq_shape"
   ],
   "note": "Model: cycle-level RTL (Rtl.v) with an in-order memory of any latency; every supported parameter set (wf_params: 1 or 2 ways, data width 32/64/128), every well-formed request sequence and every ready/valid schedule."
  },
  {
   "property": "C20",
   "status": "proved",
   "theorems": [
    "C20_subword_write"
   ],
   "note": "Datapath unit models, all widths the units are instantiated with; unrestricted operands."
  },
  {
   "property": "C21",
   "status": "proved",
   "theorems": [
    "C21_subword_read",
    "C21_no_data",
    "C21_amo_word"
   ],
   "note": "Datapath unit models, all widths the units are instantiated with; unrestricted operands."
  },
  {
   "property": "C22",
   "status": "proved",
   "theorems": [
    "C22_muxes_agree",
    "C22_amo_difference",
    "C22_amo_agree_refuted"
   ],
   "note": "Agreement for all requests except AMO with data width above 32, where the refutation shows the two muxes differ."
  },
  {
   "property": "C23",
   "status": "proved",
   "theorems": [
    "C23_address_lossless",
    "C23_address_fields",
    "C23_rows_distinct",
    "C23_rows_all_used",
    "C23_counter_enumerates"
   ],
   "note": "Arithmetic of CacheParams for every wf_params; rows and tags as the RTL slices them."
  },
  {
   "property": "C24",
   "status": "proved",
   "theorems": [
    "C24_parameters"
   ],
   "note": "Arithmetic of CacheParams for every wf_params; rows and tags as the RTL slices them."
  },
  {
   "property": "C25",
   "status": "proved",
   "theorems": [
    "C25_last_write",
    "C25_read_and_hold",
    "C25_width",
    "C25_cache_sram",
    "C25_verilog_contents",
    "C25_verilog_output",
    "C25_verilog_hold_refuted"
   ],
   "note": "pymtl3 SRAM model and the Verilog SRAM; the Verilog one clears its output when idle, hence the hold refutation (C47 shows it does not matter)."
  },
  {
   "property": "C26",
   "status": "proved",
   "theorems": [
    "C26_writeback_words",
    "C26_memory_words",
    "C26_wide_write_refuted"
   ],
   "note": "The plain claim is false: a WRITE of more than one word marks one word dirty. Proved: exactly which words reach memory; refutation with a concrete run."
  },
  {
   "property": "C27",
   "status": "proved",
   "theorems": [
    "C27_write_init_refuted",
    "C27_init_corrupts_refuted"
   ],
   "note": "Both plain claims about WRITE_INIT are false for two ways; refuted by concrete runs."
  },
  {
   "property": "C28",
   "status": "proved",
   "theorems": [
    "C28_sequential",
    "C28_read",
    "C28_write",
    "C28_amo",
    "C28_amo_functions",
    "C28_echo",
    "C28_serves_cache",
    "C28_serves_caches"
   ],
   "note": "Model of test/MemoryCL.py and its memory operations; port queues and latencies as in the source."
  },
  {
   "property": "C29",
   "status": "proved",
   "theorems": [
    "C29_lru_distance",
    "C29_lru_list"
   ],
   "note": "Models of the Python reference tracker and ModelCache; amo_total_refuted: ModelCache.amo raises for some requests."
  },
  {
   "property": "C30",
   "status": "proved",
   "theorems": [
    "C30_flat_memory",
    "C30_amo_total_refuted"
   ],
   "note": "Models of the Python reference tracker and ModelCache; amo_total_refuted: ModelCache.amo raises for some requests."
  },
  {
   "property": "C31",
   "status": "proved",
   "theorems": [
    "C31_rtl_agrees",
    "C31_double_word_refuted"
   ],
   "note": "Model: cycle-level RTL (Rtl.v) with an in-order memory of any latency; every supported parameter set (wf_params: 1 or 2 ways, data width 32/64/128), every well-formed request sequence and every ready/valid schedule. Against the ModelCache model; double_word_refuted shows the one request (WRITE len=3) on which they differ."
  },
  {
   "property": "C32",
   "status": "proved",
   "theorems": [
    "C32_own_accesses",
    "C32_hit_flags",
    "C32_no_overwrite",
    "C32_writebacks",
    "C32_flushed",
    "C32_untouched"
   ],
   "note": "Any number of caches of any supported sizes on one memory with a port per cache, every interleaving; each word has at most one writer (respects) unless the theorem says otherwise."
  },
  {
   "property": "C33",
   "status": "proved",
   "theorems": [
    "C33_fresh",
    "C33_message"
   ],
   "note": "Any number of caches of any supported sizes on one memory with a port per cache, every interleaving; each word has at most one writer (respects) unless the theorem says otherwise."
  },
  {
   "property": "C34",
   "status": "proved",
   "theorems": [
    "C34_out_of_order_refuted"
   ],
   "note": "Negative result: with acknowledgements out of order an accepted request is lost; a concrete run. The other theorems assume an in-order memory."
  },
  {
   "property": "C35",
   "status": "proved",
   "theorems": [
    "C35_counter",
    "C35_idle_ignores_ready",
    "C35_loop",
    "C35_transparent",
    "C35_complete"
   ],
   "note": "Models of the processor and multicore test models; any number of processors, every schedule."
  },
  {
   "property": "C36",
   "status": "proved",
   "theorems": [
    "C36_tag_entry",
    "C36_tag_entry_bits",
    "C36_request",
    "C36_request_bits",
    "C36_response",
    "C36_response_bits",
    "C36_memory_request",
    "C36_memory_request_bits",
    "C36_type_codes"
   ],
   "note": "Message and tag-entry bit layouts for all field values."
  },
  {
   "property": "C37",
   "status": "proved",
   "theorems": [
    "C37_double_word_write",
    "C37_both_words_dirty",
    "C37_both_words_in_memory"
   ],
   "note": "Model: cycle-level RTL (Rtl.v) with an in-order memory of any latency; every supported parameter set (wf_params: 1 or 2 ways, data width 32/64/128), every well-formed request sequence and every ready/valid schedule. 64-bit data; double-word WRITE on the datapath and the whole system."
  },
  {
   "property": "C38",
   "status": "proved",
   "theorems": [
    "C38_hit_timing"
   ],
   "note": "Model: cycle-level RTL (Rtl.v) with an in-order memory of any latency; every supported parameter set (wf_params: 1 or 2 ways, data width 32/64/128), every well-formed request sequence and every ready/valid schedule. Cycle-exact symbolic execution; sequences of any length."
  },
  {
   "property": "C39",
   "status": "proved",
   "theorems": [
    "C39_counter",
    "C39_down_counter",
    "C39_cache_counter",
    "C39_up_down_counter",
    "C39_load_refuted"
   ],
   "note": "All widths and values; load_refuted: CounterEnRst ignores its load input."
  },
  {
   "property": "C40",
   "status": "proved",
   "theorems": [
    "C40_order_barrier"
   ],
   "note": "Models of the processor and multicore test models; any number of processors, every schedule."
  },
  {
   "property": "C41",
   "status": "proved",
   "theorems": [
    "C41_hit_throughput"
   ],
   "note": "Model: cycle-level RTL (Rtl.v) with an in-order memory of any latency; every supported parameter set (wf_params: 1 or 2 ways, data width 32/64/128), every well-formed request sequence and every ready/valid schedule. Cycle-exact symbolic execution; sequences of any length."
  },
  {
   "property": "C42",
   "status": "proved",
   "theorems": [
    "C42_hits_silent",
    "C42_traffic_per_request"
   ],
   "note": "Model: cycle-level RTL (Rtl.v) with an in-order memory of any latency; every supported parameter set (wf_params: 1 or 2 ways, data width 32/64/128), every well-formed request sequence and every ready/valid schedule."
  },
  {
   "property": "C43",
   "status": "proved",
   "theorems": [
    "C43_amo_atomic",
    "C43_test_and_set",
    "C43_counter"
   ],
   "note": "Any number of caches of any supported sizes on one memory, every interleaving, no ownership assumption; the word with AMOs is not written by WRITE requests."
  },
  {
   "property": "C44",
   "status": "proved",
   "theorems": [
    "C44_hypothesis_test",
    "C44_random_test",
    "C44_test_passes"
   ],
   "note": "The request and expectation generators of the random and hypothesis tests, for every choice they can draw; every schedule of source, sink and memory."
  },
  {
   "property": "C45",
   "status": "proved",
   "theorems": [
    "C45_crash_consistent",
    "C45_global_prefix_refuted"
   ],
   "note": "Model: cycle-level RTL (Rtl.v) with an in-order memory of any latency; every supported parameter set (wf_params: 1 or 2 ways, data width 32/64/128), every well-formed request sequence and every ready/valid schedule. Crash = loss of all cache state at any cycle; memory keeps its contents."
  },
  {
   "property": "C46",
   "status": "proved",
   "theorems": [
    "C46_reset_state",
    "C46_recovery",
    "C46_clean_shutdown",
    "C46_late_answers",
    "C46_stale_answer_refuted"
   ],
   "note": "Model: cycle-level RTL (Rtl.v) with an in-order memory of any latency; every supported parameter set (wf_params: 1 or 2 ways, data width 32/64/128), every well-formed request sequence and every ready/valid schedule. Crash = loss of all cache state at any cycle; memory keeps its contents."
  },
  {
   "property": "C47",
   "status": "proved",
   "theorems": [
    "C47_idle_sram_output",
    "C47_verilog_sram"
   ],
   "note": "Output of idle or written SRAM cycles arbitrary; control and results unchanged."
  },
  {
   "property": "C48",
   "status": "proved",
   "theorems": [
    "C48_data_oblivious",
    "C48_past_data"
   ],
   "note": "Model: cycle-level RTL (Rtl.v) with any memory that answers in order with the right types of any latency; every supported parameter set (wf_params: 1 or 2 ways, data width 32/64/128), every well-formed request sequence and every ready/valid schedule."
  },
  {
   "property": "C49",
   "status": "proved",
   "theorems": [
    "C49_in_order_echo",
    "C49_lru_hits",
    "C49_bounds",
    "C49_memreq_shape",
    "C49_traffic",
    "C49_progress",
    "C49_latency"
   ],
   "note": "Model: cycle-level RTL (Rtl.v) with any memory that answers in order with the right types of any latency; every supported parameter set (wf_params: 1 or 2 ways, data width 32/64/128), every well-formed request sequence and every ready/valid schedule."
  },
  {
   "property": "C50",
   "status": "proved",
   "theorems": [
    "C50_any_sharing",
    "C50_progress",
    "C50_latency"
   ],
   "note": "Any number of caches, no ownership assumption: the memory may return anything."
  },
  {
   "property": "C51",
   "status": "proved",
   "theorems": [
    "C51_sequentially_consistent",
    "C51_read_word",
    "C51_amo_word",
    "C51_memory",
    "C51_without_inv_refuted"
   ],
   "note": "Any number of caches of any supported sizes on one memory with a port per cache, every interleaving. Ownership may move with FLUSH/INV (the discipline stated in PropDyn.v); without_inv_refuted shows INV is needed."
  },
  {
   "property": "C52",
   "status": "proved",
   "theorems": [
    "C52_race_free_tests_pass",
    "C52_multicore_model",
    "C52_directed_tests",
    "C52_race_refuted"
   ],
   "note": "The multicore test lists of the repository, and every list of the race-free shape; every schedule."
  },
  {
   "property": "C53",
   "status": "proved",
   "theorems": [
    "C53_ready_again",
    "C53_accepted",
    "C53_program_finishes",
    "C53_multicore_finishes",
    "C53_multicore_latency",
    "C53_race_free_tests_finish",
    "C53_directed_tests_finish",
    "C53_unsorted_never_sent"
   ],
   "note": "The multicore test lists of the repository, and every list of the race-free shape; every schedule."
  },
  {
   "property": "C54",
   "status": "proved",
   "theorems": [
    "C54_service_bound",
    "C54_service_exact",
    "C54_predicted",
    "C54_hit_or_miss",
    "C54_exact_latency",
    "C54_traffic",
    "C54_worst_case",
    "C54_among_others",
    "C54_among_others_worst_case"
   ],
   "note": "Model: cycle-level RTL (Rtl.v) with an in-order memory of any latency; every supported parameter set (wf_params: 1 or 2 ways, data width 32/64/128), every well-formed request sequence and every ready/valid schedule. Times are exact cycle counts of the RTL model; C63 fixes the memory latency."
  },
  {
   "property": "C55",
   "status": "proved",
   "theorems": [
    "C55_idle_ports",
    "C55_same_run",
    "C55_flush_opaque_refuted",
    "C55_answer_type_refuted"
   ],
   "note": "Two-run simulation of the RTL: outputs compared in every cycle except the fields named in the statement; the refutations show these exceptions are needed."
  },
  {
   "property": "C56",
   "status": "proved",
   "theorems": [
    "C56_no_comb_path",
    "C56_sends_when_ready",
    "C56_rdy_path_refuted"
   ],
   "note": "Model: cycle-level RTL (Rtl.v) with an in-order memory of any latency; every supported parameter set (wf_params: 1 or 2 ways, data width 32/64/128), every well-formed request sequence and every ready/valid schedule."
  },
  {
   "property": "C57",
   "status": "proved",
   "theorems": [
    "C57_two_levels",
    "C57_flat_memory",
    "C57_progress",
    "C57_writes_refuted"
   ],
   "note": "Two RTL models wired together, upper line width = lower data width (fits). WRITEs are refuted (the stack loses WRITE data), so the positive theorems are for programs without WRITE (no_write)."
  },
  {
   "property": "C58",
   "status": "proved",
   "theorems": [
    "C58_instance_lines",
    "C58_other_lines",
    "C58_wrapper",
    "C58_cache",
    "C58_all_macros",
    "C58_needs_foundry"
   ],
   "note": "String-level model of the replacement script, module wrapper with the hard macros' specified contract."
  },
  {
   "property": "C59",
   "status": "proved",
   "theorems": [
    "C59_mutual_exclusion",
    "C59_lock_word",
    "C59_read",
    "C59_amo",
    "C59_memory",
    "C59_unchanged",
    "C59_counter",
    "C59_without_flush_refuted"
   ],
   "note": "Any number of caches, test-and-set lock protocol with INV after acquire and FLUSH before release; without_flush_refuted shows it is needed."
  },
  {
   "property": "C60",
   "status": "proved",
   "theorems": [
    "C60_not_earlier",
    "C60_spacing",
    "C60_least_time",
    "C60_most_time",
    "C60_most_time_bound",
    "C60_tests_in_time",
    "C60_time_limit_refuted"
   ],
   "note": "Model: cycle-level RTL (Rtl.v) with an in-order memory of any latency; every supported parameter set (wf_params: 1 or 2 ways, data width 32/64/128), every well-formed request sequence and every ready/valid schedule. Times are exact cycle counts of the RTL model; C63 fixes the memory latency."
  },
  {
   "property": "C61",
   "status": "proved",
   "theorems": [
    "C61_exact_traffic",
    "C61_prediction",
    "C61_deterministic",
    "C61_exact_time",
    "C61_among_others"
   ],
   "note": "Model: cycle-level RTL (Rtl.v) with an in-order memory of any latency; every supported parameter set (wf_params: 1 or 2 ways, data width 32/64/128), every well-formed request sequence and every ready/valid schedule. Times are exact cycle counts of the RTL model; C63 fixes the memory latency."
  },
  {
   "property": "C62",
   "status": "proved",
   "theorems": [
    "C62_schedule",
    "C62_ready_again",
    "C62_answered"
   ],
   "note": "Model: cycle-level RTL (Rtl.v) with an in-order memory of any latency; every supported parameter set (wf_params: 1 or 2 ways, data width 32/64/128), every well-formed request sequence and every ready/valid schedule. Times are exact cycle counts of the RTL model; C63 fixes the memory latency."
  },
  {
   "property": "C63",
   "status": "proved",
   "theorems": [
    "C63_schedule",
    "C63_answered",
    "C63_cost"
   ],
   "note": "Model: cycle-level RTL (Rtl.v) with an in-order memory of any latency; every supported parameter set (wf_params: 1 or 2 ways, data width 32/64/128), every well-formed request sequence and every ready/valid schedule. Times are exact cycle counts of the RTL model; C63 fixes the memory latency."
  },
  {
   "property": "C64",
   "status": "proved",
   "theorems": [
    "C64_ports",
    "C64_answers",
    "C64_requests",
    "C64_coloured",
    "C64_colour",
    "C64_state"
   ],
   "note": "Default-level line trace as strings, including colours."
  },
  {
   "property": "C65",
   "status": "proved",
   "theorems": [
    "C65_isolation",
    "C65_schedule",
    "C65_fixed_latency"
   ],
   "note": "Any number of caches; the memory's answers come at the same times in both runs, whatever they contain."
  },
  {
   "property": "C66",
   "status": "proved",
   "theorems": [
    "C66_control",
    "C66_data"
   ],
   "note": "SRAM and stall-engine contents arbitrary at power-up."
  },
  {
   "property": "C67",
   "status": "proved",
   "theorems": [
    "C67_unused_fields",
    "C67_same_run",
    "C67_read_data_refuted"
   ],
   "note": "Two-run simulation of the RTL: outputs compared in every cycle except the fields named in the statement; the refutations show these exceptions are needed."
  },
  {
   "property": "C68",
   "status": "proved",
   "theorems": [
    "C68_crash_consistent",
    "C68_sessions",
    "C68_whole_line_refuted"
   ],
   "note": "Any number of caches of any supported sizes on one memory with a port per cache, every interleaving; each word has at most one writer (respects) unless the theorem says otherwise."
  },
  {
   "property": "C69",
   "status": "proved",
   "theorems": [
    "C69_directed_tests_pass",
    "C69_directed_tests_finish",
    "C69_expected_responses"
   ],
   "note": "Of the 15 other tables, the ten that use WRITE_INIT with one way are under C70 (C70_init_tests_pass); four use WRITE_INIT with two ways, one a 16-byte WRITE: replayed only under fixed schedules (Conform.v)."
  },
  {
   "property": "C70",
   "status": "proved",
   "theorems": [
    "C70_init_responses",
    "C70_init_no_memory",
    "C70_init_read_back",
    "C70_init_tests_pass",
    "C70_init_lost_refuted",
    "C70_init_wild_write_refuted"
   ],
   "note": "One way only; with two ways WRITE_INIT does not work (C27). The two refuted claims state what is lost on eviction and what is written back wrongly."
  },
  {
   "property": "C71",
   "status": "proved",
   "theorems": [
    "C71_init_progress",
    "C71_init_latency",
    "C71_init_in_flight",
    "C71_init_ready_again",
    "C71_init_program_finishes",
    "C71_init_tests_finish"
   ],
   "note": "One way only, as C70; for caches without WRITE_INIT see C15 and C53."
  },
  {
   "property": "C72",
   "status": "proved",
   "theorems": [
    "C72_never_back",
    "C72_never_back_multi"
   ],
   "note": "Per line, not across lines (unflushed writes reach memory out of order: see C46). The guarantee at one moment is C45 and C68."
  },
  {
   "property": "C73",
   "status": "proved",
   "theorems": [
    "C73_hits",
    "C73_traffic",
    "C73_among_others",
    "C73_same_capacity_refuted",
    "C73_time",
    "C73_flush_time_refuted"
   ],
   "note": "Time is compared up to the first INV or FLUSH: those and the initialisation after reset take longer in a bigger cache (C73_flush_time_refuted, C17)."
  },
  {
   "property": "C74",
   "status": "proved",
   "theorems": [
    "C74_sequentially_consistent",
    "C74_read_word",
    "C74_amo_word",
    "C74_device_read",
    "C74_memory",
    "C74_without_inv_refuted",
    "C74_without_flush_refuted"
   ],
   "note": ""
  },
  {
   "property": "C75",
   "status": "proved",
   "theorems": [
    "C75_ports",
    "C75_ports_memory",
    "C75_tests",
    "C75_read_write_mem",
    "C75_same_base_refuted"
   ],
   "note": ""
  }
 ]
}