(** C58: the SRAM replacement of the synthesis flow (Flow.v: translate.py's
    replace_sram and the wrapper file it appends). *)
From Coq Require Import NArith List Bool Lia String Ascii.
From Verif Require Import Bits Params Msg Units Units2 Rtl SramJunk Units2Proofs Harness Flow FlowProofs.
Import ListNotations.
Open Scope N_scope.
Local Open Scope string_scope.

(** C58.  A line of the generated file that instantiates an SRAM of [b] bits by
    [w] words, with any text around the instance that has no capital S in it:
    rewritten to an instance of the wrapper with the same parameters when the
    shape is one of the four that have a hard cell, unchanged otherwise. *)
Theorem C58_instance_lines : forall b w pre suf,
  all_c not_S pre = true -> all_c not_S suf = true ->
  replace_line (pre ++ instance b w ++ suf) =
  pre ++ (if macro b w then wrapper_instance b w else instance b w) ++ suf.
Proof. exact (fun b w pre suf => replace_line_instance b w pre suf). Qed.
Print Assumptions C58_instance_lines.

(** Every line that does not mention such a module or has no instance named sram
    is unchanged. *)
Theorem C58_other_lines : forall line,
  contains " sram" line = false \/ contains "SramGenericPRTL__num_bits_" line = false ->
  replace_line line = line.
Proof. exact (fun line => replace_line_other line). Qed.
Print Assumptions C58_other_lines.

(** The wrapper, for every shape and every sequence of operations with addresses
    in range: the contents of the PyMTL SRAM at all times, and its output in the
    cycle after a read. *)
Theorem C58_wrapper : forall b w s ops o,
  forallb (fun o => (so_idx o <? w)%N) (ops ++ [o])%list = true ->
  (forall k, sr_ram (wsram_run b w s (ops ++ [o])%list) k = sr_ram (sram_run b s (ops ++ [o])%list) k) /\
  (rd_op o = true ->
   sram_out (wsram_run b w s (ops ++ [o])%list) = sram_out (sram_run b s (ops ++ [o])%list)).
Proof. exact (fun b w s ops o => wsram_sram b w s ops o). Qed.
Print Assumptions C58_wrapper.

(** The cache after the replacement, where only the arrays of those shapes are
    replaced and a replaced array shows anything after a cycle without a read:
    from reset, for every sequence of inputs, the outputs of the original. *)
Theorem C58_cache : forall p s l, wf_params p -> reset_state p s ->
  snd (run_f p s l) = snd (run p s (map fst l)).
Proof. exact (fun p s l => flow_same p s l). Qed.
Print Assumptions C58_cache.

(** Exactly three configurations have hard cells for all their arrays. *)
Theorem C58_all_macros : forall p, wf_params p -> p_abw p <= 64 ->
  (data_macro p && tag_macro p = true <->
   p_clw p = 128 /\ p_abw p = 32 /\
   ((p_num_bytes p = 4096 /\ p_assoc p = 1) \/ (p_num_bytes p = 4096 /\ p_assoc p = 2) \/
    (p_num_bytes p = 8192 /\ p_assoc p = 2))).
Proof. exact (fun p W => all_macro p W). Qed.
Print Assumptions C58_all_macros.

(** With the script's default widths, exactly these sizes need a cell whose model
    is not in the wrapper file (so the file cannot be simulated without the
    foundry's library). *)
Theorem C58_needs_foundry : forall p, wf_params p -> p_clw p = 128 -> p_abw p = 32 ->
  (foundry (p_clw p) (total_lines p) || foundry (tagarrw p) (nblocks p) = true <->
   p_num_bytes p = 8192 \/ (p_num_bytes p = 4096 /\ p_assoc p = 1)).
Proof. exact (fun p W => needs_foundry p W). Qed.
Print Assumptions C58_needs_foundry.

(** Concrete cases. *)
Definition nl : string := String "010" "".
Example C58_lines :
  replace_line ("  SramGenericPRTL__num_bits_26__num_words_128 sram" ++ nl) =
    "  SramGenericPRTL #(.num_bits(26) , .num_words(128)) sram" ++ nl /\
  replace_line ("  SramGenericPRTL__num_bits_26__num_words_1280 sram" ++ nl) =
    "  SramGenericPRTL__num_bits_26__num_words_1280 sram" ++ nl /\
  replace_line ("module SramGenericPRTL__num_bits_26__num_words_128" ++ nl) =
    "module SramGenericPRTL__num_bits_26__num_words_128" ++ nl.
Proof. vm_compute. auto. Qed.
(** translate.py's defaults (41-46): all arrays replaced, no foundry model needed *)
Definition p_translate : params := mkParams 4096 2 128 32 8 32.
Example C58_translate_defaults : data_macro p_translate && tag_macro p_translate = true /\
  foundry (p_clw p_translate) (total_lines p_translate) || foundry (tagarrw p_translate) (nblocks p_translate) = false.
Proof. vm_compute. auto. Qed.
Example C58_translate_wf : wf_params p_translate.
Proof.
  constructor; cbn; auto; try lia.
  - exists 7. split; [reflexivity | lia].
  - exists 7. split; [lia | reflexivity].
Qed.
(** 512 bytes: no array replaced *)
Example C58_none : data_macro (mkParams 512 1 128 32 8 32) || tag_macro (mkParams 512 1 128 32 8 32) = false.
Proof. reflexivity. Qed.
(** The replaced cache with noisy cells on the program [prog_a] (Harness.v): the
    data array's output register differs, responses come out. *)
Definition l_c58 : list (inp * junk) :=
  map (fun i => (i, mkJunk (fun w => 2 ^ 26 - 1 - w) (2 ^ 128 - 1))) (is_a p_translate prog_a (lively 300 0)).
Example C58_runs :
  ddout (fst (run_f p_translate (s0_a p_translate) l_c58)) <> ddout (fst (run p_translate (s0_a p_translate) (map fst l_c58))) /\
  (2 <= List.length (filter (fun o => match o_resp o with Some _ => true | None => false end)
                       (snd (run_f p_translate (s0_a p_translate) l_c58))))%nat.
Proof. vm_compute. split; [discriminate | lia]. Qed.
