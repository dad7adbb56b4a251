(** C47: the SRAM outputs are read only in the cycle after a read. *)
From Coq Require Import Arith NArith List Bool Lia.
From Verif Require Import Bits Params Msg Units Rtl Harness SramJunk.
Import ListNotations.
Open Scope N_scope.

(** C47.  From reset, for every sequence of inputs, legal or not: whatever the tag
    and data arrays show after a cycle in which they were not read ([junk], chosen
    anew in every cycle for every array), every output of the cache in every cycle
    is that of the cache whose arrays keep their last output. *)
Theorem C47_idle_sram_output : forall p s l, wf_params p -> reset_state p s ->
  snd (run_j p s l) = snd (run p s (map fst l)).
Proof. exact (fun p s l => sram_junk p s l). Qed.
Print Assumptions C47_idle_sram_output.

(** In particular with the Verilog arrays used for synthesis, whose output is zero
    after such a cycle. *)
Theorem C47_verilog_sram : forall p s is, wf_params p -> reset_state p s ->
  snd (run_v p s is) = snd (run p s is).
Proof. exact (fun p s is => sram_verilog p s is). Qed.
Print Assumptions C47_verilog_sram.

(** The two caches do go through different states: on the program [prog_a]
    (Harness.v) with a lively environment the output register of the data array
    differs in many cycles, while the outputs are the same. *)
Fixpoint states (nx : st -> inp -> st) (s : st) (is : list inp) : list N :=
  match is with [] => [] | i :: r => ddout s :: states nx (nx s i) r end.
Definition is_c47 : list inp := is_a px prog_a (lively 40 0).
Example C47_states_differ :
  negb (forallb (fun x => fst x =? snd x)
     (combine (states (next px) (s0_a px) is_c47)
              (states (fun s i => next_j px s i zero_junk) (s0_a px) is_c47))) = true.
Proof. vm_compute. reflexivity. Qed.
Example C47_outputs_same :
  snd (run_v px (s0_a px) is_c47) = snd (run px (s0_a px) is_c47) /\
  (2 <= length (filter (fun o => match o_resp o with Some _ => true | None => false end) (snd (run_v px (s0_a px) is_c47))))%nat.
Proof. vm_compute. split; [reflexivity | lia]. Qed.
