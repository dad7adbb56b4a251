(** C64: the line trace. *)
From Coq Require Import String Ascii Arith NArith Bool Lia List.
From Verif Require Import Bits Params Msg Rtl Mem Spec System Traffic Line LineSpec LineProofs LineSys Harness.
Import ListNotations.
Open Scope string_scope.
Open Scope list_scope.

(** C64.  In every state and for every input: without its colours the line has 22 characters with bars
    in fixed places; the outer marks show the events of the memory ports and the "#" that the cache is not ready. *)
Theorem C64_ports : forall p s i, let l := line_trace p s i in let o := output p s i in
  String.length (plain l) = 22%nat /\ bars l = ["|"; "|"; "|"; "|"] /\
  (c_memresp l = ">" <-> i_mresp_en i = true) /\ (c_busy l = "#" <-> o_req_rdy o = false) /\
  (c_memreq l = ">" <-> o_mreq o <> None).
Proof. exact line_ports. Qed.
Print Assumptions C64_ports.

(** M2 shows responses and memory requests: after reset, whatever client and memory do (no protocol
    assumed), a response is sent under a label of its type, with " rd" or " wr" iff it is a hit; a memory request
    under a label of its type; and when both sides are ready, an answering label without memory request means a response. *)
Theorem C64_answers : forall p s0 is i, reset_state p s0 ->
  let l := line_at p s0 is i in let o := output p (fst (run p s0 is)) i in
  (forall y, o_resp o = Some y -> In (c_M2 l) (done_labels (cr_type y)) /\ c_memreq l = " " /\
     (cr_test y = 1%N <-> In (c_M2 l) [" rd"; " wr"])) /\
  (forall q, o_mreq o = Some q -> In (c_M2 l) (send_labels (mq_type q))) /\
  (i_resp_rdy i = true -> i_mreq_rdy i = true -> In (c_M2 l) answering -> c_memreq l = " " -> o_resp o <> None).
Proof. exact (fun p s0 is i R => line_m2 p (fst (run p s0 is)) i (labelled_run p is s0 (labelled_reset p s0 R))). Qed.
Print Assumptions C64_answers.

(** M0 shows a request label exactly in the cycles in which a request is accepted, and that of its type;
    a cache that can take a request says "(rdy )". *)
Theorem C64_requests : forall p s0 is i m0 m rq rs, wf_params p -> sys_run p s0 (is ++ [i]) m0 m rq rs ->
  let l := line_at p s0 is i in
  (i_req_en i = true -> c_M0 l = new_label (cq_type (i_req i))) /\ (In (c_M0 l) new_labels -> i_req_en i = true) /\
  (c_busy l = " " -> c_state l = "(rdy )").
Proof. exact (fun p s0 is i m0 m rq rs W => line_request p W s0 is i m0 m rq rs). Qed.
Print Assumptions C64_requests.

(** Colours: M1 is coloured in the cycle after a READ or WRITE is accepted; whenever it is, it names the last
    accepted request, and it is green if the response to that request will say hit, red if it will say miss. *)
Theorem C64_coloured : forall p s0 is j i is2 m0 m rq rs, wf_params p -> sys_run p s0 ((is ++ [j]) ++ i :: is2) m0 m rq rs ->
  i_req_en j = true -> rw_req (i_req j) = true ->
  let l := line_at p s0 (is ++ [j]) i in green l || red l = true.
Proof. exact (fun p s0 is j i is2 m0 m rq rs W => line_coloured p W s0 is j i is2 m0 m rq rs). Qed.
Print Assumptions C64_coloured.
Theorem C64_colour : forall p s0 is i is2 m0 m rq rs, wf_params p -> sys_run p s0 (is ++ i :: is2) m0 m rq rs ->
  let l := line_at p s0 is i in green l || red l = true ->
  exists A r, accepted (trace_of p s0 is) = A ++ [r] /\ rw_req r = true /\ c_M1 l = new_label (cq_type r) /\
    forall y, nth_error (responses (trace_of p s0 (is ++ i :: is2))) (length A) = Some y ->
      green l = N.eqb (cr_test y) 1 /\ red l = N.eqb (cr_test y) 0.
Proof. exact (fun p s0 is i is2 m0 m rq rs W => line_colour p W s0 is i is2 m0 m rq rs). Qed.
Print Assumptions C64_colour.

(** The state column: "(init)" in exactly the first cycles, one for each line of the cache; the walking states
    while an INV or FLUSH is the last accepted request and not answered. *)
Theorem C64_state : forall p s0 is i m0 m rq rs, wf_params p -> sys_run p s0 (is ++ [i]) m0 m rq rs ->
  let l := line_at p s0 is i in let tr := trace_of p s0 is in
  (c_state l = "(init)" <-> (N.of_nat (length is) < total_lines p)%N) /\
  (c_state l = "(inv )" -> exists A r, accepted tr = A ++ [r] /\ cq_type r = T_INV /\ (length (responses tr) <= length A)%nat) /\
  (c_state l = "(flsh)" \/ c_state l = "(fls#)" ->
     exists A r, accepted tr = A ++ [r] /\ cq_type r = T_FLUSH /\ (length (responses tr) <= length A)%nat).
Proof. exact (fun p s0 is i m0 m rq rs W => line_state p W s0 is i m0 m rq rs). Qed.
Print Assumptions C64_state.

(** The first lines of a run, read off the model; with the colours of M1. *)
Fixpoint lines (p : params) (s : st) (is : list inp) : list (string * bool * bool) :=
  match is with [] => [] | i :: is => let l := line_trace p s i in (plain l, green l, red l) :: lines p (next p s i) is end.
Example C64_example : exists is m rq rs, sys_run px (s0_a px) is mem_a m rq rs /\
  lines px (s0_a px) is =
  [(" |#(init)ini|   |   | ", false, false); (" |#(init)ini|ini|   | ", false, false);
   (" |#(init)ini|ini|ini| ", false, false); (" |#(init)ini|ini|ini| ", false, false);
   (" | (rdy ) wr|ini|ini| ", false, false); (" |#(rdy )xxx| wr|ini| ", false, true);
   (" |#(rdy )xxx|   | wr|>", false, false); (" |#(rdy )xxx|   |   | ", false, false);
   (">|#(rdy )xxx|   |   | ", false, false); (" |#(rdy ) rf|   |   | ", false, false);
   (" |#(rpy )rpw| rf|   | ", false, false); (" | (rdy ) rd|rpw| rf| ", false, false);
   (" |#(rdy )xxx| rd|rpw| ", true, false); (" | (rdy ) wr| rd|rpw| ", true, false);
   (" | (rdy ) rd| wr| rd| ", true, false); (" | (rdy ) rd| rd| wr| ", true, false)].
Proof.
  exists (is_a px prog_a (lively 16 0)). do 3 eexists. split; [exact (run_a px prog_a (lively 16 0) prog_a_wf)|].
  vm_compute. reflexivity.
Qed.
