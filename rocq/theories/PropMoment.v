(** C72: what main memory holds of a line never goes back in time. *)
From Coq Require Import Arith NArith List Bool Lia.
From Verif Require Import Bits Params Msg Rtl Mem Spec System Traffic Harness Crash MultiSys CrashMultiSpec MomentSpec Moment Moment2 Moment3.
Import ListNotations.
Open Scope N_scope.

(** C72.  One run, memory looked at at any number of moments.  At each, a line of
    memory is as a whole what it was after some number of the accepted requests, past
    every answered durable one (C45); and the numbers can be chosen so that they never
    decrease: a later image of a line is not from an earlier moment. *)
Theorem C72_never_back : forall p s0 L m0 l, wf_params p -> reset_state p s0 -> client_ok p (trace_of p s0 (whole L)) ->
  stages p s0 m0 [] [] L ->
  exists K, rising (length L) K /\ forall j is m, nth_error L j = Some (is, m) ->
    let tr := trace_of p s0 (upto L j) in
    (K j <= length (accepted tr))%nat /\ same_line p l m (flat_mem p m0 (firstn (K j) (accepted tr))) /\
    past_durable p l (accepted tr) (length (responses tr)) (K j).
Proof. exact (fun p s0 L m0 l W => stages_rise1 p W s0 L m0 l). Qed.
Print Assumptions C72_never_back.

(** Several caches over one memory: so it is with the part of a line that belongs to a
    cache, in terms of that cache's own requests, whatever the other caches do. *)
Theorem C72_never_back_multi : forall p z n owner s0 L m0 i l, wf_caches p z n -> own_clients p z n owner s0 (whole L) ->
  mstages p n m0 no_reqs no_resps L -> (i < n)%nat ->
  exists K, rising (length L) K /\ forall j ts m, nth_error L j = Some (ts, m) ->
    let tr := proj i (upto L j) in
    (K j <= length (accepted tr))%nat /\ same_own p owner i l m (flat_mem p m0 (firstn (K j) (accepted tr))) /\
    past_durable p l (accepted tr) (length (responses tr)) (K j).
Proof. exact stages_rise. Qed.
Print Assumptions C72_never_back_multi.

(** A line written and flushed, written again twice, flushed: memory at the three moments. *)
Definition segs_m : list (list creq * list choice) :=
  [ ([wt 1 0x10 0 0x11; mkCReq T_FLUSH 2 0 0 0], eager 60); ([wt 3 0x10 0 0x22; wt 4 0x14 0 0x33], lively 40 0); ([mkCReq T_FLUSH 5 0 0 0], lively 90 1) ].
Definition stages_m := drives px (s0_a px) mem_a [] segs_m.
Example C72_example : reset_state px (s0_a px) /\ client_ok px (trace_of px (s0_a px) (whole stages_m)) /\ stages px (s0_a px) mem_a [] [] stages_m /\
  map (fun x => (length (fst x), trunc 8 (snd x 0x10), trunc 8 (snd x 0x14))) stages_m = [(60%nat, 0x11, 143); (40%nat, 0x11, 143); (90%nat, 0x22, 0x33)] /\
  map (fun j => length (accepted (trace_of px (s0_a px) (upto stages_m j)))) [0; 1; 2]%nat = [2; 4; 5]%nat /\
  map (fun j => length (responses (trace_of px (s0_a px) (upto stages_m j)))) [0; 1; 2]%nat = [2; 4; 5]%nat.
Proof.
  split; [apply mk_reset_ok|].
  destruct (drives_ok px segs_m (s0_a px) mem_a []) as [D1 D2].
  { apply Forall_forall. intros x I. apply wf_all. revert x I. apply forallb_forall. vm_compute. reflexivity. }
  split; [exact D2|]. split; [exact D1|]. vm_compute. auto.
Qed.
