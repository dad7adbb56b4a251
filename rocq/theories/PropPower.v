(** C66: what the memory arrays contain at power-up never shows. *)
From Coq Require Import Arith NArith List Bool Lia.
From Verif Require Import Bits Params Msg Rtl Mem Spec System Traffic Hide Harness PowerSpec Power2.
Import ListNotations.
Open Scope N_scope.

(** C66.  Two copies of the cache come out of reset with different contents of tag arrays, data array, array
    outputs and stall registers, and get the same inputs, any inputs whatsoever, legal
    or not.  Then in every cycle all outputs are the same up to data: the power-up contents have no influence on
    readiness, timing, hit flags or memory traffic. *)
Theorem C66_control : forall p s0 s0' is, wf_params p -> reset_state p s0 -> reset_state p s0' -> physical p s0 -> physical p s0' ->
  map hide_out (snd (run p s0' is)) = map hide_out (snd (run p s0 is)).
Proof. exact (fun p s0 s0' is W => power_control p W s0 s0' is). Qed.
Print Assumptions C66_control.

(** If the first copy runs with a supported client and a memory, so does the second with the same memory, which ends with
    the same contents; and in every cycle the responses are the same in every bit, data
    included, and the memory requests are the same in every bit that memory looks at. *)
Theorem C66_data : forall p s0 s0' is m0 m rq rs, wf_params p -> reset_state p s0' -> physical p s0 -> physical p s0' ->
  sys_run p s0 is m0 m rq rs ->
  (exists m' rq', sys_run p s0' is m0 m' rq' rs /\ (forall a, m' a = m a) /\ Forall2 (same_mreq p) rq rq') /\
  Forall2 (same_out p) (map snd (trace_of p s0 is)) (map snd (trace_of p s0' is)).
Proof. exact (fun p s0 s0' is m0 m rq rs W => power_up p W is s0 s0' m0 m rq rs). Qed.
Print Assumptions C66_data.

(** Power-up contents that look like valid lines, dirty and clean, with data, and others that are all 0. *)
Definition s_z : st := mk_reset px (fun _ _ => 0) (fun _ => 0).
Definition s_w : st := mk_reset px (fun w k => if (w <? 2) && (k <? 2) then N.ones (tagarrw px) - w else 0) (fun k => 0xdeadbeef + k).
Lemma w_physical : physical px s_w.
Proof.
  intros w k. cbn [s_w mk_reset tram]. destruct (N.ltb_spec w 2), (N.ltb_spec k 2); cbn [andb].
  - assert (E : w = 0 \/ w = 1) by lia. split; [destruct E as [-> | ->]; vm_compute; reflexivity|].
    intros [X | X]; change (p_assoc px) with 2 in X; change (nblocks px) with 2 in X; lia.
  - split; auto. vm_compute. reflexivity.
  - split; auto. vm_compute. reflexivity.
  - split; auto. vm_compute. reflexivity.
Qed.
Definition is_p : list inp := fst (drive px s_z mem_a [] prog_a (lively 150 0)).
Example C66_example : reset_state px s_z /\ reset_state px s_w /\ physical px s_z /\ physical px s_w /\
  (exists m rq rs, sys_run px s_z is_p mem_a m rq rs) /\ length (responses (trace_of px s_z is_p)) = 16%nat /\
  te_val px (tram s_w 0 1) = true /\ te_dty px (tram s_w 0 1) = 15.
Proof.
  split; [apply mk_reset_ok|]. split; [apply mk_reset_ok|]. split; [intros w k; split; auto; vm_compute; reflexivity|]. split; [exact w_physical|].
  split; [|vm_compute; auto].
  do 3 eexists. apply drive_sys. apply wf_all. reflexivity.
Qed.
