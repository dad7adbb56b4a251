(** C29-C31: the function-level reference model. *)
From Coq Require Import PeanoNat NArith List Bool Lia.
From Verif Require Import Bits Params Msg Rtl Mem Spec System Harness Fl FlProofs FlModel.
Import ListNotations.
Open Scope N_scope.

(** C29.  n-way tracker, any geometry that fits in 32 address bits: an access
    hits exactly if its line was accessed before and fewer than n distinct lines
    of the set were accessed since. *)
Theorem C29_lru_distance : forall g l a rest b, (0 < g_ways g)%nat -> g_off g + g_bank g + g_idx g <= 32 ->
  Forall (fun x => x < 2 ^ 32) (l ++ a :: rest) ->
  nth_error (snd (tcalls g (trk0 g) (map CAcc (l ++ a :: rest)))) (length l) = Some b ->
  (b = true <-> exists pre x post, l = pre ++ x :: post /\ key g x = key g a /\
     (forall c, In c post -> key g c <> key g a) /\
     (length (nodup N.eq_dec (filter (fun k => N.eqb (kset g k) (kset g (key g a))) (map (key g) post))) < g_ways g)%nat).
Proof. exact (fun g l a rest b G B => tracker_distance g G B l a rest b). Qed.
Print Assumptions C29_lru_distance.

(** With AMOs (which drop their line) and invalidations (which drop all) in
    between: the flags are those of an n-way LRU list. *)
Theorem C29_lru_list : forall g cs, (0 < g_ways g)%nat -> g_off g + g_bank g + g_idx g <= 32 ->
  Forall (fun c => call_addr c < 2 ^ 32) cs ->
  snd (tcalls g (trk0 g) cs) = snd (nlru g (fun _ => []) cs).
Proof. exact (fun g cs G B => tracker_lru g G B cs). Qed.
Print Assumptions C29_lru_list.

(** 4 ways, 2 sets of 16-byte lines: 5 lines of set 0 do not fit. *)
Definition g4 : geom := mk_geom (128 * 8) 4 0 128.
Example C29_example : (0 < g_ways g4)%nat /\ g_off g4 + g_bank g4 + g_idx g4 <= 32 /\
  snd (tcalls g4 (trk0 g4) (map CAcc [0x00; 0x20; 0x40; 0x60; 0x08; 0x80; 0x20; 0x10; 0x00; 0x64; 0x40])) =
    [false; false; false; false; true; false; false; false; true; true; false] /\
  snd (tcalls g4 (trk0 g4) [CAcc 0; CAcc 0x20; CAmo 4; CAcc 0x24; CAcc 0; CInv; CAcc 0x20; CAcc 0x20]) =
    [false; false; false; true; false; false; false; true].
Proof. vm_compute. repeat split; auto; discriminate. Qed.

(** C30.  Whatever the calls (READ, WRITE, WRITE_INIT, AMO, INV, FLUSH), as long as
    none raises an exception, the response data are those of a flat byte memory. *)
Theorem C30_flat_memory : forall nbytes nways nbanks p e init cs s xs,
  p_clw p / 8 = 2 ^ e -> e <= 32 -> 2 <= e ->
  Forall (fun av => fst av < 2 ^ 32 /\ fst av mod 4 = 0) init -> Forall (fun c => fcall_addr c < 2 ^ 32) cs ->
  fl_calls nbytes nways nbanks p (fl0 nbytes nways nbanks p init) cs = Some (s, xs) ->
  map (fun x => cr_data (snd x)) xs = call_data p (load_words init) cs.
Proof. exact (fun nbytes nways nbanks p e init cs s xs LB E32 => model_flat p nbytes nways nbanks e LB E32 init cs s xs). Qed.
Print Assumptions C30_flat_memory.

(** The exceptions include a legal AMO: the first access to a line must not be an
    AMO, and no AMO may go to the upper half of the address space. *)
Theorem C30_amo_total_refuted : exists p c, wf_params p /\
  fl_call (p_num_bytes p) (p_assoc p) 0 p (fl0 (p_num_bytes p) (p_assoc p) 0 p []) c = None /\
  exists a v, c = FAmo a v 1 0 T_AMO_ADD /\ wf_req p (mkCReq T_AMO_ADD 1 a 0 v).
Proof.
  exists px, (FAmo 0x10 5 1 0 T_AMO_ADD). split; [exact px_wf|]. split; [vm_compute; auto|].
  exists 0x10, 5. split; auto. apply (Forall_inv (wf_all px [mkCReq T_AMO_ADD 1 0x10 0 5] eq_refl)).
Qed.
Print Assumptions C30_amo_total_refuted.

Definition init_f : list (N * N) := [(0x10, 0x11223344); (0x14, 0x55667788); (0x30, 0x99aabbcc)].
Definition calls_f : list fcall :=
  [FRead 0x10 1 0; FWrite 0x16 0xabcd 2 2; FRead 0x14 3 0; FAmo 0x10 5 4 0 T_AMO_ADD; FRead 0x30 5 1; FRead 0x50 6 0; FRead 0x70 7 0;
   FInv 8; FRead 0x17 9 1; FFlush 10; FRead 0x10 11 0; FAmo 0x10 0x7fffffff 12 0 T_AMO_MIN; FWrite 0x10 0xee 13 1; FRead 0x10 14 0].
Example C30_example : exists s xs,
  fl_calls 64 2 0 px (fl0 64 2 0 px init_f) calls_f = Some (s, xs) /\
  map (fun x => (cr_test (snd x), cr_data (snd x))) xs =
    [(0, 0x11223344); (1, 0); (1, 0xabcd7788); (0, 0x11223344); (0, 0xcc); (0, 0); (0, 0); (0, 0); (0, 0xab); (0, 0);
     (1, 0x11223349); (0, 0x11223349); (0, 0); (1, 0x112233ee)].
Proof. do 2 eexists. split; [vm_compute; reflexivity | vm_compute; reflexivity]. Qed.

(** C31.  A client sends (a prefix of) the requests the model generates, memory
    starts with the model's initial contents: then the RTL cache's responses, all
    fields, are (a prefix of) the expected responses the model generates.  Calls
    are WRITE_INIT-free and have no WRITE with len=3, which the two interpret
    differently. *)
Theorem C31_rtl_agrees : forall p s0 is m0 m rq rs init cs s xs, wf_params p -> p_abw p <= 32 ->
  sys_run p s0 is m0 m rq rs -> let tr := trace_of p s0 is in
  Forall (fun av => fst av < 2 ^ 32 /\ fst av mod 4 = 0) init ->
  (forall a, a < 2 ^ p_abw p -> trunc 8 (m0 a) = trunc 8 (load_words init a)) ->
  fl_calls (p_num_bytes p) (p_assoc p) 0 p (fl0 (p_num_bytes p) (p_assoc p) 0 p init) cs = Some (s, xs) ->
  Forall (fun c => match c with FWrite _ _ _ len => len <> 3 | FInit _ _ _ _ => False | _ => True end) cs ->
  (exists rest, map fst xs = accepted tr ++ rest) -> exists rest, map snd xs = responses tr ++ rest.
Proof. exact (fun p s0 is m0 m rq rs init cs s xs W A => rtl_model p W A s0 is m0 m rq rs init cs s xs). Qed.
Print Assumptions C31_rtl_agrees.

Definition xs_f : list (creq * cresp) :=
  match fl_calls 64 2 0 px (fl0 64 2 0 px init_f) calls_f with Some (_, xs) => xs | None => [] end.
Lemma xs_f_wf : Forall (wf_req px) (map fst xs_f). Proof. apply wf_all. vm_compute. auto. Qed.
Example C31_example : exists is m rq rs s, sys_run px (mk_reset px junk_t junk_d) is (load_words init_f) m rq rs /\
  fl_calls 64 2 0 px (fl0 64 2 0 px init_f) calls_f = Some (s, xs_f) /\
  accepted (trace_of px (mk_reset px junk_t junk_d) is) = map fst xs_f /\
  length (responses (trace_of px (mk_reset px junk_t junk_d) is)) = 14%nat.
Proof.
  do 5 eexists. split; [exact (drive_sys px (lively 300 0) junk_t junk_d (load_words init_f) (map fst xs_f) xs_f_wf)|].
  split; [vm_compute; reflexivity|]. vm_compute. auto.
Qed.

(** The exclusion is needed: a WRITE with len=3 is a double word to the RTL cache
    and three bytes to the model. *)
Definition calls_d : list fcall := [FWrite 0x10 0xffffffff 1 3; FRead 0x10 2 0].
Definition xs_d : list (creq * cresp) :=
  match fl_calls 64 2 0 px (fl0 64 2 0 px []) calls_d with Some (_, xs) => xs | None => [] end.
Definition is_d := fst (drive px (mk_reset px junk_t junk_d) (load_words []) [] (map fst xs_d) (lively 60 0)).
Definition end_d := snd (drive px (mk_reset px junk_t junk_d) (load_words []) [] (map fst xs_d) (lively 60 0)).
Theorem C31_double_word_refuted : exists p s0 is m rq rs cs s xs, wf_params p /\ p_abw p <= 32 /\
  sys_run p s0 is (load_words []) m rq rs /\ let tr := trace_of p s0 is in
  fl_calls (p_num_bytes p) (p_assoc p) 0 p (fl0 (p_num_bytes p) (p_assoc p) 0 p []) cs = Some (s, xs) /\
  map fst xs = accepted tr /\ length (responses tr) = length xs /\ map snd xs <> responses tr.
Proof.
  assert (WF : Forall (wf_req px) (map fst xs_d)) by (apply wf_all; vm_compute; auto).
  assert (MS : exists s, fl_calls 64 2 0 px (fl0 64 2 0 px []) calls_d = Some (s, xs_d)) by (eexists; vm_compute; reflexivity).
  destruct MS as [s MS].
  exists px, (mk_reset px junk_t junk_d), is_d, (fst end_d), [], (snd end_d), calls_d, s, xs_d.
  split; [exact px_wf|]. split; [cbn; lia|].
  split; [exact (drive_sys px (lively 60 0) junk_t junk_d (load_words []) (map fst xs_d) WF)|].
  cbv zeta. split; [exact MS|]. split; [vm_compute; reflexivity|]. split; [vm_compute; reflexivity|].
  intro E. apply (f_equal (map cr_data)) in E. revert E. vm_compute. discriminate.
Qed.
Print Assumptions C31_double_word_refuted.
