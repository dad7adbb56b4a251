(** C74: a device that reads and writes memory behind the caches (DMA, a test that loads and
    checks memory).  If words are handed over by FLUSH and INV, everybody sees one memory. *)
From Coq Require Import Arith NArith List Bool Lia.
From Verif Require Import Bits Params Msg Rtl Mem Spec System Harness Traffic MultiSys MultiHarness Hide DynSpec DynProofs DynFacts DynMore DmaSpec Dma Dma2 DmaHarness.
Import ListNotations.
Open Scope N_scope.

(** C74.  [n] caches and a device over one memory, any schedule.  If words are handed over
    properly among the caches ([synced], DynSpec.v) and between the caches and the device
    ([dev_synced], DmaSpec.v), then every response of every cache is the one a single memory would
    give that executes all requests in the order of acceptance, with the device's writes among them. *)
Theorem C74_sequentially_consistent : forall p z n s0 m0 may own h1 t h2 m rq rs i y, wf_caches p z n ->
  let h := h1 ++ HC t :: h2 in
  dmem p n m0 h m rq rs -> clients p z n s0 (cycles h) ->
  (forall k, k * 4 < 2 ^ p_abw p -> synced p z n k (may k) (own k) (cycles h) /\ dev_synced n k (may k) (own k) h) ->
  (i < n)%nat -> i_req_en (fst (t i)) = true ->
  nth_error (responses (proj i (cycles h))) (length (accepted (proj i (cycles h1)))) = Some y ->
  let r := i_req (fst (t i)) in
  let V := flat_mem p (shared p n m0 h1) (flat_map (fun j => accepted [t j]) (seq 0 i)) in
  cr_type y = cq_type r /\ cr_opq y = cq_opq r /\ cr_len y = cq_len r /\ cr_data y = snd (flat_exec p V r).
Proof. exact (fun p z n s0 m0 may own h1 t h2 m rq rs i y W => dma_sc p z n W s0 m0 may own h1 t h2 m rq rs i y). Qed.
Print Assumptions C74_sequentially_consistent.

(** Word by word: other words may be shared without any discipline. *)
Theorem C74_read_word : forall p z n s0 m0 k may own h1 t h2 m rq rs i y j, wf_caches p z n -> k * 4 < 2 ^ p_abw p ->
  let h := h1 ++ HC t :: h2 in
  dmem p n m0 h m rq rs -> clients p z n s0 (cycles h) -> synced p z n k may own (cycles h) -> dev_synced n k may own h ->
  (i < n)%nat -> i_req_en (fst (t i)) = true ->
  nth_error (responses (proj i (cycles h))) (length (accepted (proj i (cycles h1)))) = Some y ->
  let r := i_req (fst (t i)) in
  cq_type r = T_READ -> j < req_bytes p r -> word_num (cq_addr r + j) = k ->
  slice (cr_data y) (8 * j) (8 * j + 8) = trunc 8 (shared p n m0 h1 (cq_addr r + j)).
Proof.
  exact (fun p z n s0 m0 k may own h1 t h2 m rq rs i y j W HK M C S DS I E N T J K =>
    r2_read _ _ _ _ _ (dma_resp p z n W k HK s0 m0 may own h1 t h2 m rq rs i y M C S DS I E N) T j J K).
Qed.
Print Assumptions C74_read_word.
Theorem C74_amo_word : forall p z n s0 m0 k may own h1 t h2 m rq rs i y, wf_caches p z n -> k * 4 < 2 ^ p_abw p ->
  let h := h1 ++ HC t :: h2 in
  dmem p n m0 h m rq rs -> clients p z n s0 (cycles h) -> synced p z n k may own (cycles h) -> dev_synced n k may own h ->
  (i < n)%nat -> i_req_en (fst (t i)) = true ->
  nth_error (responses (proj i (cycles h))) (length (accepted (proj i (cycles h1)))) = Some y ->
  let r := i_req (fst (t i)) in
  amo_word r k -> cr_data y = rd_bytes (shared p n m0 h1) (cq_addr r) 4.
Proof.
  exact (fun p z n s0 m0 k may own h1 t h2 m rq rs i y W HK M C S DS I E N T =>
    r2_amo _ _ _ _ _ (dma_resp p z n W k HK s0 m0 may own h1 t h2 m rq rs i y M C S DS I E N) (proj1 T) (eq_sym (proj2 T))).
Qed.
Print Assumptions C74_amo_word.

(** What the device reads is the value of the same single memory. *)
Theorem C74_device_read : forall p z n s0 m0 k may own h1 a x h2 m rq rs, wf_caches p z n -> k * 4 < 2 ^ p_abw p ->
  let h := h1 ++ HD (DRead a x) :: h2 in
  dmem p n m0 h m rq rs -> clients p z n s0 (cycles h) -> synced p z n k may own (cycles h) -> dev_synced n k may own h ->
  a < 2 ^ p_abw p -> word_num a = k -> x = trunc 8 (shared p n m0 h1 a).
Proof. exact (fun p z n s0 m0 k may own h1 a x h2 m rq rs W HK => dma_read p z n W k HK s0 m0 may own h1 a x h2 m rq rs). Qed.
Print Assumptions C74_device_read.

(** Once nobody may modify the word, memory itself holds its value. *)
Theorem C74_memory : forall p z n s0 m0 k may own h m rq rs a, wf_caches p z n -> k * 4 < 2 ^ p_abw p ->
  dmem p n m0 h m rq rs -> clients p z n s0 (cycles h) -> synced p z n k may own (cycles h) -> dev_synced n k may own h ->
  (forall i, (i < n)%nat -> own (length (cycles h)) i = false) -> a < 2 ^ p_abw p -> word_num a = k ->
  trunc 8 (m a) = trunc 8 (shared p n m0 h a).
Proof. exact (fun p z n s0 m0 k may own h m rq rs a W HK => dma_mem p z n W k HK s0 m0 may own h m rq rs a). Qed.
Print Assumptions C74_memory.

(** One cache and the device.  The client writes word 4 and flushes; the device reads the four
    bytes, then changes one byte of word 4 and one of word 5; the client invalidates, reads word 5,
    adds to word 4, reads it, flushes, and the device reads the sum. *)
Definition offer (k : nat) : list act := ACyc (mkCh true true true true) :: map ACyc (repeat (mkCh false true true true) k).
Definition prog_h : list creq :=
  [ wt 1 0x10 0 0xdeadbeef; mkCReq T_FLUSH 2 0 0 0; mkCReq T_INV 3 0 0 0; rd 4 0x14 0; mkCReq T_AMO_ADD 5 0x10 0 5; rd 6 0x10 0; mkCReq T_FLUSH 7 0 0 0 ].
Definition before_h : list act := offer 20 ++ offer 20 ++ offer 20.
Definition acts_h : list act := before_h ++ [ARd 0x10; ARd 0x11; ARd 0x12; ARd 0x13; AWr 0x10 0x01; AWr 0x15 0x55] ++
  offer 20 ++ offer 20 ++ offer 20 ++ offer 20 ++ offer 20 ++ [ARd 0x10; ARd 0x13].
Definition hist_h : list hev := fst (ddrive px (s0_a px) mem_a [] prog_h acts_h).
Definition may_h (k : N) (t i : nat) : bool := ((k =? 4) || (k =? 5)) && negb (Nat.eqb t 63).
Definition own_h (k : N) (t i : nat) : bool := ((k =? 4) || (k =? 5)) && negb (Nat.eqb t 63) && Nat.ltb t 168.
Definition dev_ops (h : list hev) : list dev_op := flat_map (fun e => match e with HD d => [d] | HC _ => [] end) h.
Lemma zone_wf : wf_caches px (zone px) 1.
Proof. intros i I. destruct i; [exact px_wf | lia]. Qed.
Lemma words_h : forall i r k, (i < 1)%nat -> In r (accepted (proj i (cycles hist_h))) -> touches px r k -> k = 4 \/ k = 5.
Proof.
  assert (A0 : accepted (proj 0 (cycles hist_h)) = prog_h) by (vm_compute; reflexivity).
  assert (B : forallb (fun r => (is_amo (cq_type r) || (cq_type r =? T_READ) || (cq_type r =? T_WRITE)) && 
      ((4 <=? word_num (cq_addr r)) && (word_num (cq_addr r + req_bytes px r - 1) <=? 5) && (word_num (cq_addr r) <=? 5)) ||
      (cq_type r =? T_INV) || (cq_type r =? T_FLUSH)) prog_h = true) by (vm_compute; reflexivity).
  rewrite forallb_forall in B. intros i r k I R T. destruct i; [|lia]. rewrite A0 in R. specialize (B r R). clear R I A0.
  rewrite !orb_true_iff, !andb_true_iff, !orb_true_iff, !N.leb_le, !N.eqb_eq in B.
  destruct T as [[TT L] | [IA ->]].
  - destruct B as [[[_ B] | B] | B]; [| destruct TT as [X | X]; rewrite X in B; discriminate B | destruct TT as [X | X]; rewrite X in B; discriminate B].
    set (x := word_num (cq_addr r)) in *. set (y := word_num (cq_addr r + req_bytes px r - 1)) in *. clearbody x y. lia.
  - destruct B as [[[_ B] | B] | B]; [| rewrite B in IA; discriminate IA | rewrite B in IA; discriminate IA].
    set (x := word_num (cq_addr r)) in *. clearbody x. lia.
Qed.
Example C74_example :
  (exists m rq rs, dmem px 1 mem_a hist_h m rq rs) /\ clients px (zone px) 1 (fun _ => s0_a px) (cycles hist_h) /\
  (forall k, synced px (zone px) 1 k (may_h k) (own_h k) (cycles hist_h) /\ dev_synced 1 k (may_h k) (own_h k) hist_h) /\
  accepted (proj 0 (cycles hist_h)) = prog_h /\
  map cr_data (responses (proj 0 (cycles hist_h))) = [0; 0; 0; 0xa49d558f; 0xdeadbe01; 0xdeadbe06; 0] /\
  map mem_a [0x14; 0x15; 0x16; 0x17] = [0x8f; 0x96; 0x9d; 0xa4] /\
  dev_ops hist_h = [DRead 0x10 0xef; DRead 0x11 0xbe; DRead 0x12 0xad; DRead 0x13 0xde; DWrite 0x10 0x01; DWrite 0x15 0x55; DRead 0x10 0x06; DRead 0x13 0xde].
Proof.
  destruct (ddrive_ok px (s0_a px) mem_a prog_h acts_h) as [C D]; [apply mk_reset_ok | apply wf_all; vm_compute; reflexivity |].
  split; [exact D|]. split; [exact C|]. split; [|vm_compute; auto 10].
  intros k.
  destruct (N.eq_dec k 4) as [->|N4]; [split; [apply syncedb_ok | apply dev_ok]; vm_compute; reflexivity|].
  destruct (N.eq_dec k 5) as [->|N5]; [split; [apply syncedb_ok | apply dev_ok]; vm_compute; reflexivity|].
  assert (E : may_h k = (fun _ _ => false) /\ own_h k = fun _ _ => false).
  { unfold may_h, own_h. apply N.eqb_neq in N4, N5. rewrite N4, N5. split; reflexivity. }
  destruct E as [-> ->]. split; [|constructor; intros; reflexivity].
  apply synced_none. intros i r I R T. destruct (words_h i r k I R T) as [X | X]; [exact (N4 X) | exact (N5 X)].
Qed.

Lemma at_nth : forall A (l : list A) k d, nth_error l k = Some d -> l = firstn k l ++ d :: skipn (S k) l.
Proof.
  induction l as [|x l IH]; intros [|k] d E; try discriminate E; cbn in *; [inversion E; auto | f_equal; auto].
Qed.

(** The client's INV is needed: a device's write is missed by a READ accepted later. *)
Definition stale_h : list hev := fst (ddrive px (s0_a px) mem_a [] [ rd 1 0x10 0; rd 2 0x10 0 ] (offer 20 ++ offer 20 ++ [AWr 0x10 0x01] ++ offer 20)).
Theorem C74_without_inv_refuted : exists p z s0 m0 h1 a v h2 m rq rs r y, wf_caches p z 1 /\
  dmem p 1 m0 (h1 ++ HD (DWrite a v) :: h2) m rq rs /\ clients p z 1 s0 (cycles (h1 ++ HD (DWrite a v) :: h2)) /\
  (forall r, In r (accepted (proj 0 (cycles (h1 ++ HD (DWrite a v) :: h2)))) -> cq_type r = T_READ) /\
  length (responses (proj 0 (cycles h1))) = length (accepted (proj 0 (cycles h1))) /\
  accepted (proj 0 (cycles h2)) = [r] /\ cq_addr r = a /\
  nth_error (responses (proj 0 (cycles (h1 ++ HD (DWrite a v) :: h2)))) (length (accepted (proj 0 (cycles h1)))) = Some y /\
  v < 256 /\ slice (cr_data y) 0 8 = trunc 8 (m0 a) /\ slice (cr_data y) 0 8 <> v.
Proof.
  destruct (ddrive_ok px (s0_a px) mem_a [ rd 1 0x10 0; rd 2 0x10 0 ] (offer 20 ++ offer 20 ++ [AWr 0x10 0x01] ++ offer 20)) as [C (m & rq & rs & D)];
    [apply mk_reset_ok | apply wf_all; vm_compute; reflexivity |]. cbv zeta in C. fold stale_h in C, D.
  assert (E : stale_h = firstn 42 stale_h ++ HD (DWrite 0x10 0x01) :: skipn 43 stale_h).
  { apply at_nth. vm_compute. reflexivity. }
  rewrite E in C, D.
  exists px, (zone px), (fun _ => s0_a px), mem_a, (firstn 42 stale_h), 0x10, 0x01, (skipn 43 stale_h), m, rq, rs, (rd 2 0x10 0). eexists.
  split; [exact zone_wf|]. split; [exact D|]. split; [exact C|]. rewrite <- E.
  split. { assert (A : accepted (proj 0 (cycles stale_h)) = [rd 1 0x10 0; rd 2 0x10 0]) by (vm_compute; reflexivity). rewrite A. intros r [<- | [<- | []]]; reflexivity. }
  repeat (split; [vm_compute; reflexivity|]). vm_compute. discriminate.
Qed.
Print Assumptions C74_without_inv_refuted.

(** And so is the FLUSH: the device reads what memory held before a WRITE that has been answered. *)
Definition early_h : list hev := fst (ddrive px (s0_a px) mem_a [] [ wt 1 0x10 0 0xdeadbeef ] (offer 20 ++ offer 20 ++ [ARd 0x10])).
Theorem C74_without_flush_refuted : exists p z s0 m0 h a x m rq rs w, wf_caches p z 1 /\
  dmem p 1 m0 (h ++ [HD (DRead a x)]) m rq rs /\ clients p z 1 s0 (cycles h) /\
  accepted (proj 0 (cycles h)) = [w] /\ length (responses (proj 0 (cycles h))) = 1%nat /\
  cq_type w = T_WRITE /\ cq_addr w = a /\ x = trunc 8 (m0 a) /\ x <> slice (cq_data w) 0 8.
Proof.
  destruct (ddrive_ok px (s0_a px) mem_a [ wt 1 0x10 0 0xdeadbeef ] (offer 20 ++ offer 20 ++ [ARd 0x10])) as [C (m & rq & rs & D)];
    [apply mk_reset_ok | apply wf_all; vm_compute; reflexivity |]. cbv zeta in C. fold early_h in C, D.
  assert (E : early_h = firstn 42 early_h ++ [HD (DRead 0x10 (mem_a 0x10))]).
  { assert (X : nth_error early_h 42 = Some (HD (DRead 0x10 (mem_a 0x10)))) by (vm_compute; reflexivity).
    assert (L : length early_h = 43%nat) by (vm_compute; reflexivity).
    rewrite (at_nth _ _ _ _ X) at 1. rewrite skipn_all2 by lia. reflexivity. }
  rewrite E in D. assert (EC : cycles early_h = cycles (firstn 42 early_h)) by (rewrite E at 1; rewrite cycles_app; cbn [cycles flat_map]; apply app_nil_r).
  rewrite EC in C.
  exists px, (zone px), (fun _ => s0_a px), mem_a, (firstn 42 early_h), 0x10, (mem_a 0x10), m, rq, rs, (wt 1 0x10 0 0xdeadbeef).
  split; [exact zone_wf|]. split; [exact D|]. split; [exact C|].
  repeat (split; [vm_compute; reflexivity|]). vm_compute. discriminate.
Qed.
Print Assumptions C74_without_flush_refuted.
