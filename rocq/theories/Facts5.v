(** Byte-level facts about single units, geometry, and the len=3 double word. *)
From Coq Require Import NArith List Bool Lia.
From Verif Require Import Bits Params Msg Units Units2 Rtl Mem Tl Spec System ParamsProofs UnitProofs Units2Proofs ViewDefs ViewProofs Traffic
  MetaProofs SysProofs SysFacts Facts1 Facts2.
Import ListNotations.
Open Scope N_scope.

(** Byte [j] of a vector. *)
Definition vbyte (x j : N) : N := slice x (8 * j) (8 * j + 8).

Lemma testbit_vbyte : forall x j i, N.testbit (vbyte x j) i = (i <? 8) && N.testbit x (8 * j + i).
Proof. intros. unfold vbyte. rewrite testbit_slice. replace (8 * j + 8 - 8 * j) with 8 by lia. rewrite N.add_comm. reflexivity. Qed.

Section F.
Variable p : params.
Hypothesis W : wf_params p.

Lemma write_bytes : forall len n off ram row x, size_ok p len n -> off mod n = 0 -> off < 2 ^ offw p ->
  let ram' := sram_wr ram true true row (replicator p false len x) (wben_req p off len) in
  (forall j, vbyte (ram' row) j = if (off <=? j) && (j <? off + n) then vbyte x (j - off) else vbyte (ram row) j) /\
  (forall row', row' <> row -> ram' row' = ram row').
Proof.
  intros len n off ram row x S A L ram'. split.
  - intro j. apply N.bits_inj; intro i. unfold ram', sram_wr. cbn [andb]. rewrite upd_eq.
    rewrite testbit_vbyte, (write_bits p W len n) by assumption.
    destruct (N.ltb_spec i 8) as [Hi|Hi]; cbn [andb].
    + destruct (N.leb_spec (8 * off) (8 * j + i)), (N.ltb_spec (8 * j + i) (8 * (off + n)));
      destruct (N.leb_spec off j), (N.ltb_spec j (off + n)); try lia; cbn [andb];
      rewrite testbit_vbyte; destruct (N.ltb_spec i 8); try lia; cbn [andb]; try reflexivity. f_equal. lia.
    + destruct ((off <=? j) && (j <? off + n)); rewrite testbit_vbyte; destruct (N.ltb_spec i 8); try lia; reflexivity.
  - intros. unfold ram', sram_wr. cbn [andb]. apply upd_neq. assumption.
Qed.

Lemma read_bytes : forall len n off x, size_ok p len n -> off mod n = 0 -> off < 2 ^ offw p ->
  forall j, vbyte (fast_select p true false len off x) j = if j <? n then vbyte x (off + j) else 0.
Proof.
  intros len n off x S A L j. rewrite (read_slice p W len n) by assumption.
  apply N.bits_inj; intro i. rewrite testbit_vbyte, testbit_slice.
  replace (8 * off + 8 * n - 8 * off) with (8 * n) by lia.
  destruct (N.ltb_spec i 8) as [Hi|Hi]; cbn [andb].
  - destruct (N.ltb_spec (8 * j + i) (8 * n)), (N.ltb_spec j n); try lia; cbn [andb]; [|rewrite N.bits_0; reflexivity].
    rewrite testbit_vbyte. destruct (N.ltb_spec i 8); try lia. cbn [andb]. f_equal. lia.
  - destruct (j <? n); [rewrite testbit_vbyte; destruct (N.ltb_spec i 8); try lia; reflexivity | rewrite N.bits_0; reflexivity].
Qed.

Lemma double_bytes : forall off ram row x, p_dbw p = 32 -> off mod 8 = 0 -> off < 2 ^ offw p ->
  let ram' := sram_wr ram true true row (replicator p false 3 x) (wben_req p off 3) in
  (forall j, vbyte (ram' row) j =
     if (off <=? j) && (j <? off + 4) then vbyte x (j - off)
     else if (off <=? j) && (j <? off + 8) then 0 else vbyte (ram row) j) /\
  (forall row', row' <> row -> ram' row' = ram row').
Proof.
  intros off ram row x D A L ram'. split.
  - intro j. apply N.bits_inj; intro i. unfold ram', sram_wr. cbn [andb]. rewrite upd_eq.
    rewrite testbit_vbyte, (write_bits_dw p W) by assumption.
    destruct (N.ltb_spec i 8) as [Hi|Hi]; cbn [andb].
    + destruct (N.leb_spec (8 * off) (8 * j + i)), (N.ltb_spec (8 * j + i) (8 * (off + 8)));
      destruct (N.leb_spec off j), (N.ltb_spec j (off + 8)), (N.ltb_spec j (off + 4)); try lia; cbn [andb];
      rewrite ?testbit_vbyte, ?N.bits_0; destruct (N.ltb_spec i 8); try lia; cbn [andb]; try reflexivity;
      destruct (N.ltb_spec (8 * j + i - 8 * off) 32); try lia; cbn [andb]; try reflexivity. f_equal. lia.
    + destruct ((off <=? j) && (j <? off + 4)), ((off <=? j) && (j <? off + 8)); rewrite ?testbit_vbyte, ?N.bits_0;
      destruct (N.ltb_spec i 8); try lia; reflexivity.
  - intros. unfold ram', sram_wr. cbn [andb]. apply upd_neq. assumption.
Qed.

Lemma double_dirty : forall d off k, off mod 8 = 0 -> off < 2 ^ offw p ->
  N.testbit (set_dirty p d off 3) k = N.testbit d k || (k =? off / 4) || (k =? off / 4 + 1).
Proof.
  intros d off k A L. unfold set_dirty. change (3 =? 3) with true. cbn iota.
  rewrite !N.setbit_eqb. unfold word_of_succ. rewrite (word_of_div p W) by assumption.
  pose proof (offw_ge3 p W) as G.
  assert (T : trunc (offw p - 2) (off / 4 + 1) = off / 4 + 1).
  { apply trunc_small. assert (P : 2 ^ offw p = 8 * 2 ^ (offw p - 3)).
    { change 8 with (2 ^ 3). rewrite <- N.pow_add_r. f_equal. lia. }
    assert (P2 : 2 ^ (offw p - 2) = 2 * 2 ^ (offw p - 3)).
    { rewrite <- (N.pow_succ_r' 2). f_equal. lia. }
    pose proof (N.div_mod off 8 ltac:(lia)) as D. rewrite A in D.
    set (q := off / 8) in *. set (z := 2 ^ (offw p - 3)) in *.
    assert (E : off / 4 = 2 * q) by (symmetry; apply N.div_unique with 0; lia).
    rewrite E, P2. lia. }
  rewrite T, (N.eqb_sym k (off / 4)), (N.eqb_sym k (off / 4 + 1)).
  destruct (N.testbit d k), (off / 4 =? k), (off / 4 + 1 =? k); reflexivity.
Qed.

(** geometry *)
Lemma row_onto : forall row, row < total_lines p -> exists i w, i < nblocks p /\ w < p_assoc p /\ indexer p i w = row.
Proof.
  intros row H. exists (row mod nblocks p), (row / nblocks p).
  pose proof (nblocks_ge2 p W). rewrite (total_eq p W) in H.
  assert (I : row mod nblocks p < nblocks p) by (apply N.mod_lt; lia).
  assert (J : row / nblocks p < p_assoc p) by (apply N.div_lt_upper_bound; lia).
  split; [assumption|]. split; [assumption|]. rewrite (indexer_eq p W) by assumption.
  rewrite (N.div_mod row (nblocks p)) at 3 by lia. lia.
Qed.

Lemma line_enum : forall w i, w < p_assoc p -> i < nblocks p ->
  exists k, k < total_lines p /\ (k mod p_assoc p = w /\ slice k (clog_asso p) (bw_lines p) = i) /\
  forall k', k' < total_lines p -> k' mod p_assoc p = w -> slice k' (clog_asso p) (bw_lines p) = i -> k' = k.
Proof.
  intros w i Hw Hi. exists (lnum p w i).
  split; [apply (lnum_lt p W); assumption|]. split; [split|].
  - apply lway_lnum; assumption.
  - apply (lidx_lnum p W); assumption.
  - intros k' K E1 E2. rewrite <- (lnum_l p W k' K). unfold lway, lidx. rewrite E1, E2. reflexivity.
Qed.

(** Bytes a request may change on a flat memory. *)
Definition touches (r : creq) (x : N) : Prop :=
  (cq_type r = T_WRITE /\ cq_addr r <= x < cq_addr r + req_bytes p r) \/
  (is_amo (cq_type r) = true /\ cq_addr r <= x < cq_addr r + 4).

Lemma flat_untouched : forall B m x, (forall r, In r B -> ~ touches r x) -> flat_mem p m B x = m x.
Proof.
  induction B as [|r B IH]; intros m x H; [reflexivity|]. cbn [flat_mem].
  rewrite IH by (intros; apply H; right; assumption).
  assert (T : ~ touches r x) by (apply H; left; reflexivity).
  unfold flat_exec. destruct (cq_type r =? T_READ); [reflexivity|].
  destruct (N.eqb_spec (cq_type r) T_WRITE) as [E|E].
  - cbn [fst]. unfold wr_bytes. rewrite N2Nat.id.
    destruct (N.leb_spec (cq_addr r) x), (N.ltb_spec x (cq_addr r + req_bytes p r)); try reflexivity.
    exfalso. apply T. left. lia.
  - destruct (is_amo (cq_type r)) eqn:EA; [|reflexivity]. cbn [fst]. unfold wr_bytes. change (N.of_nat 4) with 4.
    destruct (N.leb_spec (cq_addr r) x), (N.ltb_spec x (cq_addr r + 4)); try reflexivity.
    exfalso. apply T. right. split; [assumption | lia].
Qed.

Lemma flush_double : forall s0 is i m0 m rq rs y A r B f, sys_run p s0 (is ++ [i]) m0 m rq rs ->
  let tr := trace_of p s0 (is ++ [i]) in
  o_resp (output p (fst (run p s0 is)) i) = Some y ->
  firstn (length (responses tr)) (accepted tr) = A ++ r :: B ++ [f] -> cq_type f = T_FLUSH ->
  p_dbw p = 32 -> cq_type r = T_WRITE -> cq_len r = 3 -> cq_addr r + 8 <= 2 ^ p_abw p ->
  (forall b x, In b B -> cq_addr r <= x < cq_addr r + 8 -> ~ touches b x) ->
  rd_bytes m (cq_addr r) 4 = trunc 32 (cq_data r) /\ rd_bytes m (cq_addr r + 4) 4 = 0.
Proof.
  intros s0 is i m0 m rq rs y A r B f R tr O E F D T L3 HA NB.
  assert (E' : firstn (length (responses tr)) (accepted tr) = (A ++ r :: B) ++ [f]).
  { rewrite E, <- app_assoc. reflexivity. }
  destruct (sys_flush p W s0 is i m0 m rq rs y (A ++ r :: B) f R O E' F) as (_ & M).
  assert (RB : req_bytes p r = 8).
  { unfold req_bytes. rewrite T, L3. reflexivity. }
  assert (V : forall k, k < 8 -> trunc 8 (m (cq_addr r + k)) = vbyte (trunc 32 (cq_data r)) k).
  { intros k K. rewrite M by lia. rewrite !flat_mem_app. cbn [flat_mem].
    assert (FF : fst (flat_exec p (flat_mem p (fst (flat_exec p (flat_mem p m0 A) r)) B) f) =
                 flat_mem p (fst (flat_exec p (flat_mem p m0 A) r)) B).
    { unfold flat_exec at 1. rewrite F. reflexivity. }
    rewrite FF. rewrite flat_untouched.
    - unfold flat_exec. rewrite T. change (T_WRITE =? T_READ) with false. change (T_WRITE =? T_WRITE) with true. cbn iota. cbn [fst].
      rewrite RB, D. unfold wr_bytes. change (N.of_nat (N.to_nat 8)) with 8.
      destruct (N.leb_spec (cq_addr r) (cq_addr r + k)), (N.ltb_spec (cq_addr r + k) (cq_addr r + 8)); try lia. cbn [andb].
      replace (cq_addr r + k - cq_addr r) with k by lia. apply trunc_small.
      change (vbyte (trunc 32 (cq_data r)) k < 2 ^ 8). apply lt_pow2_bits. intros b Hb. rewrite testbit_vbyte. destruct (N.ltb_spec b 8); [lia | reflexivity].
    - intros b Hb. apply NB; [assumption | lia]. }
  split.
  - rewrite (rd_slice 4 m (cq_addr r) (trunc 32 (cq_data r)) 0).
    + apply N.bits_inj; intro b. rewrite testbit_slice, !testbit_trunc. change (8 * 0) with 0. rewrite N.add_0_r.
      change (0 + 8 * N.of_nat 4 - 0) with 32. destruct (b <? 32); reflexivity.
    + intros k K. rewrite N.add_0_l. apply V. change (N.of_nat 4) with 4 in K. lia.
  - rewrite (rd_slice 4 m (cq_addr r + 4) (trunc 32 (cq_data r)) 4).
    + apply N.bits_inj; intro b. rewrite testbit_slice, testbit_trunc, N.bits_0.
      destruct (N.ltb_spec (b + 8 * 4) 32); [lia|]. cbn [andb]. apply andb_false_r.
    + intros k K. replace (cq_addr r + 4 + k) with (cq_addr r + (4 + k)) by lia. apply V. change (N.of_nat 4) with 4 in K. lia.
Qed.
End F.
