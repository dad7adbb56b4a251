(** Facts about the combinational units: byte selection, masks, replication. *)
From Coq Require Import NArith List Bool Lia.
From Verif Require Import Bits Params Msg Units Mem Spec ParamsProofs.
Import ListNotations.
Open Scope N_scope.

(** An access size [n] encoded by [len] on a data port of [dbw] bits. *)
Definition size_ok (p : params) (len n : N) : Prop :=
  pow2_size n /\ n <= p_dbw p / 8 /\
  (len = n /\ n <> p_dbw p / 8 \/ len = 0 /\ n = p_dbw p / 8).

Section U.
Variable p : params.
Hypothesis W : wf_params p.

Lemma size_cases : forall len n, size_ok p len n ->
  (p_dbw p = 32 /\ ((len, n) = (1,1) \/ (len, n) = (2,2) \/ (len, n) = (0,4))) \/
  (p_dbw p = 64 /\ ((len, n) = (1,1) \/ (len, n) = (2,2) \/ (len, n) = (4,4) \/ (len, n) = (0,8))) \/
  (p_dbw p = 128 /\ ((len, n) = (1,1) \/ (len, n) = (2,2) \/ (len, n) = (4,4) \/ (len, n) = (8,8) \/ (len, n) = (0,16))).
Proof.
  intros len n (P & L & E).
  destruct (wf_dbw p W) as [D | [D | D]]; rewrite D in *.
  - change (32 / 8) with 4 in *. left. split; auto.
    destruct P as [-> | [-> | [-> | [-> | ->]]]]; destruct E as [(-> & ?) | (-> & ?)]; try lia; auto.
  - change (64 / 8) with 8 in *. right; left. split; auto.
    destruct P as [-> | [-> | [-> | [-> | ->]]]]; destruct E as [(-> & ?) | (-> & ?)]; try lia; auto 6.
  - change (128 / 8) with 16 in *. right; right. split; auto.
    destruct P as [-> | [-> | [-> | [-> | ->]]]]; destruct E as [(-> & ?) | (-> & ?)]; try lia; auto 7.
Qed.

Ltac sizes H :=
  let D := fresh "D" in let E := fresh "E" in
  apply size_cases in H; destruct H as [(D & H) | [(D & H) | (D & H)]];
  repeat (destruct H as [H | H]); injection H as -> ->.

Lemma size_le : forall len n, size_ok p len n -> 8 * n <= p_dbw p /\ n <= 2 ^ offw p.
Proof.
  intros len n H. pose proof (wf_dc p W) as DC. rewrite (clw_off p W) in DC.
  sizes H; rewrite D in *; lia.
Qed.

Lemma word_mask_ones : forall len n, size_ok p len n -> word_mask p len = N.ones n.
Proof.
  intros len n H. pose proof (size_le _ _ H) as [_ LE].
  assert (WB : wbenw p / 8 = 2 ^ offw p).
  { rewrite (wbenw_clw p W), (clw_off p W), N.mul_comm, N.div_mul; lia. }
  unfold word_mask, lenw. rewrite WB.
  assert (X : N.ones n = trunc (2 ^ offw p) (N.ones n)).
  { symmetry. apply trunc_small. apply lt_pow2_bits. intros i Hi. rewrite testbit_ones.
    destruct (N.ltb_spec i n); auto; lia. }
  rewrite X. f_equal. sizes H; rewrite D; reflexivity.
Qed.

Lemma word_mask_dw : p_dbw p = 32 -> word_mask p 3 = N.ones 8.
Proof.
  intros D. pose proof (offw_ge3 p W) as O3.
  assert (WB : wbenw p / 8 = 2 ^ offw p).
  { rewrite (wbenw_clw p W), (clw_off p W), N.mul_comm, N.div_mul; lia. }
  unfold word_mask. cbn [N.eqb Pos.eqb]. rewrite WB. change 255 with (N.ones 8).
  apply trunc_small. apply N.lt_le_trans with (2 ^ 8); [reflexivity|].
  apply N.pow_le_mono_r; [lia|]. change 8 with (2 ^ 3). apply N.pow_le_mono_r; lia.
Qed.

Lemma wben_req_bits : forall len n off b, word_mask p len = N.ones n -> off + n <= 2 ^ offw p ->
  N.testbit (wben_req p off len) b = (8 * off <=? b) && (b <? 8 * (off + n)).
Proof.
  intros len n off b M O.
  assert (WB : wbenw p / 8 = 2 ^ offw p).
  { rewrite (wbenw_clw p W), (clw_off p W), N.mul_comm, N.div_mul; lia. }
  unfold wben_req, shifted_mask. rewrite testbit_bits_of, testbit_trunc, WB, M, (wbenw_clw p W), (clw_off p W).
  pose proof (N.div_mod' b 8) as DM. pose proof (N.mod_lt b 8 ltac:(lia)) as ML.
  set (q := b / 8) in *. set (r8 := b mod 8) in *. clearbody q r8.
  set (oo := 2 ^ offw p) in *. clearbody oo.
  destruct (N.leb_spec (8 * off) b) as [L|L].
  - rewrite N.shiftl_spec_high' by lia. rewrite testbit_ones.
    destruct (N.ltb_spec b (8 * oo)), (N.ltb_spec q oo),
      (N.ltb_spec (q - off) n), (N.ltb_spec b (8 * (off + n))); cbn [andb]; auto; lia.
  - rewrite N.shiftl_spec_low by lia. rewrite !andb_false_r. auto.
Qed.

Lemma replicator_size : forall len n x, size_ok p len n ->
  replicator p false len x = replicate p (8 * n) x.
Proof.
  intros len n x H. sizes H; unfold replicator, rep_sel, rep_ninputs, rep_n; rewrite D; reflexivity.
Qed.

Lemma replicator_dw : forall x b, p_dbw p = 32 ->
  N.testbit (replicator p false 3 x) b = (b <? p_clw p) && ((b mod 64) <? 32) && N.testbit x (b mod 64).
Proof.
  intros x b D. unfold replicator, rep_sel, rep_ninputs, rep_n. rewrite D.
  change (clog2 32 - 2 + 2) with 5. cbn [N.eqb Pos.eqb N.sub Pos.sub_mask Pos.pred_double Pos.double_mask Pos.succ_double_mask Pos.pred N.pred Pos.double_pred_mask].
  change (5 - 1 =? 0) with false. change (5 - 1 =? 5 - 1) with true. cbn iota.
  unfold double_word. rewrite D.
  destruct (N.leb_spec 64 (p_clw p)) as [C|C].
  - cbn [N.eqb Pos.eqb andb]. rewrite testbit_bits_of, andb_assoc. auto.
  - pose proof (offw_ge3 p W). rewrite (clw_off p W) in C.
    assert (2 ^ 3 <= 2 ^ offw p) by (apply N.pow_le_mono_r; lia). change (2 ^ 3) with 8 in *. lia.
Qed.

(** C20, on one line: bits of the written line. *)
Lemma write_bits : forall len n off L x b, size_ok p len n -> off mod n = 0 -> off < 2 ^ offw p ->
  N.testbit (mwrite L (replicator p false len x) (wben_req p off len)) b =
  if (8 * off <=? b) && (b <? 8 * (off + n)) then N.testbit x (b - 8 * off) else N.testbit L b.
Proof.
  intros len n off L x b H AL O. pose proof (size_le _ _ H) as [_ LE].
  assert (P : exists k, n = 2 ^ k /\ k <= offw p).
  { assert (Q : exists k, n = 2 ^ k) by (destruct H as ([-> | [-> | [-> | [-> | ->]]]] & _);
      [exists 0|exists 1|exists 2|exists 3|exists 4]; auto).
    destruct Q as (k & ->). exists k. split; auto. apply N.pow_le_mono_r_iff in LE; auto; lia. }
  destruct P as (k & Nk & Kle).
  assert (N0 : n <> 0) by (rewrite Nk; apply N.pow_nonzero; lia).
  assert (DV : exists q, off = n * q).
  { exists (off / n). pose proof (N.div_mod' off n). lia. }
  destruct DV as (q & Oq).
  assert (DO : 2 ^ offw p = n * 2 ^ (offw p - k)).
  { rewrite Nk, <- N.pow_add_r. f_equal. lia. }
  assert (ON : off + n <= 2 ^ offw p) by (rewrite DO in O |- *; clear - O Oq N0; set (z := 2 ^ (offw p - k)) in *; clearbody z;
    assert (q < z) by nia; nia).
  rewrite testbit_mwrite, (wben_req_bits len n off b (word_mask_ones _ _ H) ON).
  destruct (N.leb_spec (8 * off) b) as [L1|L1]; cbn [andb]; auto.
  destruct (N.ltb_spec b (8 * (off + n))) as [L2|L2]; auto.
  rewrite (replicator_size _ _ _ H). unfold replicate. rewrite testbit_bits_of.
  assert (BC : b < p_clw p) by (rewrite (clw_off p W); lia).
  rewrite (proj2 (N.ltb_lt _ _) BC). cbn [andb]. f_equal.
  symmetry. apply N.mod_unique with q; lia.
Qed.

Lemma write_bits_dw : forall off L x b, p_dbw p = 32 -> off mod 8 = 0 -> off < 2 ^ offw p ->
  N.testbit (mwrite L (replicator p false 3 x) (wben_req p off 3)) b =
  if (8 * off <=? b) && (b <? 8 * (off + 8)) then (b - 8 * off <? 32) && N.testbit x (b - 8 * off)
  else N.testbit L b.
Proof.
  intros off L x b D AL O.
  pose proof (offw_ge3 p W) as O3.
  assert (DV : exists q, off = 8 * q) by (exists (off / 8); pose proof (N.div_mod' off 8); lia).
  destruct DV as (q & Oq).
  assert (DO : 2 ^ offw p = 8 * 2 ^ (offw p - 3)).
  { change 8 with (2 ^ 3). rewrite <- N.pow_add_r. f_equal. lia. }
  assert (ON : off + 8 <= 2 ^ offw p) by (rewrite DO in O |- *; nia).
  rewrite testbit_mwrite, (wben_req_bits 3 8 off b (word_mask_dw D) ON).
  destruct (N.leb_spec (8 * off) b) as [L1|L1]; cbn [andb]; auto.
  destruct (N.ltb_spec b (8 * (off + 8))) as [L2|L2]; auto.
  rewrite replicator_dw by auto.
  assert (BC : b < p_clw p) by (rewrite (clw_off p W); lia).
  rewrite (proj2 (N.ltb_lt _ _) BC). cbn [andb].
  replace (b mod 64) with (b - 8 * off); auto. apply N.mod_unique with q; lia.
Qed.

(** replaying a write through the MSHR gives the same data *)
Lemma replicate_replay : forall len n x, size_ok p len n ->
  replicator p false len (slice (replicator p false len x) 0 (p_dbw p)) = replicator p false len x.
Proof.
  intros len n x H. pose proof (size_le _ _ H) as [LE _]. rewrite !(replicator_size _ _ _ H).
  pose proof (wf_dc p W) as DC.
  assert (N0 : 8 * n <> 0) by (destruct H as ([-> | [-> | [-> | [-> | ->]]]] & _); lia).
  apply N.bits_inj; intro b. unfold replicate. rewrite !testbit_bits_of.
  destruct (N.ltb_spec b (p_clw p)); auto. cbn [andb].
  pose proof (N.mod_lt b _ N0) as ML.
  rewrite testbit_slice, testbit_bits_of, N.add_0_r, N.sub_0_r.
  rewrite (proj2 (N.ltb_lt (b mod (8 * n)) (p_dbw p))) by lia.
  rewrite (proj2 (N.ltb_lt (b mod (8 * n)) (p_clw p))) by lia. cbn [andb].
  rewrite N.mod_mod; auto.
Qed.

Lemma replicate_replay_dw : forall x, p_dbw p = 32 ->
  replicator p false 3 (slice (replicator p false 3 x) 0 (p_dbw p)) = replicator p false 3 x.
Proof.
  intros x D. apply N.bits_inj; intro b. rewrite !replicator_dw, D by auto.
  destruct (N.ltb_spec b (p_clw p)); auto. cbn [andb].
  destruct (N.ltb_spec (b mod 64) 32) as [L|L]; auto. cbn [andb].
  rewrite testbit_slice, replicator_dw, N.add_0_r by auto.
  rewrite (proj2 (N.ltb_lt (b mod 64) (32 - 0))) by lia.
  pose proof (wf_dc p W).
  rewrite (proj2 (N.ltb_lt (b mod 64) (p_clw p))) by lia.
  rewrite N.mod_mod by lia. rewrite (proj2 (N.ltb_lt (b mod 64) 32)) by lia. auto.
Qed.

(** C21 *)
Lemma fast_sub_slice : forall k off x, k <= offw p -> off < 2 ^ offw p -> off mod 2 ^ k = 0 ->
  fast_sub p (2 ^ (3 + k)) x off = slice x (8 * off) (8 * off + 8 * 2 ^ k).
Proof.
  intros k off x K O AL. unfold fast_sub. rewrite clog2_pow2.
  replace (3 + k - 3) with k by lia.
  assert (S : slice off k (offw p) * 2 ^ (3 + k) = 8 * off).
  { unfold slice. rewrite trunc_small.
    - rewrite N.shiftr_div_pow2, N.pow_add_r. change (2 ^ 3) with 8.
      pose proof (N.div_mod' off (2 ^ k)). nia.
    - rewrite N.shiftr_div_pow2. apply N.div_lt_upper_bound; [apply N.pow_nonzero; lia|].
      rewrite <- N.pow_add_r. replace (k + (offw p - k)) with (offw p) by lia. auto. }
  rewrite S. f_equal. rewrite N.pow_add_r. change (2 ^ 3) with 8. lia.
Qed.

Lemma read_slice : forall len n off x, size_ok p len n -> off mod n = 0 -> off < 2 ^ offw p ->
  fast_select p true false len off x = slice x (8 * off) (8 * off + 8 * n).
Proof.
  intros len n off x H AL O. pose proof (size_le _ _ H) as [LE1 LE2].
  pose proof (wf_dc p W) as DC. pose proof (clw_off p W) as CO.
  assert (T : forall k, n = 2 ^ k -> trunc (p_dbw p) (fast_sub p (2 ^ (3 + k)) x off) = slice x (8 * off) (8 * off + 8 * n)).
  { intros k ->. rewrite fast_sub_slice; auto.
    - apply trunc_small. eapply N.lt_le_trans; [apply slice_lt|]. apply N.pow_le_mono_r; lia.
    - apply N.pow_le_mono_r_iff in LE2; auto; lia. }
  destruct (N.ltb_spec (p_dbw p) (p_clw p)) as [LT|GE].
  - sizes H; unfold fast_select, dsel_sel, dsel_ninputs, fast_nmuxes; rewrite (proj2 (N.ltb_lt _ _) LT); rewrite D in *.
    + change (trunc 32 (fast_sub p (2 ^ (3 + 0)) x off) = slice x (8 * off) (8 * off + 8 * 1)). apply (T 0); auto.
    + change (trunc 32 (fast_sub p (2 ^ (3 + 1)) x off) = slice x (8 * off) (8 * off + 8 * 2)). apply (T 1); auto.
    + change (trunc 32 (fast_sub p (2 ^ (3 + 2)) x off) = slice x (8 * off) (8 * off + 8 * 4)). apply (T 2); auto.
    + change (trunc 64 (fast_sub p (2 ^ (3 + 0)) x off) = slice x (8 * off) (8 * off + 8 * 1)). apply (T 0); auto.
    + change (trunc 64 (fast_sub p (2 ^ (3 + 1)) x off) = slice x (8 * off) (8 * off + 8 * 2)). apply (T 1); auto.
    + change (trunc 64 (fast_sub p (2 ^ (3 + 2)) x off) = slice x (8 * off) (8 * off + 8 * 4)). apply (T 2); auto.
    + change (trunc 64 (fast_sub p (2 ^ (3 + 3)) x off) = slice x (8 * off) (8 * off + 8 * 8)). apply (T 3); auto.
    + change (trunc 128 (fast_sub p (2 ^ (3 + 0)) x off) = slice x (8 * off) (8 * off + 8 * 1)). apply (T 0); auto.
    + change (trunc 128 (fast_sub p (2 ^ (3 + 1)) x off) = slice x (8 * off) (8 * off + 8 * 2)). apply (T 1); auto.
    + change (trunc 128 (fast_sub p (2 ^ (3 + 2)) x off) = slice x (8 * off) (8 * off + 8 * 4)). apply (T 2); auto.
    + change (trunc 128 (fast_sub p (2 ^ (3 + 3)) x off) = slice x (8 * off) (8 * off + 8 * 8)). apply (T 3); auto.
    + change (trunc 128 (fast_sub p (2 ^ (3 + 4)) x off) = slice x (8 * off) (8 * off + 8 * 16)). apply (T 4); auto.
  - assert (EQ : p_clw p = p_dbw p) by lia.
    assert (Z : n = p_dbw p / 8 -> off = 0).
    { intros ->. assert (X : p_dbw p / 8 = 2 ^ offw p) by (rewrite <- EQ, CO, N.mul_comm, N.div_mul; lia).
      rewrite X, N.mod_small in AL by auto. auto. }
    sizes H; unfold fast_select, dsel_sel, dsel_ninputs, fast_nmuxes; rewrite (proj2 (N.ltb_ge _ _) GE); rewrite D in *;
    try (rewrite (Z eq_refl); reflexivity).
    + change (trunc 32 (fast_sub p (2 ^ (3 + 0)) x off) = slice x (8 * off) (8 * off + 8 * 1)). apply (T 0); auto.
    + change (trunc 32 (fast_sub p (2 ^ (3 + 1)) x off) = slice x (8 * off) (8 * off + 8 * 2)). apply (T 1); auto.
    + change (trunc 64 (fast_sub p (2 ^ (3 + 0)) x off) = slice x (8 * off) (8 * off + 8 * 1)). apply (T 0); auto.
    + change (trunc 64 (fast_sub p (2 ^ (3 + 1)) x off) = slice x (8 * off) (8 * off + 8 * 2)). apply (T 1); auto.
    + change (trunc 64 (fast_sub p (2 ^ (3 + 2)) x off) = slice x (8 * off) (8 * off + 8 * 4)). apply (T 2); auto.
    + change (trunc 128 (fast_sub p (2 ^ (3 + 0)) x off) = slice x (8 * off) (8 * off + 8 * 1)). apply (T 0); auto.
    + change (trunc 128 (fast_sub p (2 ^ (3 + 1)) x off) = slice x (8 * off) (8 * off + 8 * 2)). apply (T 1); auto.
    + change (trunc 128 (fast_sub p (2 ^ (3 + 2)) x off) = slice x (8 * off) (8 * off + 8 * 4)). apply (T 2); auto.
    + change (trunc 128 (fast_sub p (2 ^ (3 + 3)) x off) = slice x (8 * off) (8 * off + 8 * 8)). apply (T 3); auto.
Qed.

Lemma read_off : forall len off x, fast_select p false false len off x = 0.
Proof. reflexivity. Qed.
Lemma read_amo : forall en len off x, fast_select p en true len off x = slice x 0 32.
Proof. reflexivity. Qed.

End U.
