(** Consequences of [wf_params]. *)
From Coq Require Import NArith List Bool Lia.
From Verif Require Import Bits Params Msg Units Tl.
Import ListNotations.
Open Scope N_scope.

Lemma pow2_pos : forall n, 0 < 2 ^ n.
Proof. intros; assert (2 ^ n <> 0) by (apply N.pow_nonzero; lia); lia. Qed.

Lemma clog2_pow2 : forall n, clog2 (2 ^ n) = n.
Proof. intros; unfold clog2; apply N.log2_up_pow2; lia. Qed.

Lemma pow2_div : forall a b, b <= a -> 2 ^ a / 2 ^ b = 2 ^ (a - b).
Proof. intros. symmetry. apply N.pow_sub_r; lia. Qed.

Section P.
Variable p : params.
Hypothesis W : wf_params p.

Lemma geo : exists a b,
  p_clw p = 2 ^ a /\ 6 <= a /\ 1 <= b /\
  total_lines p = p_assoc p * 2 ^ b /\ nblocks p = 2 ^ b /\ idxw p = b /\
  offw p = a - 3 /\ dtyw p = 2 ^ (a - 5) /\ wbenw p = 2 ^ a /\
  bw_lines p = b + clog_asso p /\ memlenw p = a - 3.
Proof.
  destruct W as [Ha (a & Hc & H6) Hd Hdc (b & Hb & Hs) Hw].
  exists a, b.
  assert (T : total_lines p = p_assoc p * 2 ^ b).
  { unfold total_lines. rewrite Hs, Hc. rewrite N.mul_comm. apply N.div_mul.
    pose proof (pow2_pos a); lia. }
  assert (NB : nblocks p = 2 ^ b).
  { unfold nblocks. rewrite T, N.mul_comm. apply N.div_mul. destruct Ha as [-> | ->]; lia. }
  assert (O8 : p_clw p / 8 = 2 ^ (a - 3)).
  { rewrite Hc. change 8 with (2 ^ 3). apply pow2_div; lia. }
  repeat split; auto.
  - unfold idxw. rewrite NB. apply clog2_pow2.
  - unfold offw. rewrite O8. apply clog2_pow2.
  - unfold dtyw. rewrite Hc. change 32 with (2 ^ 5). apply pow2_div; lia.
  - unfold wbenw. rewrite Hc.
    replace (2 ^ a) with (8 * 2 ^ (a - 3)).
    + replace (8 * 2 ^ (a - 3) + 7) with (7 + 2 ^ (a - 3) * 8) by lia.
      rewrite N.div_add by lia. change (7 / 8) with 0. lia.
    + change 8 with (2 ^ 3). rewrite <- N.pow_add_r. f_equal; lia.
  - unfold bw_lines, clog_asso. rewrite T. destruct Ha as [-> | ->].
    + rewrite N.mul_1_l, clog2_pow2. change (clog2 1) with 0. lia.
    + change (clog2 2) with 1. replace (2 * 2 ^ b) with (2 ^ (b + 1)).
      * apply clog2_pow2.
      * rewrite N.add_1_r, N.pow_succ_r'; auto.
  - unfold memlenw. rewrite O8. apply clog2_pow2.
Qed.

Lemma total_pow : total_lines p = 2 ^ bw_lines p.
Proof.
  destruct geo as (a & b & Gc & G6 & Gb & Gt & Gn & Gi & Go & Gd & Gw & Gl & Gm). rewrite Gt, Gl.
  unfold clog_asso. destruct (wf_assoc p W) as [-> | ->].
  - change (clog2 1) with 0. rewrite N.add_0_r; lia.
  - change (clog2 2) with 1. rewrite N.add_1_r, N.pow_succ_r'; auto.
Qed.

Lemma total_eq : total_lines p = p_assoc p * nblocks p.
Proof. destruct geo as (a & b & Gc & G6 & Gb & Gt & Gn & Gi & Go & Gd & Gw & Gl & Gm). rewrite Gt, Gn; auto. Qed.

Lemma nblocks_pow : nblocks p = 2 ^ idxw p.
Proof. destruct geo as (a & b & Gc & G6 & Gb & Gt & Gn & Gi & Go & Gd & Gw & Gl & Gm). rewrite Gn, Gi; auto. Qed.

Lemma nblocks_ge2 : 2 <= nblocks p.
Proof.
  destruct geo as (a & b & Gc & G6 & Gb & Gt & Gn & Gi & Go & Gd & Gw & Gl & Gm). rewrite Gn.
  change 2 with (2 ^ 1) at 1. apply N.pow_le_mono_r; lia.
Qed.

Lemma total_ge2 : 2 <= total_lines p.
Proof.
  pose proof nblocks_ge2. rewrite total_eq. destruct (wf_assoc p W) as [-> | ->]; lia.
Qed.

Lemma assoc_pow : p_assoc p = 2 ^ clog_asso p.
Proof. unfold clog_asso. destruct (wf_assoc p W) as [-> | ->]; reflexivity. Qed.

Lemma bw_idx : bw_lines p = idxw p + clog_asso p.
Proof. destruct geo as (a & b & Gc & G6 & Gb & Gt & Gn & Gi & Go & Gd & Gw & Gl & Gm). rewrite Gl, Gi; auto. Qed.

Lemma dtyw_off : dtyw p = 2 ^ (offw p - 2).
Proof.
  destruct geo as (a & b & Gc & G6 & Gb & Gt & Gn & Gi & Go & Gd & Gw & Gl & Gm). rewrite Gd, Go. f_equal; lia.
Qed.

Lemma wbenw_clw : wbenw p = p_clw p.
Proof. destruct geo as (a & b & Gc & G6 & Gb & Gt & Gn & Gi & Go & Gd & Gw & Gl & Gm). congruence. Qed.

Lemma offw_ge3 : 3 <= offw p.
Proof. destruct geo as (a & b & Gc & G6 & Gb & Gt & Gn & Gi & Go & Gd & Gw & Gl & Gm). lia. Qed.

Lemma clw_off : p_clw p = 8 * 2 ^ offw p.
Proof.
  destruct geo as (a & b & Gc & G6 & Gb & Gt & Gn & Gi & Go & Gd & Gw & Gl & Gm). rewrite Gc, Go.
  change 8 with (2 ^ 3). rewrite <- N.pow_add_r. f_equal; lia.
Qed.

Lemma clw_dty : p_clw p = 32 * dtyw p.
Proof.
  rewrite clw_off, dtyw_off. pose proof offw_ge3.
  replace (offw p) with (2 + (offw p - 2)) at 1 by lia. rewrite N.pow_add_r.
  change (2 ^ 2) with 4. lia.
Qed.

Lemma tagw_pos : 1 <= tagw p.
Proof. pose proof (wf_abw p W). unfold tagw. lia. Qed.

Lemma abw_sum : p_abw p = offw p + idxw p + tagw p.
Proof. pose proof (wf_abw p W). unfold tagw. lia. Qed.

(** *** Lines *)
Lemma lway_lt : forall k, lway p k < p_assoc p.
Proof.
  intros; unfold lway; apply N.mod_lt. destruct (wf_assoc p W) as [-> | ->]; lia.
Qed.

Lemma lidx_div : forall k, k < total_lines p -> lidx p k = k / p_assoc p.
Proof.
  intros. unfold lidx, slice. rewrite N.shiftr_div_pow2, <- assoc_pow.
  apply trunc_small. rewrite bw_idx. replace (idxw p + clog_asso p - clog_asso p) with (idxw p) by lia.
  rewrite <- nblocks_pow. apply N.div_lt_upper_bound.
  - destruct (wf_assoc p W) as [-> | ->]; lia.
  - rewrite total_eq in H. lia.
Qed.

Lemma lidx_lt : forall k, k < total_lines p -> lidx p k < nblocks p.
Proof.
  intros. rewrite lidx_div by auto. apply N.div_lt_upper_bound.
  - destruct (wf_assoc p W) as [-> | ->]; lia.
  - rewrite total_eq in H. lia.
Qed.

Definition lnum (w i : N) : N := i * p_assoc p + w.

Lemma lnum_lt : forall w i, w < p_assoc p -> i < nblocks p -> lnum w i < total_lines p.
Proof. intros. unfold lnum. rewrite total_eq. nia. Qed.

Lemma lway_lnum : forall w i, w < p_assoc p -> lway p (lnum w i) = w.
Proof.
  intros. unfold lway, lnum. rewrite N.add_comm, N.mod_add.
  - apply N.mod_small; auto.
  - lia.
Qed.

Lemma lidx_lnum : forall w i, w < p_assoc p -> i < nblocks p -> lidx p (lnum w i) = i.
Proof.
  intros. rewrite lidx_div by (apply lnum_lt; auto). unfold lnum.
  rewrite N.add_comm, N.div_add by lia. rewrite N.div_small by auto. lia.
Qed.

Lemma lnum_l : forall k, k < total_lines p -> lnum (lway p k) (lidx p k) = k.
Proof.
  intros. rewrite lidx_div by auto. unfold lnum, lway.
  rewrite (N.div_mod' k (p_assoc p)) at 3. lia.
Qed.

Lemma a_idx_lt : forall a, a_idx p a < nblocks p.
Proof.
  intros. unfold a_idx. eapply N.lt_le_trans; [apply slice_lt|].
  replace (offw p + idxw p - offw p) with (idxw p) by lia. rewrite nblocks_pow; lia.
Qed.

(** *** Rows of the data array *)
Lemma indexer_eq : forall i w, i < nblocks p -> w < p_assoc p ->
  indexer p i w = i + w * nblocks p.
Proof.
  intros. unfold indexer. rewrite <- (trunc_small (bw_lines p) (i + w * nblocks p)).
  - rewrite !trunc_mod. rewrite N.add_mod, N.mul_mod by (apply N.pow_nonzero; lia).
    rewrite N.mod_mod by (apply N.pow_nonzero; lia).
    rewrite <- N.mul_mod, <- N.add_mod by (apply N.pow_nonzero; lia). auto.
  - rewrite <- total_pow, total_eq. nia.
Qed.

Lemma indexer_lt : forall i w, indexer p i w < total_lines p.
Proof. intros; unfold indexer; rewrite total_pow; apply trunc_lt. Qed.

Lemma indexer_inj : forall i w i' w', i < nblocks p -> w < p_assoc p ->
  i' < nblocks p -> w' < p_assoc p ->
  indexer p i w = indexer p i' w' -> i = i' /\ w = w'.
Proof.
  intros. rewrite !indexer_eq in H3 by auto.
  assert (w = w').
  { destruct (wf_assoc p W) as [E | E]; rewrite E in *; nia. }
  subst. split; auto. lia.
Qed.

(** *** Addresses *)
Lemma a_tag_mk : forall t i o, t < 2 ^ tagw p -> i < 2 ^ idxw p -> a_tag p (mk_addr p t i o) = t.
Proof.
  intros. unfold a_tag, mk_addr. apply N.bits_inj; intro n.
  rewrite testbit_slice, !testbit_cat.
  replace (offw p + idxw p + tagw p - (offw p + idxw p)) with (tagw p) by lia.
  destruct (N.ltb_spec n (tagw p)).
  - destruct (N.ltb_spec (n + (offw p + idxw p)) (offw p)); try lia.
    destruct (N.ltb_spec (n + (offw p + idxw p) - offw p) (idxw p)); try lia.
    simpl. f_equal; lia.
  - simpl. symmetry. eapply testbit_high; eauto.
Qed.

Lemma a_idx_mk : forall t i o, i < 2 ^ idxw p -> a_idx p (mk_addr p t i o) = i.
Proof.
  intros. unfold a_idx, mk_addr. apply N.bits_inj; intro n.
  rewrite testbit_slice, !testbit_cat.
  replace (offw p + idxw p - offw p) with (idxw p) by lia.
  destruct (N.ltb_spec n (idxw p)).
  - destruct (N.ltb_spec (n + offw p) (offw p)); try lia.
    destruct (N.ltb_spec (n + offw p - offw p) (idxw p)); try lia.
    simpl. f_equal; lia.
  - simpl. symmetry. eapply testbit_high; eauto.
Qed.

Lemma a_off_mk : forall t i o, o < 2 ^ offw p -> a_off p (mk_addr p t i o) = o.
Proof.
  intros. unfold a_off, mk_addr. rewrite slice_cat_lo. apply trunc_small; auto.
Qed.

Lemma mk_addr_parts : forall a, a < 2 ^ p_abw p ->
  mk_addr p (a_tag p a) (a_idx p a) (a_off p a) = a.
Proof.
  intros. unfold mk_addr, a_tag, a_idx, a_off. apply N.bits_inj; intro n.
  rewrite !testbit_cat. rewrite !testbit_slice.
  destruct (N.ltb_spec n (offw p)).
  - destruct (N.ltb_spec n (offw p - 0)); try lia. simpl. f_equal; lia.
  - destruct (N.ltb_spec (n - offw p) (idxw p)).
    + destruct (N.ltb_spec (n - offw p) (offw p + idxw p - offw p)); try lia. simpl. f_equal; lia.
    + destruct (N.ltb_spec (n - offw p - idxw p) (offw p + idxw p + tagw p - (offw p + idxw p))).
      * simpl. f_equal; lia.
      * simpl. symmetry. eapply testbit_high; eauto. rewrite abw_sum. lia.
Qed.

Lemma a_tag_lt : forall a, a_tag p a < 2 ^ tagw p.
Proof.
  intros. unfold a_tag. eapply N.lt_le_trans; [apply slice_lt|].
  apply N.pow_le_mono_r; lia.
Qed.
Lemma a_off_lt : forall a, a_off p a < 2 ^ offw p.
Proof.
  intros. unfold a_off. eapply N.lt_le_trans; [apply slice_lt|].
  apply N.pow_le_mono_r; lia.
Qed.

(** *** Tag entries *)
Lemma te_tag_lt : forall e, te_tag p e < 2 ^ tagw p.
Proof.
  intros. unfold te_tag. eapply N.lt_le_trans; [apply slice_lt|].
  apply N.pow_le_mono_r; lia.
Qed.
Lemma te_dty_lt : forall e, te_dty p e < 2 ^ dtyw p.
Proof.
  intros. unfold te_dty. eapply N.lt_le_trans; [apply slice_lt|].
  apply N.pow_le_mono_r; lia.
Qed.

Lemma testbit_mk_te : forall v d t n,
  N.testbit (mk_te p v d t) n =
    if n <? tagw p then N.testbit t n
    else if n <? tagw p + dtyw p then N.testbit d (n - tagw p)
    else (n =? tagw p + dtyw p) && v.
Proof.
  intros. unfold mk_te. rewrite !testbit_cat.
  destruct (N.ltb_spec n (tagw p)); auto.
  destruct (N.ltb_spec (n - tagw p) (dtyw p)), (N.ltb_spec n (tagw p + dtyw p)); auto; try lia.
  destruct (N.eqb_spec n (tagw p + dtyw p)).
  - subst. replace (tagw p + dtyw p - tagw p - dtyw p) with 0 by lia. destruct v; auto.
  - simpl. apply testbit_high with (w := 1). destruct v; simpl; lia. lia.
Qed.

Lemma testbit_te_tag : forall e n, N.testbit (te_tag p e) n = (n <? tagw p) && N.testbit e n.
Proof. intros; unfold te_tag; rewrite testbit_slice, N.sub_0_r, N.add_0_r; auto. Qed.
Lemma testbit_te_dty : forall e n,
  N.testbit (te_dty p e) n = (n <? dtyw p) && N.testbit e (n + tagw p).
Proof. intros; unfold te_dty; rewrite testbit_slice. do 2 f_equal; lia. Qed.

Ltac te_bits := apply N.bits_inj; intro; repeat first
  [ rewrite testbit_te_tag | rewrite testbit_te_dty | rewrite testbit_mwrite
  | rewrite testbit_mk_te | rewrite testbit_ones | rewrite testbit_trunc | rewrite N.bits_0 ].
Ltac te_cases := repeat match goal with
  | |- context [?a <? ?b] => destruct (N.ltb_spec a b)
  | |- context [?a =? ?b] => destruct (N.eqb_spec a b)
  end; simpl; try lia; auto.

Lemma te_tag_mk : forall v d t, te_tag p (mk_te p v d t) = trunc (tagw p) t.
Proof. intros. te_bits. te_cases. Qed.
Lemma te_dty_mk : forall v d t, te_dty p (mk_te p v d t) = trunc (dtyw p) d.
Proof. intros. te_bits. te_cases. f_equal; lia. Qed.
Lemma te_val_mk : forall v d t, te_val p (mk_te p v d t) = v.
Proof. intros. unfold te_val. rewrite testbit_mk_te. te_cases. Qed.
Lemma te_dty_0 : te_dty p 0 = 0.
Proof. te_bits. rewrite andb_false_r; auto. Qed.

(** full-word write *)
Lemma te_val_all : forall o v d t, te_val p (mwrite o (mk_te p v d t) (ones_te p)) = v.
Proof.
  intros. unfold te_val, ones_te, tagarrw. rewrite testbit_mwrite, testbit_ones, testbit_mk_te.
  te_cases.
Qed.
Lemma te_dty_all : forall o v d t,
  te_dty p (mwrite o (mk_te p v d t) (ones_te p)) = trunc (dtyw p) d.
Proof.
  intros. unfold ones_te, tagarrw. te_bits. te_cases. f_equal; lia.
Qed.
Lemma te_tag_all : forall o v d t,
  te_tag p (mwrite o (mk_te p v d t) (ones_te p)) = trunc (tagw p) t.
Proof. intros. unfold ones_te, tagarrw. te_bits. te_cases. Qed.

(** valid-bit write *)
Lemma te_inv : forall e, te_val p (ent_inv p e) = false /\ te_dty p (ent_inv p e) = te_dty p e
                      /\ te_tag p (ent_inv p e) = te_tag p e.
Proof.
  intros. unfold ent_inv. split; [|split].
  - unfold te_val. rewrite testbit_mwrite, !testbit_mk_te. te_cases.
  - te_bits. te_cases.
  - te_bits. te_cases.
Qed.
(** dirty-bits write *)
Lemma te_clean : forall e, te_val p (ent_clean p e) = te_val p e /\ te_dty p (ent_clean p e) = 0
                      /\ te_tag p (ent_clean p e) = te_tag p e.
Proof.
  intros. unfold ent_clean. split; [|split].
  - unfold te_val. rewrite testbit_mwrite, !testbit_mk_te. te_cases.
  - te_bits. te_cases.
  - te_bits. te_cases.
Qed.

Lemma mwrite_val_any : forall o d t,
  mwrite o (mk_te p false d t) (mk_te p true 0 0) = ent_inv p o.
Proof. intros. unfold ent_inv. te_bits. te_cases. Qed.
Lemma mwrite_dty_any : forall o v t,
  mwrite o (mk_te p v 0 t) (mk_te p false (N.ones (dtyw p)) 0) = ent_clean p o.
Proof. intros. unfold ent_clean. te_bits. te_cases. Qed.
Lemma ent_clean_clean : forall e, te_dty p e = 0 -> ent_clean p e = e.
Proof.
  intros. unfold ent_clean. te_bits. te_cases.
  assert (Q : N.testbit (te_dty p e) (n - tagw p) = false) by (rewrite H; apply N.bits_0).
  rewrite testbit_te_dty in Q. revert Q. te_cases. intros <-. f_equal; lia.
Qed.
Lemma ent_inv_idem : forall e, ent_inv p (ent_inv p e) = ent_inv p e.
Proof. intros; apply mwrite_idem. Qed.
Lemma ent_clean_idem : forall e, ent_clean p (ent_clean p e) = ent_clean p e.
Proof. intros; apply mwrite_idem. Qed.
End P.
