(** The memory a program sees through the cache: memory overlaid with the dirty
    words.  Basic lemmas about addresses, bytes and lookups. *)
From Coq Require Import NArith List Bool Lia.
From Verif Require Import Bits Params Msg Units Mem Spec Tl ParamsProofs UnitProofs.
Import ListNotations.
Open Scope N_scope.

(** Byte [k] of a line. *)
Definition gb (L k : N) : N := slice L (8 * k) (8 * k + 8).

Lemma testbit_gb : forall L k i, N.testbit (gb L k) i = (i <? 8) && N.testbit L (8 * k + i).
Proof.
  intros. unfold gb. rewrite testbit_slice. replace (8 * k + 8 - 8 * k) with 8 by lia.
  f_equal. f_equal. lia.
Qed.
Lemma gb_lt : forall L k, gb L k < 256.
Proof.
  intros. unfold gb. pose proof (slice_lt L (8 * k) (8 * k + 8)) as H.
  replace (8 * k + 8 - 8 * k) with 8 in H by lia. exact H.
Qed.
Lemma trunc_gb : forall L k, trunc 8 (gb L k) = gb L k.
Proof. intros. apply trunc_small. apply gb_lt. Qed.
Lemma gb_ext : forall L L' k, (forall i, i < 8 -> N.testbit L (8 * k + i) = N.testbit L' (8 * k + i)) ->
  gb L k = gb L' k.
Proof.
  intros. apply N.bits_inj; intro i. rewrite !testbit_gb. destruct (N.ltb_spec i 8); cbn [andb]; auto.
Qed.

(** *** Memory *)
Lemma testbit_rd : forall n m a i, N.testbit (rd_bytes m a n) i =
  (i <? 8 * N.of_nat n) && N.testbit (m (a + i / 8)) (i mod 8).
Proof.
  induction n; intros m a i; cbn [rd_bytes].
  - rewrite N.bits_0. destruct (N.ltb_spec i (8 * N.of_nat 0)); auto. lia.
  - assert (C : trunc 8 (m a) + 256 * rd_bytes m (a + 1) n = cat (rd_bytes m (a + 1) n) 8 (m a)).
    { unfold cat. change 256 with (2 ^ 8). rewrite N.shiftl_mul_pow2, (N.mul_comm (2 ^ 8)).
      rewrite N.add_comm. symmetry. rewrite <- N.lxor_lor.
      - rewrite <- N.add_nocarry_lxor; auto.
        apply N.bits_inj; intro b. rewrite N.land_spec, testbit_trunc, N.bits_0, <- N.shiftl_mul_pow2.
        destruct (N.ltb_spec b 8); [rewrite N.shiftl_spec_low; auto|rewrite andb_false_r; auto].
      - apply N.bits_inj; intro b. rewrite N.land_spec, testbit_trunc, N.bits_0, <- N.shiftl_mul_pow2.
        destruct (N.ltb_spec b 8); [rewrite N.shiftl_spec_low; auto|rewrite andb_false_r; auto]. }
    rewrite C, testbit_cat, IHn.
    destruct (N.ltb_spec i 8) as [L|L].
    + rewrite N.div_small, N.mod_small, N.add_0_r by auto.
      destruct (N.ltb_spec i (8 * N.of_nat (S n))); auto. lia.
    + assert (E : i = (i - 8) + 1 * 8) by lia.
      assert (Q : i / 8 = (i - 8) / 8 + 1) by (rewrite E at 1; rewrite N.div_add; lia).
      assert (R : i mod 8 = (i - 8) mod 8) by (rewrite E at 1; rewrite N.mod_add; lia).
      rewrite Q, R. replace (a + ((i - 8) / 8 + 1)) with (a + 1 + (i - 8) / 8) by lia.
      f_equal. destruct (N.ltb_spec (i - 8) (8 * N.of_nat n)), (N.ltb_spec i (8 * N.of_nat (S n))); auto; lia.
Qed.

Lemma gb_rd : forall n m a k, k < N.of_nat n -> gb (rd_bytes m a n) k = trunc 8 (m (a + k)).
Proof.
  intros. apply N.bits_inj; intro i. rewrite testbit_gb, testbit_rd, testbit_trunc.
  destruct (N.ltb_spec i 8); cbn [andb]; auto.
  destruct (N.ltb_spec (8 * k + i) (8 * N.of_nat n)); try lia. cbn [andb].
  replace ((8 * k + i) / 8) with k by (apply N.div_unique with i; lia).
  replace ((8 * k + i) mod 8) with i by (apply N.mod_unique with k; lia). auto.
Qed.

(** two ways of reading the same bytes *)
Lemma rd_slice : forall n m a L o, (forall k, k < N.of_nat n -> trunc 8 (m (a + k)) = gb L (o + k)) ->
  rd_bytes m a n = slice L (8 * o) (8 * o + 8 * N.of_nat n).
Proof.
  intros n m a L o H. apply N.bits_inj; intro i. rewrite testbit_rd, testbit_slice.
  replace (8 * o + 8 * N.of_nat n - 8 * o) with (8 * N.of_nat n) by lia.
  destruct (N.ltb_spec i (8 * N.of_nat n)) as [L1|L1]; auto. cbn [andb].
  pose proof (N.div_mod' i 8) as DM. pose proof (N.mod_lt i 8 ltac:(lia)) as ML.
  set (q := i / 8) in *. set (e := i mod 8) in *. clearbody q e.
  assert (K : q < N.of_nat n) by lia.
  specialize (H _ K). apply (f_equal (fun z => N.testbit z e)) in H.
  rewrite testbit_trunc, testbit_gb in H. rewrite (proj2 (N.ltb_lt _ _) ML) in H. cbn [andb] in H.
  rewrite H. f_equal. lia.
Qed.
Lemma rd_ext : forall n m m' a, (forall k, k < N.of_nat n -> trunc 8 (m (a + k)) = trunc 8 (m' (a + k))) ->
  rd_bytes m a n = rd_bytes m' a n.
Proof.
  induction n; intros m m' a H; auto. cbn [rd_bytes]. f_equal.
  - specialize (H 0 ltac:(lia)). rewrite N.add_0_r in H. auto.
  - f_equal. apply IHn. intros k K. replace (a + 1 + k) with (a + (k + 1)) by lia. apply H. lia.
Qed.

Lemma wr_masked_spec : forall m a mask d nw x,
  wr_masked m a mask d nw x =
  if (a <=? x) && (x <? a + 4 * nw) && N.testbit mask ((x - a) / 4) then gb d (x - a) else m x.
Proof.
  intros m a mask d nw x. unfold wr_masked, range.
  replace nw with (N.of_nat (N.to_nat nw)) at 2 by apply N2Nat.id.
  induction (N.to_nat nw) as [|n IH] using nat_ind.
  - cbn. destruct (N.leb_spec a x), (N.ltb_spec x (a + 0)); cbn; auto; lia.
  - rewrite seq_S, map_app, fold_left_app. cbn [map fold_left plus].
    destruct (N.testbit mask (N.of_nat n)) eqn:B.
    + unfold wr_bytes at 1. rewrite IH. change (N.of_nat 4) with 4.
      destruct (N.leb_spec (a + 4 * N.of_nat n) x) as [L1|L1]; cbn [andb].
      * destruct (N.ltb_spec x (a + 4 * N.of_nat n + 4)) as [L2|L2].
        -- assert (Q : (x - a) / 4 = N.of_nat n) by (symmetry; apply N.div_unique with (x - a - 4 * N.of_nat n); lia).
           rewrite Q, B.
           destruct (N.leb_spec a x); try lia. destruct (N.ltb_spec x (a + 4 * N.of_nat (S n))); try lia.
           cbn [andb]. apply N.bits_inj; intro i. rewrite testbit_gb, testbit_slice, testbit_slice.
           replace (8 * (x - (a + 4 * N.of_nat n)) + 8 - 8 * (x - (a + 4 * N.of_nat n))) with 8 by lia.
           destruct (N.ltb_spec i 8); auto. cbn [andb].
           destruct (N.ltb_spec (i + 8 * (x - (a + 4 * N.of_nat n))) (32 * (N.of_nat n + 1) - 32 * N.of_nat n)); try lia.
           cbn [andb]. f_equal. lia.
        -- destruct (N.leb_spec a x); try lia.
           destruct (N.ltb_spec x (a + 4 * N.of_nat n)); try lia.
           destruct (N.ltb_spec x (a + 4 * N.of_nat (S n))); try lia; auto.
      * destruct (N.leb_spec a x); cbn [andb]; auto.
        destruct (N.ltb_spec x (a + 4 * N.of_nat n)); try lia.
        destruct (N.ltb_spec x (a + 4 * N.of_nat (S n))); try lia; auto.
    + rewrite IH. destruct (N.leb_spec a x); cbn [andb]; auto.
      destruct (N.ltb_spec x (a + 4 * N.of_nat n)), (N.ltb_spec x (a + 4 * N.of_nat (S n))); cbn [andb]; auto; try lia.
      assert (Q : (x - a) / 4 = N.of_nat n) by (symmetry; apply N.div_unique with (x - a - 4 * N.of_nat n); lia).
      rewrite Q, B. auto.
Qed.

Section V.
Variable p : params.
Hypothesis W : wf_params p.

(** *** Addresses *)
Lemma a_off_mod : forall a, a_off p a = a mod 2 ^ offw p.
Proof. intros. unfold a_off, slice. rewrite N.shiftr_0_r, N.sub_0_r. apply trunc_mod. Qed.

Lemma mk_addr_eq : forall t i o, o < 2 ^ offw p -> i < 2 ^ idxw p ->
  mk_addr p t i o = mk_addr p t i 0 + o.
Proof.
  intros t i o O I. unfold mk_addr, cat. rewrite (trunc_small (offw p) o) by auto.
  change (trunc (offw p) 0) with 0. rewrite N.lor_0_r.
  set (z := N.lor (N.shiftl t (idxw p)) (trunc (idxw p) i)). clearbody z.
  rewrite N.shiftl_mul_pow2. rewrite N.add_nocarry_lxor.
  - symmetry. apply N.lxor_lor. apply N.bits_inj; intro b. rewrite N.land_spec, N.bits_0, <- N.shiftl_mul_pow2.
    destruct (N.ltb_spec b (offw p)); [rewrite N.shiftl_spec_low; auto|].
    rewrite (testbit_high (offw p) o) by auto. apply andb_false_r.
  - apply N.bits_inj; intro b. rewrite N.land_spec, N.bits_0, <- N.shiftl_mul_pow2.
    destruct (N.ltb_spec b (offw p)); [rewrite N.shiftl_spec_low; auto|].
    rewrite (testbit_high (offw p) o) by auto. apply andb_false_r.
Qed.

Lemma idx_pow : forall i, i < nblocks p <-> i < 2 ^ idxw p.
Proof. intros. rewrite (nblocks_pow p W). tauto. Qed.

(** an address is its line base plus its offset *)
Lemma addr_split : forall a, a < 2 ^ p_abw p -> a = mk_addr p (a_tag p a) (a_idx p a) 0 + a_off p a.
Proof.
  intros. rewrite <- mk_addr_eq; [symmetry; apply mk_addr_parts; auto | apply a_off_lt; auto |].
  apply idx_pow. apply a_idx_lt; auto.
Qed.

Lemma mk_addr_lt : forall t i o, t < 2 ^ tagw p -> mk_addr p t i o < 2 ^ p_abw p.
Proof.
  intros. apply lt_pow2_bits. intros b Hb. rewrite (abw_sum p W) in Hb.
  unfold mk_addr. rewrite !testbit_cat.
  destruct (N.ltb_spec b (offw p)); try lia. destruct (N.ltb_spec (b - offw p) (idxw p)); try lia.
  apply (testbit_high (tagw p)); auto. lia.
Qed.

Lemma base_off0 : forall t i, a_off p (mk_addr p t i 0) = 0.
Proof. intros. apply a_off_mk; auto. apply pow2_pos. Qed.

(** offsets inside the line of [a] *)
Lemma addr_add : forall a k, a < 2 ^ p_abw p -> a_off p a + k < 2 ^ offw p ->
  a + k < 2 ^ p_abw p /\ a_tag p (a + k) = a_tag p a /\ a_idx p (a + k) = a_idx p a /\ a_off p (a + k) = a_off p a + k.
Proof.
  intros a k A O. pose proof (a_idx_lt p W a) as I. apply idx_pow in I.
  assert (E : a + k = mk_addr p (a_tag p a) (a_idx p a) (a_off p a + k)).
  { rewrite mk_addr_eq by auto. rewrite (addr_split a A) at 1. lia. }
  rewrite E. repeat split.
  - apply mk_addr_lt. apply a_tag_lt; auto.
  - apply a_tag_mk; auto. apply a_tag_lt; auto.
  - apply a_idx_mk; auto.
  - apply a_off_mk; auto.
Qed.

Lemma in_line : forall t i x, t < 2 ^ tagw p -> i < nblocks p -> x < 2 ^ p_abw p ->
  ((mk_addr p t i 0 <=? x) && (x <? mk_addr p t i 0 + 2 ^ offw p) = true <-> a_tag p x = t /\ a_idx p x = i).
Proof.
  intros t i x T I X. apply idx_pow in I.
  assert (T' : mk_addr p t i 0 < 2 ^ p_abw p) by (apply mk_addr_lt; auto).
  split.
  - intros H. apply andb_prop in H. destruct H as [H1 H2]. apply N.leb_le in H1. apply N.ltb_lt in H2.
    destruct (addr_add (mk_addr p t i 0) (x - mk_addr p t i 0) T') as (_ & A1 & A2 & _).
    { rewrite base_off0. lia. }
    replace (mk_addr p t i 0 + (x - mk_addr p t i 0)) with x in A1, A2 by lia.
    rewrite A1, A2, a_tag_mk, a_idx_mk; auto.
  - intros [<- <-]. pose proof (addr_split x X) as E.
    pose proof (a_off_lt p x). apply andb_true_intro. split; [apply N.leb_le | apply N.ltb_lt]; lia.
Qed.

Lemma line_off : forall t i x, t < 2 ^ tagw p -> i < nblocks p -> x < 2 ^ p_abw p ->
  a_tag p x = t -> a_idx p x = i -> x - mk_addr p t i 0 = a_off p x.
Proof. intros t i x T I X <- <-. pose proof (addr_split x X). lia. Qed.

Lemma word_of_div : forall o, o < 2 ^ offw p -> word_of p o = o / 4.
Proof.
  intros. unfold word_of, slice. rewrite N.shiftr_div_pow2. change (2 ^ 2) with 4.
  apply trunc_small. pose proof (offw_ge3 p W).
  apply N.div_lt_upper_bound; [lia|]. change 4 with (2 ^ 2). rewrite <- N.pow_add_r.
  replace (2 + (offw p - 2)) with (offw p) by lia. auto.
Qed.

Lemma off_words : 2 ^ offw p = 4 * dtyw p.
Proof.
  rewrite (dtyw_off p W). pose proof (offw_ge3 p W). change 4 with (2 ^ 2).
  rewrite <- N.pow_add_r. f_equal. lia.
Qed.
Lemma clw_bytes : p_clw p / 8 = 2 ^ offw p.
Proof. rewrite (clw_off p W), N.mul_comm, N.div_mul; lia. Qed.
Lemma clw_words : p_clw p / 32 = dtyw p.
Proof. reflexivity. Qed.

(** *** Lines of a cache state *)
Definition lval (c : cst) (w i : N) : bool := te_val p (ct c w i).
Definition ldty (c : cst) (w i k : N) : bool := N.testbit (te_dty p (ct c w i)) k.
Definition ltag (c : cst) (w i : N) : N := te_tag p (ct c w i).
Definition lbyte (c : cst) (w i o : N) : N := gb (cd c (indexer p i w)) o.
Definition present (c : cst) (w i : N) : bool := lval c w i || negb (te_dty p (ct c w i) =? 0).

Definition dirty_at (c : cst) (w a : N) : bool :=
  (ltag c w (a_idx p a) =? a_tag p a) && ldty c w (a_idx p a) (a_off p a / 4).

(** what a program reads at [a] *)
Definition view (c : cst) (m : mem) : mem := fun a =>
  match find (fun w => dirty_at c w a) (range (p_assoc p)) with
  | Some w => lbyte c w (a_idx p a) (a_off p a)
  | None => trunc 8 (m a)
  end.

Record cinv (c : cst) (m : mem) : Prop := mkCinv {
  ci_uniq : forall w w' i, w < p_assoc p -> w' < p_assoc p -> i < nblocks p ->
    present c w i = true -> present c w' i = true -> ltag c w i = ltag c w' i -> w = w';
  ci_coh : forall w i o, w < p_assoc p -> i < nblocks p -> o < 2 ^ offw p ->
    lval c w i = true -> ldty c w i (o / 4) = false ->
    lbyte c w i o = trunc 8 (m (mk_addr p (ltag c w i) i o));
  ci_rep : forall i, i < nblocks p -> cr c i < p_assoc p
}.

Lemma ldty_present : forall c w i k, ldty c w i k = true -> present c w i = true.
Proof.
  intros c w i k H. unfold present. destruct (N.eqb_spec (te_dty p (ct c w i)) 0) as [E|E].
  - unfold ldty in H. rewrite E, N.bits_0 in H. discriminate.
  - apply orb_true_r.
Qed.
Lemma lval_present : forall c w i, lval c w i = true -> present c w i = true.
Proof. intros c w i H. unfold present. rewrite H. auto. Qed.

Lemma dirty_at_inv : forall c w a, dirty_at c w a = true ->
  ltag c w (a_idx p a) = a_tag p a /\ ldty c w (a_idx p a) (a_off p a / 4) = true.
Proof. intros c w a H. apply andb_prop in H. destruct H as [H1 H2]. apply N.eqb_eq in H1. auto. Qed.

Definition uniq (c : cst) : Prop := forall w w' i, w < p_assoc p -> w' < p_assoc p -> i < nblocks p ->
    present c w i = true -> present c w' i = true -> ltag c w i = ltag c w' i -> w = w'.

Lemma view_dirty : forall c m w a, uniq c -> w < p_assoc p -> dirty_at c w a = true ->
  view c m a = lbyte c w (a_idx p a) (a_off p a).
Proof.
  intros c m w a U Hw D. unfold view.
  destruct (find (fun w0 => dirty_at c w0 a) (range (p_assoc p))) as [w'|] eqn:F.
  - apply find_some in F. destruct F as [F1 F2]. apply in_range in F1.
    apply dirty_at_inv in D, F2. destruct D as [D1 D2], F2 as [F2 F3].
    assert (w = w') by (apply (U w w' (a_idx p a)); eauto using ldty_present, a_idx_lt; congruence). subst; auto.
  - exfalso. apply find_none with (x := w) in F; [congruence|]. apply in_range; auto.
Qed.
Lemma view_clean : forall c m a, (forall w, w < p_assoc p -> dirty_at c w a = false) ->
  view c m a = trunc 8 (m a).
Proof.
  intros c m a D. unfold view.
  destruct (find (fun w0 => dirty_at c w0 a) (range (p_assoc p))) as [w'|] eqn:F; auto.
  apply find_some in F. destruct F as [F1 F2]. apply in_range in F1. rewrite D in F2 by auto. discriminate.
Qed.
Lemma view_cases : forall c m a, uniq c ->
  (exists w, w < p_assoc p /\ dirty_at c w a = true /\ view c m a = lbyte c w (a_idx p a) (a_off p a)) \/
  ((forall w, w < p_assoc p -> dirty_at c w a = false) /\ view c m a = trunc 8 (m a)).
Proof.
  intros c m a U.
  destruct (find (fun w0 => dirty_at c w0 a) (range (p_assoc p))) as [w'|] eqn:F.
  - apply find_some in F. destruct F as [F1 F2]. apply in_range in F1. left. exists w'. eauto using view_dirty.
  - right. assert (D : forall w, w < p_assoc p -> dirty_at c w a = false).
    { intros w Hw. apply find_none with (x := w) in F; auto. apply in_range; auto. }
    split; auto. apply view_clean; auto.
Qed.
Lemma view_lt : forall c m a, view c m a < 256.
Proof.
  intros. unfold view. destruct (find _ _); [apply gb_lt | apply trunc_lt].
Qed.

(** *** Lookup *)
Inductive look (c : cst) (i t : N) : bool -> bool -> N -> Prop :=
| Lk_hit : forall w, w < p_assoc p -> lval c w i = true -> ltag c w i = t -> look c i t true false w
| Lk_inv : forall w, w < p_assoc p -> lval c w i = false -> te_dty p (ct c w i) <> 0 -> ltag c w i = t ->
    look c i t false true w
| Lk_none : (forall w, w < p_assoc p -> present c w i = true -> ltag c w i <> t) -> look c i t false false 0.

Lemma look_spec : forall c r, uniq c ->
  look c (a_idx p (cq_addr r)) (a_tag p (cq_addr r)) (tl_hit p c r) (tl_inval p c r) (tl_hw p c r).
Proof.
  intros c r U. unfold tl_hit, tl_inval, tl_hw, tl_pu, tl_ent.
  pose proof (a_idx_lt p W (cq_addr r)) as I.
  set (i := a_idx p (cq_addr r)) in *. set (t := a_tag p (cq_addr r)) in *. clearbody i t.
  unfold pu_compare. cbn [negb andb].
  assert (PR : forall w, present c w i = te_val p (ct c w i) || line_dirty p true (ct c w i)) by reflexivity.
  assert (DN : forall w, line_dirty p true (ct c w i) = true -> te_dty p (ct c w i) <> 0).
  { intros w H E. unfold line_dirty in H. rewrite E in H. discriminate. }
  destruct (wf_assoc p W) as [A | A]; rewrite A.
  - change (range 1) with [0]. cbn [fold_left]. unfold pu_way.
    destruct (te_val p (ct c 0 i)) eqn:V0; destruct (N.eqb_spec (te_tag p (ct c 0 i)) t) as [T0|T0];
      destruct (line_dirty p true (ct c 0 i)) eqn:D0; cbn [fst snd andb negb];
    first [ apply Lk_hit; auto; lia
          | apply Lk_inv; auto; lia
          | apply Lk_none; intros w Hw; replace w with 0 by lia; rewrite PR, V0, D0; auto; discriminate ].
  - change (range 2) with [0; 1]. cbn [fold_left]. unfold pu_way.
    assert (U01 : present c 0 i = true -> present c 1 i = true -> ltag c 0 i = ltag c 1 i -> False).
    { intros. assert (0 = 1) by (apply (U 0 1 i); auto; lia). discriminate. }
    rewrite !PR in U01. unfold ltag in U01.
    destruct (te_val p (ct c 0 i)) eqn:V0; destruct (N.eqb_spec (te_tag p (ct c 0 i)) t) as [T0|T0];
      destruct (line_dirty p true (ct c 0 i)) eqn:D0;
    destruct (te_val p (ct c 1 i)) eqn:V1; destruct (N.eqb_spec (te_tag p (ct c 1 i)) t) as [T1|T1];
      destruct (line_dirty p true (ct c 1 i)) eqn:D1; cbn [fst snd andb negb];
    first [ exfalso; apply U01; auto; congruence
          | apply Lk_hit; auto; lia
          | apply Lk_inv; auto; lia
          | apply Lk_none; intros w Hw; assert (W01 : w = 0 \/ w = 1) by lia; destruct W01 as [-> | ->];
            rewrite PR, ?V0, ?D0, ?V1, ?D1; auto; discriminate ].
Qed.

End V.
