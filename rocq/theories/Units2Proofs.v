(** Proofs about the units of Units2.v. *)
From Coq Require Import NArith ZArith List Bool Lia.
From Verif Require Import Bits Params Msg Units Units2 ParamsProofs Mem Spec UnitProofs.
Import ListNotations.
Open Scope N_scope.

(** ** packing *)
Lemma testbit_pack_hi : forall fs i, Forall (fun f => snd f < 2 ^ fst f) fs ->
  wsum (map fst fs) <= i -> N.testbit (pack fs) i = false.
Proof.
  induction fs as [|(w, v) fs IH]; intros i F Hi; [apply N.bits_0|].
  inversion F; subst. cbn [pack map fst wsum fold_right snd] in *. fold (wsum (map fst fs)) in *.
  rewrite testbit_cat. destruct (N.ltb_spec i (wsum (map fst fs))); [lia|].
  apply testbit_high with w; [assumption | lia].
Qed.

Lemma unpack_cat : forall ws h l, unpack ws (cat h (wsum ws) l) = unpack ws l.
Proof.
  assert (G : forall ws W h l, wsum ws <= W -> unpack ws (cat h W l) = unpack ws l).
  { induction ws as [|w ws IH]; intros W h l HW; [reflexivity|].
    cbn [unpack wsum fold_right] in *. fold (wsum ws) in *. f_equal.
    - apply N.bits_inj; intro i. rewrite !testbit_slice, testbit_cat.
      replace (wsum ws + w - wsum ws) with w by lia.
      destruct (N.ltb_spec i w); [|reflexivity].
      destruct (N.ltb_spec (i + wsum ws) W); [reflexivity | lia].
    - apply IH. lia. }
  intros. apply G. lia.
Qed.

Lemma unpack_pack : forall fs, Forall (fun f => snd f < 2 ^ fst f) fs ->
  unpack (map fst fs) (pack fs) = map snd fs.
Proof.
  induction fs as [|(w, v) fs IH]; intro F; [reflexivity|].
  inversion F; subst. cbn [map fst snd unpack pack] in *. f_equal.
  - apply slice_cat_hi. assumption.
  - rewrite unpack_cat. apply IH. assumption.
Qed.

Lemma unpack_lt : forall ws x, Forall2 (fun w v => v < 2 ^ w) ws (unpack ws x).
Proof.
  induction ws; intros; cbn [unpack]; constructor; auto.
  replace (2 ^ a) with (2 ^ (wsum ws + a - wsum ws)) by (f_equal; lia). apply slice_lt.
Qed.
Lemma unpack_len : forall ws x, length (unpack ws x) = length ws.
Proof. induction ws; intros; cbn; auto. Qed.

Lemma map_fst_combine : forall (A B : Type) (l : list A) (l' : list B), length l = length l' -> map fst (combine l l') = l.
Proof. induction l; destruct l'; cbn; intros; auto; try discriminate. f_equal; auto. Qed.
Lemma map_snd_combine : forall (A B : Type) (l : list A) (l' : list B), length l = length l' -> map snd (combine l l') = l'.
Proof. induction l; destruct l'; cbn; intros; auto; try discriminate. f_equal; auto. Qed.

Lemma pack_unpack : forall ws x, x < 2 ^ wsum ws -> pack (combine ws (unpack ws x)) = x.
Proof.
  assert (G : forall ws x, pack (combine ws (unpack ws x)) = trunc (wsum ws) x).
  { induction ws as [|w ws IH]; intros x; cbn [combine unpack pack].
    - cbn. unfold trunc. rewrite N.land_0_r. reflexivity.
    - rewrite map_fst_combine by (rewrite unpack_len; reflexivity). rewrite IH.
      apply N.bits_inj; intro i. rewrite testbit_cat, !testbit_trunc, testbit_slice.
      cbn [wsum fold_right]. fold (wsum ws).
      destruct (N.ltb_spec i (wsum ws)).
      + destruct (N.ltb_spec i (w + wsum ws)); [reflexivity | lia].
      + replace (wsum ws + w - wsum ws) with w by lia. replace (i - wsum ws + wsum ws) with i by lia.
        destruct (N.ltb_spec (i - wsum ws) w), (N.ltb_spec i (w + wsum ws)); try reflexivity; lia. }
  intros. rewrite G. apply trunc_small. assumption.
Qed.

Lemma pack_lt : forall fs, Forall (fun f => snd f < 2 ^ fst f) fs -> pack fs < 2 ^ wsum (map fst fs).
Proof. intros. apply lt_pow2_bits. intros. apply testbit_pack_hi; assumption. Qed.

(** ** chained mux *)
Section M.
Variable p : params.
Hypothesis W : wf_params p.

Lemma chain_nm : chain_nmuxes p = offw p.
Proof. reflexivity. Qed.

Lemma sub_input_bit : forall bw x sel b,
  N.testbit (sub_input bw x sel) b = (b <? bw) && N.testbit x (b + (if sel then bw else 0)).
Proof.
  intros. unfold sub_input. destruct sel; rewrite testbit_slice.
  - replace (bw + bw - bw) with bw by lia. reflexivity.
  - rewrite N.sub_0_r, N.add_0_r. reflexivity.
Qed.

(** the bits of the offset from [i] up *)
Definition hi_off (off i : N) : N := off / 2 ^ i * 2 ^ i.

Lemma hi_off_succ : forall off i,
  hi_off off i = hi_off off (i + 1) + (if N.testbit off i then 2 ^ i else 0).
Proof.
  intros. unfold hi_off.
  assert (P : 2 ^ (i + 1) = 2 * 2 ^ i) by (rewrite N.add_1_r, N.pow_succ_r'; reflexivity).
  rewrite P.
  assert (Z : 2 ^ i <> 0) by (apply N.pow_nonzero; lia).
  replace (off / (2 * 2 ^ i)) with (off / 2 ^ i / 2) by (rewrite N.div_div, (N.mul_comm (2 ^ i) 2) by lia; reflexivity).
  rewrite N.testbit_eqb.
  set (q := off / 2 ^ i). pose proof (N.div_mod q 2 ltac:(lia)) as D. pose proof (N.mod_lt q 2 ltac:(lia)) as L.
  set (h := q / 2) in *. set (l := q mod 2) in *. set (z := 2 ^ i) in *. clearbody h l z.
  destruct (N.eqb_spec l 1); rewrite D; [subst l; nia | assert (l = 0) by lia; subst l; nia].
Qed.

Lemma chain_out_bit : forall k off x b, off < 2 ^ offw p -> N.of_nat k < offw p ->
  let i := offw p - 1 - N.of_nat k in
  N.testbit (chain_out p true off x k) b = (b <? 2 ^ (3 + i)) && N.testbit x (b + 8 * hi_off off i).
Proof.
  induction k as [|k IH]; intros off x b Ho Hk i; cbn [chain_out]; rewrite chain_nm.
  - rewrite sub_input_bit, andb_true_l.
    replace (offw p - 1) with i by (subst i; lia).
    assert (E : hi_off off (i + 1) = 0).
    { unfold hi_off. replace (i + 1) with (offw p) by (subst i; lia). rewrite (N.div_small off) by assumption. reflexivity. }
    rewrite (hi_off_succ off i), E, N.add_0_l, N.pow_add_r. change (2 ^ 3) with 8.
    destruct (b <? 8 * 2 ^ i); [|reflexivity]. cbn [andb].
    destruct (N.testbit off i); f_equal; lia.
  - replace (offw p - 1 - N.of_nat (S k)) with i by (subst i; lia).
    rewrite sub_input_bit, andb_true_l, IH by lia.
    replace (offw p - 1 - N.of_nat k) with (i + 1) by (subst i; lia).
    rewrite (hi_off_succ off i). rewrite !N.pow_add_r. change (2 ^ 3) with 8. change (2 ^ 1) with 2.
    set (h := hi_off off (i + 1)). set (z := 2 ^ i). clearbody h z.
    destruct (N.ltb_spec b (8 * z)); [|reflexivity].
    destruct (N.testbit off i).
    + destruct (N.ltb_spec (b + 8 * z) (8 * (z * 2))); [|lia]. cbn [andb]. f_equal. lia.
    + destruct (N.ltb_spec (b + 0) (8 * (z * 2))); [|lia]. cbn [andb]. f_equal. lia.
Qed.

Lemma fast_sub_bit : forall i off x b, i <= offw p -> off < 2 ^ offw p ->
  N.testbit (fast_sub p (2 ^ (3 + i)) x off) b = (b <? 2 ^ (3 + i)) && N.testbit x (b + 8 * hi_off off i).
Proof.
  intros. unfold fast_sub. rewrite testbit_slice, clog2_pow2.
  replace (3 + i - 3) with i by lia.
  assert (E : slice off i (offw p) = off / 2 ^ i).
  { unfold slice. rewrite N.shiftr_div_pow2. apply trunc_small.
    apply N.div_lt_upper_bound; [apply N.pow_nonzero; lia|]. rewrite <- N.pow_add_r.
    replace (i + (offw p - i)) with (offw p) by lia. assumption. }
  rewrite E. match goal with |- (b <? ?u) && _ = _ => replace u with (2 ^ (3 + i)) by lia end.
  f_equal. f_equal. unfold hi_off. rewrite N.pow_add_r. change (2 ^ 3) with 8. lia.
Qed.

Lemma dsel_fold : forall len k, fold_left (fun sel i => if len =? 2 ^ i then i + 2 else sel) (range k) 0 <= k + 1.
Proof.
  intros len k.
  assert (G : forall l a, (forall i, In i l -> i < k) -> a <= k + 1 ->
    fold_left (fun sel i => if len =? 2 ^ i then i + 2 else sel) l a <= k + 1).
  { induction l as [|i l IH]; intros a Hl Ha; [assumption|]. cbn [fold_left]. apply IH.
    - intros; apply Hl; right; assumption.
    - specialize (Hl i (or_introl eq_refl)). destruct (len =? 2 ^ i); lia. }
  apply G; [|lia]. intros i Hi. apply in_range in Hi. assumption.
Qed.

Lemma dbw_pow : exists k, p_dbw p = 2 ^ k /\ 5 <= k <= 7 /\ k <= offw p + 3.
Proof.
  pose proof (clw_off p W) as C. pose proof (wf_dc p W) as D. pose proof (wf_dbw p W) as K.
  assert (P : 8 * 2 ^ offw p = 2 ^ (offw p + 3)) by (rewrite N.pow_add_r; change (2 ^ 3) with 8; lia).
  rewrite C, P in D.
  destruct K as [K | [K | K]]; [exists 5 | exists 6 | exists 7]; rewrite K in *;
    (split; [reflexivity|split; [lia|]]); apply (N.pow_le_mono_r_iff 2); try lia; exact D.
Qed.

(** Without an AMO the two muxes agree, whatever the offset. *)
Lemma chain_fast : forall en len off x, off < 2 ^ offw p ->
  chain_select p en false len off x = fast_select p en false len off x.
Proof.
  intros en len off x Ho. unfold chain_select, fast_select.
  set (sel := dsel_sel p en false len).
  destruct (N.eqb_spec sel 0) as [E0|E0]; [reflexivity|].
  destruct dbw_pow as (k & Hk & Hr & Hc).
  assert (Hn : dsel_ninputs p = k) by (unfold dsel_ninputs; rewrite Hk; apply clog2_pow2).
  assert (En : en = true).
  { destruct en; [reflexivity|]. exfalso. apply E0. reflexivity. }
  assert (Hs : 1 < sel < k).
  { subst sel. unfold dsel_sel in *. rewrite En in *. cbn [negb] in *. rewrite Hn in *.
    destruct (len =? 0); [lia|]. split; [|pose proof (dsel_fold len (k - 3)); lia].
    clear -E0. set (l := range (k - 3)) in *. clearbody l.
    assert (G : forall l a, a = 0 \/ 1 < a -> let r := fold_left (fun sel i => if len =? 2 ^ i then i + 2 else sel) l a in r = 0 \/ 1 < r).
    { induction l0; intros; cbn; auto. apply IHl0. destruct (len =? 2 ^ a); lia. }
    destruct (G l 0 (or_introl eq_refl)); [congruence | assumption]. }
  destruct (N.eqb_spec sel 1); [lia|].
  rewrite chain_nm. unfold fast_nmuxes. rewrite Hk, clog2_pow2.
  assert (Cl : p_clw p = 2 ^ (offw p + 3)) by (rewrite (clw_off p W), N.pow_add_r; change (2 ^ 3) with 8; lia).
  rewrite Cl.
  assert (Body : sel - 2 < offw p -> trunc (2 ^ k) (chain_sub p en off x (sel - 2)) = trunc (2 ^ k) (fast_sub p (2 ^ (3 + (sel - 2))) x off)).
  { intro B. f_equal. apply N.bits_inj; intro b. rewrite fast_sub_bit by lia. rewrite En. unfold chain_sub. rewrite chain_nm.
    rewrite chain_out_bit by (try assumption; rewrite N2Nat.id; lia).
    rewrite N2Nat.id. replace (offw p - 1 - (offw p - 1 - (sel - 2))) with (sel - 2) by lia. reflexivity. }
  destruct (N.ltb_spec (2 ^ k) (2 ^ (offw p + 3))) as [L|L].
  - apply N.pow_lt_mono_r_iff in L; [|lia].
    destruct (N.ltb_spec (sel - 2) (offw p)); [|lia]. destruct (N.ltb_spec (sel - 2) (k - 2)); [|lia]. apply Body. assumption.
  - apply N.pow_le_mono_r_iff in L; [|lia]. replace (k - 3) with (offw p) by lia.
    destruct (N.ltb_spec (sel - 2) (offw p)); [|reflexivity]. apply Body. assumption.
Qed.

Lemma chain_amo : forall en len off x, chain_select p en true len off x = slice x 0 (p_dbw p).
Proof. reflexivity. Qed.

Lemma chain_amo_agree : forall en len off x,
  chain_select p en true len off x = fast_select p en true len off x <-> slice x 32 (p_dbw p) = 0.
Proof.
  intros. rewrite chain_amo, (read_amo p en len off x).
  assert (D : 32 <= p_dbw p) by (destruct (wf_dbw p W) as [K | [K | K]]; rewrite K; lia).
  split; intro E; apply N.bits_inj; intro b.
  - rewrite testbit_slice, N.bits_0. destruct (N.ltb_spec b (p_dbw p - 32)); [|reflexivity]. cbn [andb].
    apply (f_equal (fun v => N.testbit v (b + 32))) in E. rewrite !testbit_slice, !N.sub_0_r, !N.add_0_r in E.
    destruct (N.ltb_spec (b + 32) (p_dbw p)), (N.ltb_spec (b + 32) 32); try lia. exact E.
  - rewrite !testbit_slice, !N.sub_0_r, !N.add_0_r.
    destruct (N.ltb_spec b (p_dbw p)), (N.ltb_spec b 32); try reflexivity; try lia. cbn [andb].
    apply (f_equal (fun v => N.testbit v (b - 32))) in E. rewrite testbit_slice, N.bits_0 in E.
    destruct (N.ltb_spec (b - 32) (p_dbw p - 32)); [|lia]. cbn [andb] in E.
    replace (b - 32 + 32) with b in E by lia. exact E.
Qed.
End M.

(** ** SRAM *)
Lemma testbit_put : forall x i b j, N.testbit (put_bit x i b) j = if j =? i then b else N.testbit x j.
Proof.
  intros. unfold put_bit. destruct b.
  - rewrite N.setbit_eqb, N.eqb_sym. destruct (N.eqb_spec i j); reflexivity.
  - rewrite N.clearbit_eqb, N.eqb_sym. destruct (N.eqb_spec j i); cbn [negb]; [apply andb_false_r | apply andb_true_r].
Qed.

Definition wr_loop (a1 i1 wbm : N) (c : bool) (l : list N) (ram : N -> N) : N -> N :=
  fold_left (fun ram i => if c && N.testbit wbm i then upd ram a1 (put_bit (ram a1) i (N.testbit i1 i)) else ram) l ram.
Lemma wr_loop_bit : forall a1 i1 wbm c l ram k b,
  N.testbit (wr_loop a1 i1 wbm c l ram k) b =
  if c && (k =? a1) && N.testbit wbm b && existsb (N.eqb b) l then N.testbit i1 b else N.testbit (ram k) b.
Proof.
  intros a1 i1 wbm c. unfold wr_loop. induction l as [|i l IH]; intros ram k b; cbn [fold_left existsb].
  - rewrite andb_false_r. reflexivity.
  - rewrite IH. clear IH.
    destruct c; cbn [andb]; [|reflexivity].
    destruct (N.eqb_spec k a1) as [->|Hk]; cbn [andb].
    + destruct (N.eqb_spec b i) as [->|Hb]; cbn [orb].
      * destruct (N.testbit wbm i) eqn:Ei; cbn [andb].
        -- rewrite upd_eq, testbit_put, N.eqb_refl. destruct (existsb (N.eqb i) l); reflexivity.
        -- reflexivity.
      * destruct (N.testbit wbm b && existsb (N.eqb b) l); [reflexivity|].
        destruct (N.testbit wbm i); [|reflexivity]. rewrite upd_eq, testbit_put.
        destruct (N.eqb_spec b i); [congruence | reflexivity].
    + destruct (N.testbit wbm i); [|reflexivity]. rewrite upd_neq by assumption. reflexivity.
Qed.
Lemma existsb_range : forall b nb, existsb (N.eqb b) (range nb) = (b <? nb).
Proof.
  intros. destruct (N.ltb_spec b nb).
  - apply existsb_exists. exists b. split; [apply in_range; assumption | apply N.eqb_refl].
  - destruct (existsb (N.eqb b) (range nb)) eqn:E; [|reflexivity].
    apply existsb_exists in E. destruct E as (x & Hx & Ex). apply in_range in Hx. apply N.eqb_eq in Ex. lia.
Qed.

Definition wr_op (k b : N) (o : sram_op) : bool := so_val o && so_type o && (so_idx o =? k) && N.testbit (so_wben o) b.
Definition rd_op (o : sram_op) : bool := so_val o && negb (so_type o).

Lemma sram_step_bit : forall nb s o k b, b < nb ->
  N.testbit (sr_ram (sram_step nb s o) k) b =
  if wr_op k b o then N.testbit (so_wdata o) b else N.testbit (sr_ram s k) b.
Proof.
  intros. unfold sram_step, generic_step. cbn [sr_ram]. rewrite !negb_involutive.
  change (fold_left _ (range nb) (sr_ram s)) with
    (wr_loop (so_idx o) (so_wdata o) (so_wben o) (so_val o && so_type o) (range nb) (sr_ram s)).
  rewrite wr_loop_bit, existsb_range. unfold wr_op. rewrite (N.eqb_sym k).
  destruct (N.ltb_spec b nb); [|lia]. rewrite andb_true_r. reflexivity.
Qed.
Lemma sram_step_hi : forall nb s o k b, nb <= b -> N.testbit (sr_ram (sram_step nb s o) k) b = N.testbit (sr_ram s k) b.
Proof.
  intros. unfold sram_step, generic_step. cbn [sr_ram]. rewrite !negb_involutive.
  change (fold_left _ (range nb) (sr_ram s)) with
    (wr_loop (so_idx o) (so_wdata o) (so_wben o) (so_val o && so_type o) (range nb) (sr_ram s)).
  rewrite wr_loop_bit, existsb_range. destruct (N.ltb_spec b nb); [lia|]. rewrite andb_false_r. reflexivity.
Qed.
Lemma sram_step_dout : forall nb s o, sr_dout (sram_step nb s o) = if rd_op o then sr_ram s (so_idx o) else sr_dout s.
Proof. intros. unfold sram_step, generic_step, rd_op. cbn [sr_dout]. rewrite negb_involutive. reflexivity. Qed.

Lemma sram_run_snoc : forall nb s ops o, sram_run nb s (ops ++ [o]) = sram_step nb (sram_run nb s ops) o.
Proof. intros. unfold sram_run. rewrite fold_left_app. reflexivity. Qed.

Lemma sram_last_write : forall nb s ops k b, b < nb ->
  N.testbit (sr_ram (sram_run nb s ops) k) b =
  match find (wr_op k b) (rev ops) with Some o => N.testbit (so_wdata o) b | None => N.testbit (sr_ram s k) b end.
Proof.
  intros nb s ops k b Hb. induction ops as [|o ops IH] using rev_ind; [reflexivity|].
  rewrite sram_run_snoc, rev_unit, sram_step_bit by assumption. cbn [find].
  destruct (wr_op k b o); [reflexivity | exact IH].
Qed.
Lemma sram_width : forall nb s ops, (forall k, sr_ram s k < 2 ^ nb) -> forall k, sr_ram (sram_run nb s ops) k < 2 ^ nb.
Proof.
  intros nb s ops H k. apply lt_pow2_bits. intros i Hi. induction ops as [|o ops IH] using rev_ind.
  - apply testbit_high with nb; auto.
  - rewrite sram_run_snoc, sram_step_hi; assumption.
Qed.
Lemma sram_read : forall nb s pre o post, rd_op o = true -> forallb (fun o => negb (rd_op o)) post = true ->
  sram_out (sram_run nb s (pre ++ o :: post)) = sr_ram (sram_run nb s pre) (so_idx o).
Proof.
  intros nb s pre o post Hr. unfold sram_out. induction post as [|x post IH] using rev_ind; intro Hp.
  - change (pre ++ [o]) with (pre ++ [o]). rewrite sram_run_snoc, sram_step_dout, Hr. reflexivity.
  - rewrite forallb_app in Hp. apply andb_prop in Hp. destruct Hp as (Hp & Hx). cbn in Hx. rewrite andb_true_r in Hx.
    rewrite app_comm_cons, app_assoc, sram_run_snoc, sram_step_dout.
    destruct (rd_op x); [discriminate|]. apply IH. assumption.
Qed.

(** The cache model's word-level SRAM is this one. *)
Lemma sram_word : forall nb s o, so_wben o < 2 ^ nb ->
  (forall k, sr_ram (sram_step nb s o) k = sram_wr (sr_ram s) (so_val o) (so_type o) (so_idx o) (so_wdata o) (so_wben o) k) /\
  sr_dout (sram_step nb s o) = sram_rd (sr_ram s) (sr_dout s) (so_val o) (so_type o) (so_idx o).
Proof.
  intros nb s o Hw. split; [|rewrite sram_step_dout; reflexivity].
  intro k. apply N.bits_inj; intro b. unfold sram_wr.
  destruct (N.ltb_spec b nb).
  - rewrite sram_step_bit by assumption. unfold wr_op.
    destruct (so_val o && so_type o); [|reflexivity]. cbn [andb]. unfold upd. rewrite (N.eqb_sym k).
    destruct (N.eqb_spec (so_idx o) k) as [->|]; [|reflexivity]. rewrite testbit_mwrite. reflexivity.
  - rewrite sram_step_hi by assumption. destruct (so_val o && so_type o); [|reflexivity].
    unfold upd. destruct (N.eqb_spec k (so_idx o)) as [->|]; [|reflexivity].
    rewrite testbit_mwrite, (testbit_high nb (so_wben o)) by assumption. reflexivity.
Qed.

(** Verilog replacement: same contents, same output in the cycle after a read. *)
Lemma vsram_ram : forall nb s ops k, sr_ram (vsram_run nb s ops) k = sr_ram (sram_run nb s ops) k.
Proof.
  intros nb s ops. induction ops as [|o ops IH] using rev_ind; intro k; [reflexivity|].
  unfold vsram_run. rewrite fold_left_app. fold (vsram_run nb s ops). cbn [fold_left].
  rewrite sram_run_snoc. unfold vsram_step, vgeneric_step. cbn [sr_ram]. rewrite !negb_involutive.
  apply N.bits_inj; intro b.
  destruct (N.ltb_spec b nb).
  - rewrite sram_step_bit by assumption. unfold wr_op. destruct (so_val o && so_type o) eqn:E; cbn [andb].
    + change (fold_left _ (range nb) ?r) with (wr_loop (so_idx o) (so_wdata o) (so_wben o) true (range nb) r).
      rewrite wr_loop_bit, existsb_range. destruct (N.ltb_spec b nb); [|lia]. cbn [andb].
      rewrite andb_true_r, (N.eqb_sym k), IH. reflexivity.
    + rewrite IH. reflexivity.
  - rewrite sram_step_hi by assumption. destruct (so_val o && so_type o) eqn:E; cbn [andb].
    + change (fold_left _ (range nb) ?r) with (wr_loop (so_idx o) (so_wdata o) (so_wben o) true (range nb) r).
      rewrite wr_loop_bit, existsb_range. destruct (N.ltb_spec b nb); [lia|]. rewrite andb_false_r, IH. reflexivity.
    + rewrite IH. reflexivity.
Qed.
Lemma vsram_out : forall nb s ops o,
  sram_out (vsram_run nb s (ops ++ [o])) = if rd_op o then sram_out (sram_run nb s (ops ++ [o])) else 0.
Proof.
  intros. unfold sram_out. rewrite sram_run_snoc, sram_step_dout.
  unfold vsram_run. rewrite fold_left_app. fold (vsram_run nb s ops). cbn [fold_left].
  unfold vsram_step, vgeneric_step. cbn [sr_dout]. rewrite !negb_involutive.
  change (so_val o && negb (so_type o)) with (rd_op o). destruct (rd_op o); [apply vsram_ram | reflexivity].
Qed.

(** ** counters *)
(** net effect of one input on an unbounded integer counter *)
Definition ctr_delta (i : ctr_in) : Z := if ci_en i then (if ci_down i then -1 else 1)%Z else 0%Z.
Definition zsum (l : list Z) : Z := fold_right Z.add 0%Z l.

Lemma trunc_Z : forall w x, Z.of_N (trunc w x) = (Z.of_N x mod 2 ^ Z.of_N w)%Z.
Proof. intros. rewrite trunc_mod, N2Z.inj_mod, N2Z.inj_pow. reflexivity. Qed.

Lemma ctr_step_Z : forall w rv out i, ci_reset i = false -> out < 2 ^ w ->
  Z.of_N (ctr_step w rv out i) = ((Z.of_N out + ctr_delta i) mod 2 ^ Z.of_N w)%Z.
Proof.
  intros w rv out i R L. unfold ctr_step, ctr_delta. rewrite R.
  assert (P : (0 < 2 ^ Z.of_N w)%Z) by (apply Z.pow_pos_nonneg; lia).
  assert (P' : 0 < 2 ^ w) by (apply pow2_pos).
  assert (PE : Z.of_N (2 ^ w) = (2 ^ Z.of_N w)%Z) by (rewrite N2Z.inj_pow; reflexivity).
  destruct (ci_en i).
  - destruct (ci_down i); rewrite trunc_Z.
    + replace (Z.of_N (out + (2 ^ w - 1))) with ((Z.of_N out + -1) + 1 * 2 ^ Z.of_N w)%Z by (rewrite <- PE; lia).
      rewrite Z.mod_add by lia. reflexivity.
    + f_equal. lia.
  - rewrite Z.add_0_r, Z.mod_small; [reflexivity|]. rewrite <- PE. lia.
Qed.
Lemma ctr_step_lt : forall w rv out i, out < 2 ^ w -> ctr_step w rv out i < 2 ^ w.
Proof. intros. unfold ctr_step. destruct (ci_reset i), (ci_en i), (ci_down i); auto using trunc_lt. Qed.

Lemma ctr_run : forall w rv is out, out < 2 ^ w -> Forall (fun i => ci_reset i = false) is ->
  Z.of_N (fold_left (ctr_step w rv) is out) = ((Z.of_N out + zsum (map ctr_delta is)) mod 2 ^ Z.of_N w)%Z.
Proof.
  intros w rv. induction is as [|i is IH]; intros out L F; cbn [fold_left map zsum fold_right].
  - assert (PE : Z.of_N (2 ^ w) = (2 ^ Z.of_N w)%Z) by (rewrite N2Z.inj_pow; reflexivity).
    rewrite Z.add_0_r, Z.mod_small; [reflexivity|]. rewrite <- PE. lia.
  - inversion F; subst. rewrite IH by (auto using ctr_step_lt). rewrite ctr_step_Z by assumption.
    rewrite Z.add_mod_idemp_l by (apply Z.pow_nonzero; lia). f_equal. fold (zsum (map ctr_delta is)). lia.
Qed.

(** A down counter of [w] bits started at [2^w-1]: after [k] enabled cycles. *)
Lemma ctr_down : forall w rv is, Forall (fun i => ci_reset i = false /\ (ci_en i = true -> ci_down i = true)) is ->
  let k := N.of_nat (length (filter ci_en is)) in
  fold_left (ctr_step w rv) is (2 ^ w - 1) = 2 ^ w - 1 - k mod 2 ^ w.
Proof.
  intros w rv is F k.
  assert (P : 0 < 2 ^ w) by apply pow2_pos.
  assert (PE : Z.of_N (2 ^ w) = (2 ^ Z.of_N w)%Z) by (rewrite N2Z.inj_pow; reflexivity).
  assert (S : zsum (map ctr_delta is) = (- Z.of_N k)%Z).
  { subst k. clear -F. induction is as [|i is IH]; [reflexivity|]. inversion F; subst.
    cbn [map zsum fold_right filter]. fold (zsum (map ctr_delta is)). rewrite IH by assumption.
    unfold ctr_delta. destruct (ci_en i) eqn:E; [|reflexivity].
    destruct H1 as (_ & H1). rewrite (H1 eq_refl). cbn [length]. lia. }
  apply N2Z.inj. rewrite ctr_run; [|lia|eapply Forall_impl; [|exact F]; cbn; tauto].
  rewrite S.
  pose proof (N.mod_lt k (2 ^ w) ltac:(lia)) as ML.
  apply N2Z.inj_lt in ML. rewrite N2Z.inj_mod, PE in ML.
  pose proof (Z.div_mod (Z.of_N k) (2 ^ Z.of_N w) ltac:(lia)) as D.
  set (M := (2 ^ Z.of_N w)%Z) in *. set (r := (Z.of_N k mod M)%Z) in *. set (q := (Z.of_N k / M)%Z) in *.
  assert (R0 : (0 <= r)%Z) by (apply Z.mod_pos_bound; lia).
  replace (Z.of_N (2 ^ w - 1) + - Z.of_N k)%Z with ((M - 1 - r) + (- q) * M)%Z by lia.
  rewrite Z.mod_add by lia. rewrite Z.mod_small by lia.
  assert (RE : Z.of_N (k mod 2 ^ w) = r) by (subst r; rewrite N2Z.inj_mod, PE; reflexivity).
  clear -RE PE R0 ML P. set (u := k mod 2 ^ w) in *. clearbody u. lia.
Qed.

(** up/down counter: an event either loads or moves by a signed amount *)
Definition ud_eff (i : ud_in) (x : Z) : Z :=
  if ui_ld i then Z.of_N (ui_lda i)
  else (x + (if ui_up i && negb (ui_dw i) then Z.of_N (ui_upa i) else 0)
          - (if negb (ui_up i) && ui_dw i then Z.of_N (ui_dwa i) else 0))%Z.
Lemma ud_step_Z : forall w rv out i, ui_reset i = false -> out < 2 ^ w ->
  Z.of_N (ud_step w rv out i) = (ud_eff i (Z.of_N out) mod 2 ^ Z.of_N w)%Z.
Proof.
  intros w rv out i R L. unfold ud_step, ud_eff. rewrite R.
  assert (PE : Z.of_N (2 ^ w) = (2 ^ Z.of_N w)%Z) by (rewrite N2Z.inj_pow; reflexivity).
  assert (P : (0 < 2 ^ Z.of_N w)%Z) by (apply Z.pow_pos_nonneg; lia).
  destruct (ui_ld i); [apply trunc_Z|].
  destruct (ui_up i), (ui_dw i); cbn [andb negb]; rewrite ?Z.add_0_r, ?Z.sub_0_r.
  - rewrite Z.mod_small; [reflexivity|]. rewrite <- PE. lia.
  - rewrite trunc_Z. f_equal. lia.
  - rewrite trunc_Z.
    pose proof (trunc_lt w (ui_dwa i)) as T. pose proof (trunc_Z w (ui_dwa i)) as TZ.
    pose proof (Z.div_mod (Z.of_N (ui_dwa i)) (2 ^ Z.of_N w) ltac:(lia)) as D.
    set (M := (2 ^ Z.of_N w)%Z) in *. set (d := Z.of_N (ui_dwa i)) in *. set (q := (d / M)%Z) in *. set (r := (d mod M)%Z) in *.
    replace (Z.of_N (out + (2 ^ w - trunc w (ui_dwa i)))) with (Z.of_N out + M - r)%Z by lia.
    replace (Z.of_N out + M - r)%Z with ((Z.of_N out - d) + (1 + q) * M)%Z by lia.
    rewrite Z.mod_add by lia. reflexivity.
  - rewrite Z.mod_small; [reflexivity|]. rewrite <- PE. lia.
Qed.
Lemma ud_step_lt : forall w rv out i, out < 2 ^ w -> ud_step w rv out i < 2 ^ w.
Proof. intros. unfold ud_step. destruct (ui_reset i), (ui_ld i), (ui_up i), (ui_dw i); cbn [andb negb]; auto using trunc_lt. Qed.

Lemma ud_eff_mod : forall i x M, (0 < M)%Z -> (ud_eff i (x mod M) mod M = ud_eff i x mod M)%Z.
Proof.
  intros. unfold ud_eff. destruct (ui_ld i); [reflexivity|].
  rewrite <- !Z.add_sub_assoc. rewrite Z.add_mod_idemp_l by lia. reflexivity.
Qed.
Lemma ud_run : forall w rv is out, out < 2 ^ w -> Forall (fun i => ui_reset i = false) is ->
  Z.of_N (fold_left (ud_step w rv) is out) = (fold_left (fun x i => ud_eff i x) is (Z.of_N out) mod 2 ^ Z.of_N w)%Z.
Proof.
  intros w rv is out L F.
  assert (P : (0 < 2 ^ Z.of_N w)%Z) by (apply Z.pow_pos_nonneg; lia).
  assert (PE : Z.of_N (2 ^ w) = (2 ^ Z.of_N w)%Z) by (rewrite N2Z.inj_pow; reflexivity).
  assert (G : forall is out x, out < 2 ^ w -> Forall (fun i => ui_reset i = false) is -> Z.of_N out = (x mod 2 ^ Z.of_N w)%Z ->
    Z.of_N (fold_left (ud_step w rv) is out) = (fold_left (fun x i => ud_eff i x) is x mod 2 ^ Z.of_N w)%Z).
  { clear is out L F. induction is as [|i is IH]; intros out x L F E; [assumption|]. inversion F; subst. cbn [fold_left].
    apply IH; [auto using ud_step_lt | assumption|]. rewrite ud_step_Z by assumption. rewrite E, ud_eff_mod by assumption. reflexivity. }
  apply G; auto. rewrite Z.mod_small; [reflexivity|]. rewrite <- PE. lia.
Qed.

(** ** records *)
Lemma shr3 : forall d, N.shiftr d 3 = d / 8.
Proof. intros. rewrite N.shiftr_div_pow2. reflexivity. Qed.
Lemma shr5 : forall d, N.shiftr d 5 = d / 32.
Proof. intros. rewrite N.shiftr_div_pow2. reflexivity. Qed.

Lemma creq_roundtrip : forall opq addr data r,
  cq_type r < 16 -> cq_opq r < 2 ^ opq -> cq_addr r < 2 ^ addr -> cq_len r < 2 ^ clog2 (data / 8) -> cq_data r < 2 ^ data ->
  bits_creq opq addr data (creq_bits opq addr data r) = r /\
  creq_bits opq addr data r < 2 ^ (4 + opq + addr + clog2 (data / 8) + data).
Proof.
  intros opq addr data r H1 H2 H3 H4 H5. unfold bits_creq, creq_bits, req_ws, creq_vals. cbn [app]. rewrite shr3.
  set (fs := combine _ _).
  assert (F : Forall (fun f => snd f < 2 ^ fst f) fs) by (unfold fs; cbn [combine]; repeat constructor; assumption).
  split.
  - pose proof (unpack_pack fs F) as U. change (map fst fs) with [4; opq; addr; clog2 (data / 8); data] in U.
    rewrite U. destruct r; reflexivity.
  - pose proof (pack_lt fs F) as L. eapply N.lt_le_trans; [exact L|]. apply N.pow_le_mono_r; [lia|].
    unfold fs. cbn [combine map fst wsum fold_right]. lia.
Qed.
Lemma creq_unpack : forall opq addr data x, x < 2 ^ (4 + opq + addr + clog2 (data / 8) + data) ->
  creq_bits opq addr data (bits_creq opq addr data x) = x.
Proof.
  intros opq addr data x H. unfold bits_creq, creq_bits. rewrite <- (pack_unpack (req_ws opq addr data false) x) at 2.
  - reflexivity.
  - eapply N.lt_le_trans; [exact H|]. apply N.pow_le_mono_r; [lia|]. unfold req_ws. rewrite shr3. cbn [app wsum fold_right]. lia.
Qed.
Lemma cresp_roundtrip : forall opq data r,
  cr_type r < 16 -> cr_opq r < 2 ^ opq -> cr_test r < 4 -> cr_len r < 2 ^ clog2 (data / 8) -> cr_data r < 2 ^ data ->
  bits_cresp opq data (cresp_bits opq data r) = r.
Proof.
  intros opq data r H1 H2 H3 H4 H5. unfold bits_cresp, cresp_bits, resp_ws, cresp_vals. cbn [app]. rewrite shr3.
  set (fs := combine _ _).
  assert (F : Forall (fun f => snd f < 2 ^ fst f) fs) by (unfold fs; cbn [combine]; repeat constructor; assumption).
  pose proof (unpack_pack fs F) as U. change (map fst fs) with [4; opq; 2; clog2 (data / 8); data] in U.
  rewrite U. destruct r; reflexivity.
Qed.
Lemma cresp_unpack : forall opq data x, x < 2 ^ (4 + opq + 2 + clog2 (data / 8) + data) ->
  cresp_bits opq data (bits_cresp opq data x) = x.
Proof.
  intros opq data x H. unfold bits_cresp, cresp_bits. rewrite <- (pack_unpack (resp_ws opq data false) x) at 2.
  - reflexivity.
  - eapply N.lt_le_trans; [exact H|]. apply N.pow_le_mono_r; [lia|]. unfold resp_ws. rewrite shr3. cbn [app wsum fold_right]. lia.
Qed.
Lemma mreq_roundtrip : forall opq addr data q,
  mq_type q < 16 -> mq_opq q < 2 ^ opq -> mq_addr q < 2 ^ addr -> mq_len q < 2 ^ clog2 (data / 8) ->
  mq_mask q < 2 ^ (data / 32) -> mq_data q < 2 ^ data ->
  bits_mreq opq addr data (mreq_bits opq addr data q) = q.
Proof.
  intros opq addr data r H1 H2 H3 H4 H5 H6. unfold bits_mreq, mreq_bits, req_ws, mreq_vals. cbn [app]. rewrite shr3, shr5.
  set (fs := combine _ _).
  assert (F : Forall (fun f => snd f < 2 ^ fst f) fs) by (unfold fs; cbn [combine]; repeat constructor; assumption).
  pose proof (unpack_pack fs F) as U. change (map fst fs) with [4; opq; addr; clog2 (data / 8); data / 32; data] in U.
  rewrite U. destruct r; reflexivity.
Qed.
Lemma mreq_unpack : forall opq addr data x, x < 2 ^ (4 + opq + addr + clog2 (data / 8) + data / 32 + data) ->
  mreq_bits opq addr data (bits_mreq opq addr data x) = x.
Proof.
  intros opq addr data x H. unfold bits_mreq, mreq_bits. rewrite <- (pack_unpack (req_ws opq addr data true) x) at 2.
  - reflexivity.
  - eapply N.lt_le_trans; [exact H|]. apply N.pow_le_mono_r; [lia|]. unfold req_ws. rewrite shr3, shr5. cbn [app wsum fold_right].
    set (k := clog2 (data / 8)). set (u := data / 32). clearbody k u. lia.
Qed.

Lemma te_roundtrip : forall p v d t, d < 2 ^ dtyw p -> t < 2 ^ tagw p ->
  te_val p (mk_te p v d t) = v /\ te_dty p (mk_te p v d t) = d /\ te_tag p (mk_te p v d t) = t /\
  mk_te p v d t < 2 ^ tagarrw p.
Proof.
  intros p v d t D T. split; [apply te_val_mk|]. split; [rewrite te_dty_mk; apply trunc_small; assumption|].
  split; [rewrite te_tag_mk; apply trunc_small; assumption|].
  apply lt_pow2_bits. intros i Hi. rewrite testbit_mk_te. unfold tagarrw in Hi.
  destruct (N.ltb_spec i (tagw p)); [lia|]. destruct (N.ltb_spec i (tagw p + dtyw p)); [lia|].
  destruct (N.eqb_spec i (tagw p + dtyw p)); [lia | reflexivity].
Qed.
Lemma te_unpack : forall p e, e < 2 ^ tagarrw p -> mk_te p (te_val p e) (te_dty p e) (te_tag p e) = e.
Proof.
  intros p e H. apply N.bits_inj; intro i. rewrite testbit_mk_te, testbit_te_tag, testbit_te_dty.
  destruct (N.ltb_spec i (tagw p)); [reflexivity|].
  destruct (N.ltb_spec i (tagw p + dtyw p)).
  - destruct (N.ltb_spec (i - tagw p) (dtyw p)); [|lia]. cbn [andb]. f_equal. lia.
  - destruct (N.eqb_spec i (tagw p + dtyw p)) as [->|]; [reflexivity|]. cbn [andb].
    symmetry. apply testbit_high with (tagarrw p); [assumption | unfold tagarrw; lia].
Qed.

Lemma type_codes :
  [T_READ; T_WRITE; T_INIT; T_AMO_ADD; T_AMO_AND; T_AMO_OR; T_AMO_SWAP; T_AMO_MIN; T_AMO_MINU; T_AMO_MAX; T_AMO_MAXU;
   T_AMO_XOR; T_LR; T_SC; T_INV; T_FLUSH] = range 16 /\ NoDup type_str /\ length type_str = 16%nat.
Proof.
  split; [reflexivity|]. split; [|reflexivity]. unfold type_str.
  repeat (constructor; [cbn; intuition discriminate|]). constructor.
Qed.

Lemma params_ok : forall p, wf_params p ->
  p_abw p = offw p + idxw p + tagw p /\ 1 <= tagw p /\
  total_lines p = 2 ^ idxw p * p_assoc p /\ total_lines p * p_clw p = 8 * p_num_bytes p /\
  p_clw p = 8 * 2 ^ offw p /\ p_clw p = 32 * dtyw p /\ 2 ^ bw_lines p = total_lines p /\
  wbenw p = p_clw p /\ tagarrw p = 1 + dtyw p + tagw p.
Proof.
  intros p W. split; [apply abw_sum; assumption|]. split; [apply tagw_pos; assumption|].
  split; [rewrite (total_eq p W), (nblocks_pow p W); lia|].
  split.
  { destruct (wf_size p W) as (b & _ & E). destruct (wf_clw p W) as (a & C & _).
    unfold total_lines. rewrite E, (N.mul_comm (p_clw p)), N.div_mul.
    - rewrite (N.mul_comm 8), E. lia.
    - rewrite C. apply N.pow_nonzero. lia. }
  split; [apply clw_off; assumption|]. split; [apply clw_dty; assumption|].
  split; [symmetry; apply total_pow; assumption|]. split; [apply wbenw_clw; assumption|]. unfold tagarrw. lia.
Qed.
