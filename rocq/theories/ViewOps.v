(** The elementary changes a request makes to cache and memory, and their effect
    on the program's view: write-back, drop, refill, write, atomic at memory. *)
From Coq Require Import NArith List Bool Lia.
From Verif Require Import Bits Params Msg Units Mem Spec Tl ParamsProofs UnitProofs ViewDefs.
Import ListNotations.
Open Scope N_scope.

Section V.
Variable p : params.
Hypothesis W : wf_params p.

(** [c'] differs from [c] at most in line [(w0, i0)] *)
Record lupd (c c' : cst) (w0 i0 : N) : Prop := mkLupd {
  lu_ct : forall w i, w < p_assoc p -> i < nblocks p -> w <> w0 \/ i <> i0 -> ct c' w i = ct c w i;
  lu_cd : forall w i o, w < p_assoc p -> i < nblocks p -> w <> w0 \/ i <> i0 -> o < 2 ^ offw p ->
            lbyte p c' w i o = lbyte p c w i o;
  lu_cr : forall i, i < nblocks p -> cr c' i < p_assoc p
}.

Lemma same_line : forall w i w0 i0 : N, (w = w0 /\ i = i0) \/ (w <> w0 \/ i <> i0).
Proof. intros. lia. Qed.

Section Upd.
Variables (c c' : cst) (m : mem) (w0 i0 : N).
Hypothesis C : cinv p c m.
Hypothesis Hw0 : w0 < p_assoc p.
Hypothesis Hi0 : i0 < nblocks p.
Hypothesis L : lupd c c' w0 i0.

Lemma lu_val : forall w i, w < p_assoc p -> i < nblocks p -> w <> w0 \/ i <> i0 -> lval p c' w i = lval p c w i.
Proof. intros. unfold lval. rewrite (lu_ct _ _ _ _ L) by auto. auto. Qed.
Lemma lu_dty : forall w i k, w < p_assoc p -> i < nblocks p -> w <> w0 \/ i <> i0 -> ldty p c' w i k = ldty p c w i k.
Proof. intros. unfold ldty. rewrite (lu_ct _ _ _ _ L) by auto. auto. Qed.
Lemma lu_tag : forall w i, w < p_assoc p -> i < nblocks p -> w <> w0 \/ i <> i0 -> ltag p c' w i = ltag p c w i.
Proof. intros. unfold ltag. rewrite (lu_ct _ _ _ _ L) by auto. auto. Qed.
Lemma lu_pres : forall w i, w < p_assoc p -> i < nblocks p -> w <> w0 \/ i <> i0 -> present p c' w i = present p c w i.
Proof. intros. unfold present, lval. rewrite (lu_ct _ _ _ _ L) by auto. auto. Qed.
Lemma lu_dat : forall w a, w < p_assoc p -> w <> w0 \/ a_idx p a <> i0 -> dirty_at p c' w a = dirty_at p c w a.
Proof. intros. unfold dirty_at. rewrite lu_tag, lu_dty; auto; apply a_idx_lt; auto. Qed.

Lemma uniq_c : uniq p c.
Proof. exact (ci_uniq _ _ _ C). Qed.

Lemma lu_uniq :
  (present p c' w0 i0 = true -> forall w, w < p_assoc p -> w <> w0 -> present p c w i0 = true ->
     ltag p c w i0 <> ltag p c' w0 i0) -> uniq p c'.
Proof.
  intros H w w' i Hw Hw' Hi P P' T.
  destruct (same_line w i w0 i0) as [(E1 & E2)|S]; destruct (same_line w' i w0 i0) as [(E3 & E4)|S'].
  - congruence.
  - subst w i. exfalso. rewrite (lu_pres w') in P' by auto. rewrite (lu_tag w') in T by auto.
    apply (H P w'); auto. lia.
  - subst w' i. exfalso. rewrite (lu_pres w) in P by auto. rewrite (lu_tag w) in T by auto.
    apply (H P' w); auto. lia.
  - rewrite lu_pres in P, P' by auto. rewrite !lu_tag in T by auto. apply (uniq_c w w' i); auto.
Qed.

(** at other addresses nothing changes *)
Lemma view_other : forall m' a, uniq p c' -> m' a = m a ->
  (a_idx p a = i0 -> dirty_at p c w0 a = false /\ dirty_at p c' w0 a = false) ->
  view p c' m' a = view p c m a.
Proof.
  intros m' a U' M D.
  assert (X : forall w, w < p_assoc p -> dirty_at p c' w a = dirty_at p c w a).
  { intros w Hw. destruct (same_line w (a_idx p a) w0 i0) as [(E1 & E2)|S].
    - subst w. destruct (D E2). congruence.
    - apply lu_dat; auto. }
  destruct (view_cases p W c m a uniq_c) as [(w & Hw & Dw & ->) | (Dw & ->)].
  - rewrite (view_dirty p W c' m' w a); auto; [|rewrite X; auto].
    apply (lu_cd _ _ _ _ L); auto; [apply a_idx_lt; auto| |apply a_off_lt; auto].
    destruct (same_line w (a_idx p a) w0 i0) as [(E1 & E2)|S]; auto.
    subst w. destruct (D E2). congruence.
  - rewrite view_clean; [congruence|]. intros. rewrite X; auto.
Qed.

(** *** write-back of a line *)
Lemma op_wb : forall m',
  lval p c' w0 i0 = lval p c w0 i0 -> te_dty p (ct c' w0 i0) = 0 -> ltag p c' w0 i0 = ltag p c w0 i0 ->
  (forall o, o < 2 ^ offw p -> lbyte p c' w0 i0 o = lbyte p c w0 i0 o) ->
  (forall x, x < 2 ^ p_abw p ->
     m' x = if (a_tag p x =? ltag p c w0 i0) && (a_idx p x =? i0) && ldty p c w0 i0 (a_off p x / 4)
            then lbyte p c w0 i0 (a_off p x) else m x) ->
  cinv p c' m' /\ forall a, a < 2 ^ p_abw p -> view p c' m' a = view p c m a.
Proof.
  intros m' V D T B M.
  assert (U' : uniq p c').
  { apply lu_uniq. intros P w Hw N P' E. apply N. apply (uniq_c w w0 i0); auto; try congruence.
    unfold present in *. rewrite V, D in P. cbn in P. rewrite orb_false_r in P. rewrite P. auto. }
  assert (ND : forall a, dirty_at p c' w0 a = true -> a_idx p a <> i0).
  { intros a H E. apply dirty_at_inv in H. rewrite E in H. unfold ldty in H. rewrite D, N.bits_0 in H. destruct H; discriminate. }
  split; [constructor; [exact U' | | apply (lu_cr _ _ _ _ L)]|].
  - intros w i o Hw Hi Ho Vw Dw.
    assert (Hp : i < 2 ^ idxw p) by (rewrite <- (nblocks_pow p W); auto).
    destruct (same_line w i w0 i0) as [(-> & ->)|S].
    + rewrite V in Vw. rewrite T, B by auto. rewrite M by (apply mk_addr_lt; auto; apply te_tag_lt).
      rewrite a_tag_mk, a_idx_mk, a_off_mk by (auto; apply te_tag_lt). rewrite !N.eqb_refl. cbn [andb].
      destruct (ldty p c w0 i0 (o / 4)) eqn:E.
      * symmetry. apply trunc_gb.
      * apply (ci_coh _ _ _ C); auto.
    + rewrite lu_val in Vw by auto. rewrite lu_dty in Dw by auto. rewrite lu_tag by auto.
      rewrite (lu_cd _ _ _ _ L) by auto. rewrite (ci_coh _ _ _ C) by auto. f_equal.
      rewrite M by (apply mk_addr_lt; auto; apply te_tag_lt).
      rewrite a_tag_mk, a_idx_mk, a_off_mk by (auto; apply te_tag_lt).
      destruct ((ltag p c w i =? ltag p c w0 i0) && (i =? i0) && ldty p c w0 i0 (o / 4)) eqn:E; auto.
      apply andb_prop in E. destruct E as [E E3]. apply andb_prop in E. destruct E as [E1 E2].
      apply N.eqb_eq in E1, E2. subst i. exfalso.
      assert (w = w0) by (apply (uniq_c w w0 i0); eauto using lval_present, ldty_present). lia.
  - intros a Ha.
    destruct ((a_tag p a =? ltag p c w0 i0) && (a_idx p a =? i0) && ldty p c w0 i0 (a_off p a / 4)) eqn:E.
    + pose proof (M a Ha) as Ma. rewrite E in Ma.
      apply andb_prop in E. destruct E as [E E3]. apply andb_prop in E. destruct E as [E1 E2].
      apply N.eqb_eq in E1, E2.
      assert (DA : dirty_at p c w0 a = true).
      { unfold dirty_at. rewrite E2, E1, E3, N.eqb_refl. auto. }
      rewrite (view_dirty p W c m w0 a uniq_c Hw0 DA).
      rewrite view_clean.
      * rewrite Ma, E2. apply trunc_gb.
      * intros w Hw. destruct (dirty_at p c' w a) eqn:DW; auto. exfalso.
        destruct (N.eq_dec w w0) as [->|N].
        { apply ND in DW. auto. }
        rewrite lu_dat in DW by auto. apply dirty_at_inv in DW, DA.
        apply N. apply (uniq_c w w0 i0); auto; rewrite E2 in *; destruct DW, DA; eauto using ldty_present; congruence.
    + apply view_other; auto.
      * rewrite M, E by auto. auto.
      * intros I. split.
        -- unfold dirty_at. rewrite I. rewrite I, N.eqb_refl, andb_true_r in E.
           rewrite N.eqb_sym. auto.
        -- destruct (dirty_at p c' w0 a) eqn:DA; auto. exfalso. eapply ND; eauto.
Qed.

(** *** dropping a clean line *)
Lemma op_drop : te_dty p (ct c w0 i0) = 0 -> te_dty p (ct c' w0 i0) = 0 -> lval p c' w0 i0 = false ->
  cinv p c' m /\ forall a, a < 2 ^ p_abw p -> view p c' m a = view p c m a.
Proof.
  intros D D' V.
  assert (U' : uniq p c').
  { apply lu_uniq. intros P. unfold present in P. rewrite V, D' in P. discriminate. }
  assert (Z : forall a, a_idx p a = i0 -> dirty_at p c w0 a = false /\ dirty_at p c' w0 a = false).
  { intros a I. unfold dirty_at, ldty. rewrite I, D, D', !N.bits_0, !andb_false_r. auto. }
  split; [constructor; [exact U' | | apply (lu_cr _ _ _ _ L)]|].
  - intros w i o Hw Hi Ho Vw Dw.
    destruct (same_line w i w0 i0) as [(E1 & E2)|S]; [subst; congruence|].
    rewrite lu_val in Vw by auto. rewrite lu_dty in Dw by auto. rewrite lu_tag by auto.
    rewrite (lu_cd _ _ _ _ L) by auto. apply (ci_coh _ _ _ C); auto.
  - intros a Ha. apply view_other; auto.
Qed.

(** *** refill of a line *)
Lemma op_refill : lval p c' w0 i0 = true ->
  (ltag p c w0 i0 = ltag p c' w0 i0 /\ te_dty p (ct c' w0 i0) = te_dty p (ct c w0 i0) \/
   te_dty p (ct c w0 i0) = 0 /\ te_dty p (ct c' w0 i0) = 0) ->
  (forall o, o < 2 ^ offw p -> lbyte p c' w0 i0 o =
     if ldty p c' w0 i0 (o / 4) then lbyte p c w0 i0 o
     else trunc 8 (m (mk_addr p (ltag p c' w0 i0) i0 o))) ->
  (forall w, w < p_assoc p -> w <> w0 -> present p c w i0 = true -> ltag p c w i0 <> ltag p c' w0 i0) ->
  cinv p c' m /\ forall a, a < 2 ^ p_abw p -> view p c' m a = view p c m a.
Proof.
  intros V D B N.
  assert (U' : uniq p c') by (apply lu_uniq; auto).
  split; [constructor; [exact U' | | apply (lu_cr _ _ _ _ L)]|].
  - intros w i o Hw Hi Ho Vw Dw.
    destruct (same_line w i w0 i0) as [(E1 & E2)|S].
    + subst w i. rewrite B, Dw by auto. auto.
    + rewrite lu_val in Vw by auto. rewrite lu_dty in Dw by auto. rewrite lu_tag by auto.
      rewrite (lu_cd _ _ _ _ L) by auto. apply (ci_coh _ _ _ C); auto.
  - intros a Ha.
    destruct (same_line w0 (a_idx p a) w0 i0) as [(_ & E)|S].
    + destruct (dirty_at p c w0 a) eqn:DA.
      * rewrite (view_dirty p W c m w0 a uniq_c Hw0 DA).
        apply dirty_at_inv in DA. destruct DA as [DA1 DA2].
        destruct D as [(D1 & D2) | (D1 & D2)].
        -- assert (DD : ldty p c' w0 i0 (a_off p a / 4) = true) by (unfold ldty in *; rewrite D2, <- E; auto).
           rewrite (view_dirty p W c' m w0 a U' Hw0).
           ++ rewrite E, B, DD by (apply a_off_lt). auto.
           ++ unfold dirty_at. rewrite E, DD, <- D1, <- E, DA1, N.eqb_refl. auto.
        -- exfalso. unfold ldty in DA2. rewrite E, D1, N.bits_0 in DA2. discriminate.
      * apply view_other; auto. intros _. split; auto.
        unfold dirty_at in *. rewrite E in *. destruct D as [(D1 & D2) | (D1 & D2)].
        -- unfold ldty in *. rewrite D2, <- D1. auto.
        -- unfold ldty. rewrite D2, N.bits_0. apply andb_false_r.
    + apply view_other; auto. intros E. exfalso. destruct S; auto.
Qed.

(** *** store into a valid line *)
Lemma op_write : forall off n d, off + N.of_nat n <= 2 ^ offw p ->
  lval p c w0 i0 = true -> lval p c' w0 i0 = true -> ltag p c' w0 i0 = ltag p c w0 i0 ->
  (forall k, ldty p c w0 i0 k = true -> ldty p c' w0 i0 k = true) ->
  (forall k, k < N.of_nat n -> ldty p c' w0 i0 ((off + k) / 4) = true) ->
  (forall o, o < 2 ^ offw p -> lbyte p c' w0 i0 o =
     if (off <=? o) && (o <? off + N.of_nat n) then gb d (o - off) else lbyte p c w0 i0 o) ->
  cinv p c' m /\ forall a, a < 2 ^ p_abw p ->
    view p c' m a = wr_bytes (view p c m) (mk_addr p (ltag p c w0 i0) i0 off) n d a.
Proof.
  intros off n d OL V V' T D D' B.
  assert (U' : uniq p c').
  { apply lu_uniq. intros P w Hw N P' E. apply N. apply (uniq_c w w0 i0); auto; try congruence.
    apply lval_present; auto. }
  split; [constructor; [exact U' | | apply (lu_cr _ _ _ _ L)]|].
  - intros w i o Hw Hi Ho Vw Dw.
    destruct (same_line w i w0 i0) as [(E1 & E2)|S].
    + subst w i. rewrite B, T by auto.
      destruct ((off <=? o) && (o <? off + N.of_nat n)) eqn:R.
      * exfalso. apply andb_prop in R. destruct R as [R1 R2]. apply N.leb_le in R1. apply N.ltb_lt in R2.
        specialize (D' (o - off) ltac:(lia)). replace (off + (o - off)) with o in D' by lia. congruence.
      * apply (ci_coh _ _ _ C); auto. destruct (ldty p c w0 i0 (o / 4)) eqn:X; auto.
        apply D in X. congruence.
    + rewrite lu_val in Vw by auto. rewrite lu_dty in Dw by auto. rewrite lu_tag by auto.
      rewrite (lu_cd _ _ _ _ L) by auto. apply (ci_coh _ _ _ C); auto.
  - intros a Ha.
    assert (TT : ltag p c w0 i0 < 2 ^ tagw p) by apply te_tag_lt.
    pose proof (in_line p W (ltag p c w0 i0) i0 a TT Hi0 Ha) as IL.
    assert (EQ : mk_addr p (ltag p c w0 i0) i0 off = mk_addr p (ltag p c w0 i0) i0 0 + off \/ n = O).
    { destruct n; auto. left. apply mk_addr_eq; [lia|]. apply idx_pow; auto. }
    set (base := mk_addr p (ltag p c w0 i0) i0 0) in *.
    assert (LO : a_tag p a = ltag p c w0 i0 -> a_idx p a = i0 -> a - base = a_off p a).
    { intros. apply line_off; auto. }
    assert (R : wr_bytes (view p c m) (mk_addr p (ltag p c w0 i0) i0 off) n d a =
      if (a_tag p a =? ltag p c w0 i0) && (a_idx p a =? i0) && (off <=? a_off p a) && (a_off p a <? off + N.of_nat n)
      then gb d (a_off p a - off) else view p c m a).
    { unfold wr_bytes. fold (gb d (a - mk_addr p (ltag p c w0 i0) i0 off)).
      destruct EQ as [-> | ->].
      - destruct ((a_tag p a =? ltag p c w0 i0) && (a_idx p a =? i0)) eqn:TI.
        + apply andb_prop in TI. destruct TI as [T1 T2]. apply N.eqb_eq in T1, T2.
          pose proof (proj2 IL (conj T1 T2)) as IN. apply andb_prop in IN. destruct IN as [IN1 IN2].
          apply N.leb_le in IN1. apply N.ltb_lt in IN2. specialize (LO T1 T2).
          cbn [andb]. rewrite <- LO.
          destruct (N.leb_spec (base + off) a), (N.leb_spec off (a - base)); try lia; cbn [andb]; auto.
          destruct (N.ltb_spec a (base + off + N.of_nat n)), (N.ltb_spec (a - base) (off + N.of_nat n)); try lia; auto.
          f_equal. lia.
        + cbn [andb]. destruct ((base + off <=? a) && (a <? base + off + N.of_nat n)) eqn:R; auto.
          exfalso. apply andb_prop in R. destruct R as [R1 R2]. apply N.leb_le in R1. apply N.ltb_lt in R2.
          assert (IN : (base <=? a) && (a <? base + 2 ^ offw p) = true)
            by (apply andb_true_intro; split; [apply N.leb_le|apply N.ltb_lt]; lia).
          apply IL in IN. destruct IN as [IN1 IN2]. rewrite IN1, IN2, !N.eqb_refl in TI. discriminate.
      - cbn [N.of_nat]. rewrite !N.add_0_r.
        destruct (N.leb_spec (mk_addr p (ltag p c w0 i0) i0 off) a), (N.ltb_spec a (mk_addr p (ltag p c w0 i0) i0 off)); try lia; cbn [andb];
        destruct (N.leb_spec off (a_off p a)), (N.ltb_spec (a_off p a) off); try lia; rewrite ?andb_false_r; cbn [andb]; auto; rewrite ?andb_false_r; auto. }
    rewrite R. clear R.
    destruct (same_line w0 (a_idx p a) w0 i0) as [(_ & E)|S].
    + destruct (N.eqb_spec (a_tag p a) (ltag p c w0 i0)) as [TA|TA]; cbn [andb].
      * rewrite E, N.eqb_refl. cbn [andb].
        pose proof (a_off_lt p a) as AO.
        destruct (dirty_at p c' w0 a) eqn:DA.
        -- rewrite (view_dirty p W c' m w0 a U' Hw0 DA), E, B by auto.
           destruct ((off <=? a_off p a) && (a_off p a <? off + N.of_nat n)); auto.
           destruct (dirty_at p c w0 a) eqn:DC.
           ++ rewrite (view_dirty p W c m w0 a uniq_c Hw0 DC), E. auto.
           ++ rewrite (ci_coh _ _ _ C); auto.
              ** rewrite <- TA, <- E, mk_addr_parts by auto. rewrite view_clean; auto.
                 intros w Hw. destruct (dirty_at p c w a) eqn:DW; auto.
                 destruct (N.eq_dec w w0) as [->|NW]; [congruence|]. exfalso.
                 apply dirty_at_inv in DW. rewrite E in DW. destruct DW.
                 apply NW. apply (uniq_c w w0 i0); eauto using ldty_present, lval_present. congruence.
              ** unfold dirty_at in DC. rewrite E, TA, N.eqb_refl in DC. auto.
        -- assert (DC : dirty_at p c w0 a = false).
           { unfold dirty_at in *. rewrite E in *. rewrite TA, T, N.eqb_refl in DA. cbn [andb] in DA.
             destruct (ldty p c w0 i0 (a_off p a / 4)) eqn:X; [|apply andb_false_r]. apply D in X. congruence. }
           destruct ((off <=? a_off p a) && (a_off p a <? off + N.of_nat n)) eqn:R.
           ++ exfalso. apply andb_prop in R. destruct R as [R1 R2]. apply N.leb_le in R1. apply N.ltb_lt in R2.
              unfold dirty_at in DA. rewrite E, TA, T, N.eqb_refl in DA. cbn [andb] in DA.
              specialize (D' (a_off p a - off) ltac:(lia)).
              replace (off + (a_off p a - off)) with (a_off p a) in D' by lia. congruence.
           ++ apply view_other; auto.
      * apply view_other; auto. intros _. unfold dirty_at. rewrite E, T.
        destruct (N.eqb_spec (ltag p c w0 i0) (a_tag p a)); auto. congruence.
    + destruct S as [S|S]; [congruence|].
      destruct (N.eqb_spec (a_idx p a) i0); [congruence|]. rewrite andb_false_r. cbn [andb].
      apply view_other; auto. intros; congruence.
Qed.

End Upd.

(** *** atomic operation performed by memory on a line the cache does not hold *)
Lemma op_amo : forall c m A d, cinv p c m -> A < 2 ^ p_abw p -> A mod 4 = 0 ->
  (forall w, w < p_assoc p -> present p c w (a_idx p A) = true -> ltag p c w (a_idx p A) <> a_tag p A) ->
  cinv p c (wr_bytes m A 4 d) /\
  (forall a, view p c (wr_bytes m A 4 d) a = wr_bytes (view p c m) A 4 d a) /\
  rd_bytes (view p c m) A 4 = rd_bytes m A 4.
Proof.
  intros c m A d C HA AL N.
  pose proof (ci_uniq _ _ _ C) as U.
  assert (AO : forall k, k < 4 -> a_off p A + k < 2 ^ offw p).
  { intros k K. pose proof (a_off_lt p A) as LT. rewrite (off_words p W) in *.
    rewrite a_off_mod in *. rewrite (off_words p W) in *.
    assert (DP : dtyw p <> 0) by (rewrite (dtyw_off p W); pose proof (pow2_pos (offw p - 2)); lia).
    assert (X : (A mod (4 * dtyw p)) mod 4 = 0).
    { rewrite N.mod_mul_r by (auto; discriminate). rewrite AL, N.add_0_l, N.mul_comm, N.mod_mul; [auto|discriminate]. }
    set (z := A mod (4 * dtyw p)) in *. clearbody z.
    pose proof (N.div_mod' z 4) as DM. rewrite X in DM. set (q := z / 4) in *. clearbody q. lia. }
  assert (IN : forall k, k < 4 -> a_tag p (A + k) = a_tag p A /\ a_idx p (A + k) = a_idx p A).
  { intros k K. destruct (addr_add p W A k HA (AO k K)) as (_ & ? & ? & _). auto. }
  assert (CL : forall a, (A <=? a) && (a <? A + 4) = true -> forall w, w < p_assoc p -> dirty_at p c w a = false).
  { intros a R w Hw. apply andb_prop in R. destruct R as [R1 R2]. apply N.leb_le in R1. apply N.ltb_lt in R2.
    destruct (IN (a - A) ltac:(lia)) as (I1 & I2). replace (A + (a - A)) with a in I1, I2 by lia.
    unfold dirty_at. rewrite I1, I2.
    destruct (N.eqb_spec (ltag p c w (a_idx p A)) (a_tag p A)) as [E|E]; auto. cbn [andb].
    destruct (ldty p c w (a_idx p A) (a_off p a / 4)) eqn:D; auto. exfalso. eapply N; eauto using ldty_present. }
  split; [|split].
  - constructor; [exact U | | exact (ci_rep _ _ _ C)].
    intros w i o Hw Hi Ho V D. rewrite (ci_coh _ _ _ C) by auto. f_equal.
    unfold wr_bytes. change (N.of_nat 4) with 4.
    destruct ((A <=? mk_addr p (ltag p c w i) i o) && (mk_addr p (ltag p c w i) i o <? A + 4)) eqn:R; auto.
    exfalso. apply andb_prop in R. destruct R as [R1 R2]. apply N.leb_le in R1. apply N.ltb_lt in R2.
    set (x := mk_addr p (ltag p c w i) i o) in *.
    destruct (IN (x - A) ltac:(lia)) as (I1 & I2). replace (A + (x - A)) with x in I1, I2 by lia.
    unfold x in I1, I2. rewrite a_tag_mk in I1 by (auto using te_tag_lt; try apply te_tag_lt; try (apply idx_pow; auto)).
    rewrite a_idx_mk in I2 by (auto; apply idx_pow; auto).
    apply (N w Hw); rewrite <- I2; auto using lval_present.
  - intros a. unfold wr_bytes at 2. change (N.of_nat 4) with 4.
    destruct ((A <=? a) && (a <? A + 4)) eqn:R.
    + rewrite view_clean by (apply CL; auto). unfold wr_bytes. change (N.of_nat 4) with 4. rewrite R. apply trunc_gb.
    + unfold view. destruct (find _ _); auto. unfold wr_bytes. change (N.of_nat 4) with 4. rewrite R. auto.
  - apply rd_ext. change (N.of_nat 4) with 4. intros k K. rewrite view_clean.
    + apply trunc_small. apply trunc_lt.
    + apply CL. apply andb_true_intro; split; [apply N.leb_le|apply N.ltb_lt]; lia.
Qed.

(** *** clearing every valid bit *)
Lemma op_inv : forall c c' m, cinv p c m ->
  (forall w i, w < p_assoc p -> i < nblocks p -> lval p c' w i = false /\
     te_dty p (ct c' w i) = te_dty p (ct c w i) /\ ltag p c' w i = ltag p c w i) ->
  cd c' = cd c -> cr c' = cr c ->
  cinv p c' m /\ forall a, view p c' m a = view p c m a.
Proof.
  intros c c' m C E ED ER.
  pose proof (ci_uniq _ _ _ C) as U.
  assert (U' : uniq p c').
  { intros w w' i Hw Hw' Hi P P' T. destruct (E w i Hw Hi) as (V1 & D1 & T1). destruct (E w' i Hw' Hi) as (V2 & D2 & T2).
    apply (U w w' i); auto; try congruence; unfold present in *; rewrite ?V1, ?D1, ?V2, ?D2 in *; cbn [orb] in *;
      [rewrite P | rewrite P']; apply orb_true_r. }
  assert (DA : forall w a, w < p_assoc p -> dirty_at p c' w a = dirty_at p c w a).
  { intros w a Hw. destruct (E w (a_idx p a) Hw (a_idx_lt p W a)) as (V1 & D1 & T1).
    unfold dirty_at, ldty. rewrite T1, D1. auto. }
  split.
  - constructor; [exact U' | | rewrite ER; exact (ci_rep _ _ _ C)].
    intros w i o Hw Hi Ho V. destruct (E w i Hw Hi) as (V1 & _). congruence.
  - intros a. destruct (view_cases p W c m a U) as [(w & Hw & Dw & ->) | (Dw & ->)].
    + rewrite (view_dirty p W c' m w a); auto; [|rewrite DA; auto]. unfold lbyte. rewrite ED. auto.
    + apply view_clean. intros. rewrite DA; auto.
Qed.

End V.
