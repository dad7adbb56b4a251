(** What one memory request does, byte by byte (property C28). *)
From Coq Require Import PeanoNat NArith ZArith List Bool Lia.
From Verif Require Import Bits Params Msg Units Mem Tl ParamsProofs UnitProofs ViewDefs.
Import ListNotations.
Open Scope N_scope.

(** Byte [k] of a value. *)
Definition byte (v k : N) : N := (v / 256 ^ k) mod 256.
Lemma byte_gb : forall v k, byte v k = gb v k.
Proof.
  intros. unfold byte, gb, slice. replace (8 * k + 8 - 8 * k) with 8 by lia.
  rewrite trunc_mod, N.shiftr_div_pow2. change 256 with (2 ^ 8) at 1. rewrite <- N.pow_mul_r. reflexivity.
Qed.
Lemma rd_lt : forall n m a, rd_bytes m a n < 256 ^ N.of_nat n.
Proof.
  induction n; intros m a; cbn [rd_bytes]; [cbn; lia|].
  pose proof (IHn m (a + 1)). pose proof (trunc_lt 8 (m a)) as T. change (2 ^ 8) with 256 in T.
  rewrite Nat2N.inj_succ, N.pow_succ_r'. lia.
Qed.
Lemma trunc8 : forall x, trunc 8 x = x mod 256.
Proof. intros. apply trunc_mod. Qed.

Theorem exec_read : forall p m q, mq_type q = T_READ ->
  let L := if mq_len q =? 0 then p_clw p / 8 else mq_len q in
  fst (mem_exec p m q) = m /\ mr_data (snd (mem_exec p m q)) < 256 ^ L /\
  forall k, k < L -> byte (mr_data (snd (mem_exec p m q))) k = m (mq_addr q + k) mod 256.
Proof.
  intros p m q T L. unfold mem_exec. rewrite T. change (T_READ =? T_READ) with true. cbn [fst snd mr_data]. fold L.
  split; auto. split.
  - pose proof (rd_lt (N.to_nat L) m (mq_addr q)) as H. rewrite N2Nat.id in H. auto.
  - intros k K. rewrite byte_gb, gb_rd, trunc8; auto. rewrite N2Nat.id. auto.
Qed.

Theorem exec_write : forall p m q, mq_type q = T_WRITE ->
  let m' := fst (mem_exec p m q) in
  (forall j k, j < p_clw p / 32 -> k < 4 ->
     m' (mq_addr q + 4 * j + k) = if N.testbit (mq_mask q) j then byte (mq_data q) (4 * j + k) else m (mq_addr q + 4 * j + k)) /\
  (forall a, a < mq_addr q \/ mq_addr q + 4 * (p_clw p / 32) <= a -> m' a = m a).
Proof.
  intros p m q T m'. unfold m', mem_exec. rewrite T. change (T_WRITE =? T_READ) with false. change (T_WRITE =? T_WRITE) with true.
  cbn [fst]. split.
  - intros j k Jj K. rewrite wr_masked_spec.
    replace (mq_addr q + 4 * j + k - mq_addr q) with (4 * j + k) by lia.
    replace ((4 * j + k) / 4) with j by (apply N.div_unique with k; lia). rewrite byte_gb.
    destruct (N.leb_spec (mq_addr q) (mq_addr q + 4 * j + k)); try lia.
    destruct (N.ltb_spec (mq_addr q + 4 * j + k) (mq_addr q + 4 * (p_clw p / 32))); try lia.
    cbn [andb]. destruct (N.testbit _ _); auto.
  - intros a H. rewrite wr_masked_spec.
    destruct (N.leb_spec (mq_addr q) a); cbn [andb]; auto.
    destruct (N.ltb_spec a (mq_addr q + 4 * (p_clw p / 32))); cbn [andb]; auto. lia.
Qed.

Theorem exec_amo : forall p m q, T_AMO_ADD <= mq_type q ->
  let m' := fst (mem_exec p m q) in
  let old := mr_data (snd (mem_exec p m q)) in
  old < 2 ^ 32 /\ (forall k, k < 4 -> byte old k = m (mq_addr q + k) mod 256) /\
  (forall k, k < 4 -> m' (mq_addr q + k) = byte (amo_fun (mq_type q) old (mq_data q mod 2 ^ 32)) k) /\
  (forall a, a < mq_addr q \/ mq_addr q + 4 <= a -> m' a = m a).
Proof.
  intros p m q T m' old. unfold m', old, mem_exec.
  assert (E1 : (mq_type q =? T_READ) = false) by (apply N.eqb_neq; unfold T_AMO_ADD, T_READ in *; lia).
  assert (E2 : (mq_type q =? T_WRITE) = false) by (apply N.eqb_neq; unfold T_AMO_ADD, T_WRITE in *; lia).
  rewrite E1, E2. cbn [fst snd mr_data].
  assert (S32 : slice (mq_data q) 0 32 = mq_data q mod 2 ^ 32).
  { unfold slice. rewrite N.shiftr_0_r, N.sub_0_r. apply trunc_mod. }
  rewrite S32. split; [apply (rd_lt 4)|]. split.
  - intros k K. rewrite byte_gb, gb_rd, trunc8; auto.
  - split.
    + intros k K. unfold wr_bytes. change (N.of_nat 4) with 4. rewrite byte_gb. unfold gb.
      destruct (N.leb_spec (mq_addr q) (mq_addr q + k)); try lia.
      destruct (N.ltb_spec (mq_addr q + k) (mq_addr q + 4)); try lia. cbn [andb].
      replace (mq_addr q + k - mq_addr q) with k by lia. auto.
    + intros a H. unfold wr_bytes. change (N.of_nat 4) with 4.
      destruct (N.leb_spec (mq_addr q) a); cbn [andb]; auto. destruct (N.ltb_spec a (mq_addr q + 4)); auto. lia.
Qed.

Theorem exec_echo : forall p m q, mr_type (snd (mem_exec p m q)) = mq_type q /\ mr_opq (snd (mem_exec p m q)) = mq_opq q.
Proof.
  intros. unfold mem_exec. destruct (mq_type q =? T_READ); auto. destruct (mq_type q =? T_WRITE); auto.
Qed.

Lemma amo_fun_lt : forall t m a, m < 2 ^ 32 -> a < 2 ^ 32 -> amo_fun t m a < 2 ^ 32.
Proof.
  intros t m a M A. unfold amo_fun.
  assert (B : forall z, (forall i, 32 <= i -> N.testbit z i = false) -> z < 2 ^ 32).
  { intros z H. apply lt_pow2_bits; auto. }
  assert (HM : forall i, 32 <= i -> N.testbit m i = false) by (intros; eapply testbit_high; eauto).
  assert (HA : forall i, 32 <= i -> N.testbit a i = false) by (intros; eapply testbit_high; eauto).
  repeat match goal with |- (if ?b then _ else _) < _ => destruct b end; auto.
  - apply trunc_lt.
  - apply B. intros. rewrite N.land_spec, HM; auto.
  - apply B. intros. rewrite N.lor_spec, HM, HA; auto.
  - apply N.min_lt_iff. auto.
  - apply N.max_lub_lt; auto.
  - apply B. intros. rewrite N.lxor_spec, HM, HA; auto.
Qed.

(** ** Meaning of the AMO functions, by their names *)
(** two's complement value of a 32-bit word *)
Definition signed32 (x : N) : Z := if x <? 2 ^ 31 then Z.of_N x else (Z.of_N x - 2 ^ 32)%Z.
Definition amo_meaning (t old arg new : N) : Prop :=
  (t = T_AMO_ADD -> new = (old + arg) mod 2 ^ 32) /\
  (t = T_AMO_AND -> forall i, N.testbit new i = N.testbit old i && N.testbit arg i) /\
  (t = T_AMO_OR -> forall i, N.testbit new i = N.testbit old i || N.testbit arg i) /\
  (t = T_AMO_XOR -> forall i, N.testbit new i = xorb (N.testbit old i) (N.testbit arg i)) /\
  (t = T_AMO_SWAP -> new = arg) /\
  (t = T_AMO_MIN -> (new = old \/ new = arg) /\ (signed32 new <= signed32 old)%Z /\ (signed32 new <= signed32 arg)%Z) /\
  (t = T_AMO_MAX -> (new = old \/ new = arg) /\ (signed32 old <= signed32 new)%Z /\ (signed32 arg <= signed32 new)%Z) /\
  (t = T_AMO_MINU -> (new = old \/ new = arg) /\ new <= old /\ new <= arg) /\
  (t = T_AMO_MAXU -> (new = old \/ new = arg) /\ old <= new /\ arg <= new).
Lemma signed32_sint : forall x, x < 2 ^ 32 -> sint32 x = signed32 x.
Proof.
  intros x X. unfold sint32, signed32. destruct (N.ltb_spec x (2 ^ 31)) as [H|H].
  - rewrite (testbit_high 31 x 31) by (auto; lia). auto.
  - assert (E : N.testbit x 31 = true).
    { rewrite N.testbit_eqb. apply N.eqb_eq. assert (Q : x / 2 ^ 31 = 1); [|rewrite Q; reflexivity].
      symmetry. apply (N.div_unique x (2 ^ 31) 1 (x - 2 ^ 31)); [|lia]. change (2 ^ 32) with (2 * 2 ^ 31) in X. lia. }
    rewrite E. auto.
Qed.
Theorem amo_fun_meaning : forall t m a, m < 2 ^ 32 -> a < 2 ^ 32 -> amo_meaning t m a (amo_fun t m a).
Proof.
  intros t m a M A. unfold amo_meaning.
  assert (SM : sint32 m = signed32 m) by (apply signed32_sint; auto). assert (SA : sint32 a = signed32 a) by (apply signed32_sint; auto).
  split; [intros ->; apply trunc_mod|].
  split; [intros ->; apply N.land_spec|].
  split; [intros ->; apply N.lor_spec|].
  split; [intros ->; apply N.lxor_spec|].
  split; [intros ->; reflexivity|].
  split; [intros ->; change (amo_fun T_AMO_MIN m a) with (if (sint32 m <? sint32 a)%Z then m else a); rewrite SM, SA;
          destruct (Z.ltb_spec (signed32 m) (signed32 a)); repeat split; auto; lia|].
  split; [intros ->; change (amo_fun T_AMO_MAX m a) with (if (sint32 a <? sint32 m)%Z then m else a); rewrite SM, SA;
          destruct (Z.ltb_spec (signed32 a) (signed32 m)); repeat split; auto; lia|].
  split; intros ->.
  - change (amo_fun T_AMO_MINU m a) with (N.min m a). destruct (N.min_spec m a) as [[H E]|[H E]]; rewrite E; repeat split; auto; lia.
  - change (amo_fun T_AMO_MAXU m a) with (N.max m a). destruct (N.max_spec m a) as [[H E]|[H E]]; rewrite E; repeat split; auto; lia.
Qed.
Theorem exec_amo_meaning : forall p m q, T_AMO_ADD <= mq_type q -> let m' := fst (mem_exec p m q) in
  let old := mr_data (snd (mem_exec p m q)) in
  old < 2 ^ 32 /\ (forall k, k < 4 -> byte old k = m (mq_addr q + k) mod 256) /\
  (exists new, new < 2 ^ 32 /\ amo_meaning (mq_type q) old (mq_data q mod 2 ^ 32) new /\ forall k, k < 4 -> m' (mq_addr q + k) = byte new k) /\
  (forall a, a < mq_addr q \/ mq_addr q + 4 <= a -> m' a = m a).
Proof.
  intros p m q T m' old. destruct (exec_amo p m q T) as (A & B & C & D). repeat split; auto.
  exists (amo_fun (mq_type q) old (mq_data q mod 2 ^ 32)).
  assert (L : mq_data q mod 2 ^ 32 < 2 ^ 32) by (apply N.mod_lt; discriminate). split; [apply amo_fun_lt; auto|].
  split; [apply amo_fun_meaning; auto|exact C].
Qed.
