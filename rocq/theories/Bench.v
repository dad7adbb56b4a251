(** The repository's random test benches: blocking_cache/test/HypothesisTest.py,
    blocking_cache/test/RandomTestCases.py and their helpers in test/sim_utils.py. *)
From Coq Require Import PeanoNat NArith List Bool Lia.
From Verif Require Import Bits Params Msg Rtl Mem Spec System ParamsProofs ViewDefs Progress Fl FlProofs FlModel.
Import ListNotations.
Open Scope N_scope.

(** rand_mem (sim_utils.py 105-117): words at lo, lo+4, .. up to hi; [w j] is the
    j-th random number *)
Definition rand_mem (lo hi : N) (w : nat -> N) : list (N * N) :=
  map (fun j => (lo + 4 * N.of_nat j, w j)) (seq 0 (if lo <=? hi then S (N.to_nat ((hi - lo) / 4)) else 0)).

(** Everything drawn for one transaction (HypothesisTest.py 21-76, RandomTestCases.py
    53-78): type, data, address, logarithm of the length. *)
Record draw := mkDraw { d_type : N; d_data : N; d_addr : N; d_order : N }.
Definition is_amo_t (t : N) : bool := (T_AMO_ADD <=? t) && (t <=? T_AMO_XOR).

(** The values that can be drawn: one of the 13 types of the lists (HypothesisTest.py
    23-58, RandomTestCases.py 38-51); data below 2^32; lo <= addr <= hi; order at most 2
    for a WRITE, else up to the data width (72-75, resp. 73-76) *)
Definition drawable (p : params) (lo hi : N) (d : draw) : Prop :=
  In (d_type d) [T_READ; T_WRITE; T_AMO_ADD; T_AMO_AND; T_AMO_OR; T_AMO_SWAP; T_AMO_MIN; T_AMO_MINU;
                 T_AMO_MAX; T_AMO_MAXU; T_AMO_XOR; T_INV; T_FLUSH] /\
  d_data d <= 0xffffffff /\ lo <= d_addr d <= hi /\
  d_order d <= (if d_type d =? T_WRITE then 2 else clog2 (p_dbw p / 8)).

(** Alignment by masking (HypothesisTest.py 77-86, RandomTestCases.py 78-87) *)
Definition mask_addr (len a : N) : N :=
  if len =? 2 then N.land a 0xfffffffe else if len =? 4 then N.land a 0xfffffffc
  else if len =? 8 then N.land a 0xfffffff8 else if len =? 16 then N.land a 0xfffffff0
  else if len =? 32 then N.land a 0xffffffe0 else a.

(** gen_reqs (HypothesisTest.py 59-90) and the loop body of random_test_generator
    (RandomTestCases.py 57-91): the call of the model made for a draw, with opaque
    [o] (HypothesisTest.py 113-128, gen_req_resp in sim_utils.py 78-103). *)
Definition bench_call (p : params) (o : N) (d : draw) : fcall :=
  let t := d_type d in let data := trunc (p_dbw p) (d_data d) in
  if t =? T_INV then FInv o else if t =? T_FLUSH then FFlush o
  else if is_amo_t t then
    FAmo (N.land (d_addr d) 0xfffffffc) data o (trunc (lenw p) (if p_dbw p =? 32 then 0 else 4)) t
  else let len := 2 ^ d_order d in let a := mask_addr len (d_addr d) in
       if t =? T_WRITE then FWrite a data o (trunc (lenw p) len)
       else FRead a o (trunc (lenw p) len).

(** The opaque of the i-th transaction is [o i]; building the message raises unless
    it fits the field. *)
Definition bench_ok (p : params) (os : list N) : bool := forallb (fun o => o <? 2 ^ p_obw p) os.
Definition bench (p : params) (init : list (N * N)) (os : list N) (ds : list draw) : option (list (creq * cresp)) :=
  if bench_ok p os then
    match fl_calls (p_num_bytes p) (p_assoc p) 0 p (fl0 (p_num_bytes p) (p_assoc p) 0 p init)
            (map (fun od => bench_call p (fst od) (snd od)) (combine os ds)) with
    | Some (_, xs) => Some xs
    | None => None
    end
  else None.

(** hypothesis_test_harness (HypothesisTest.py 96-135): opaque = position *)
Definition hyp_params (assoc clw dbw blocks : N) : params := mkParams (clw * assoc * blocks / 8) assoc clw 32 8 dbw.
Definition hyp_max (p : params) : N := p_num_bytes p / 4 * 2 * p_assoc p.
Definition hyp_bench (p : params) (w : nat -> N) (ds : list draw) : option (list (creq * cresp)) :=
  bench p (rand_mem 0 (hyp_max p) w) (map N.of_nat (seq 0 (length ds))) ds.
(** random_test_generator (RandomTestCases.py 33-95): opaque = position mod 256,
    memory 0 .. 0xffff *)
Definition rnd_max (p : params) : N := p_num_bytes p / 4 * 3 * p_assoc p.
Definition rnd_bench (p : params) (w : nat -> N) (ds : list draw) : option (list (creq * cresp)) :=
  bench p (rand_mem 0 0xffff w) (map (fun i => trunc 8 (N.of_nat i)) (seq 0 (length ds))) ds.

(** ** The generated requests are supported, and the model raises no exception *)

Lemma land_mask : forall k a, k <= 32 -> a < 2 ^ 32 -> N.land a (N.shiftl (N.ones (32 - k)) k) = a - a mod 2 ^ k.
Proof.
  intros k a K A. assert (E : a - a mod 2 ^ k = N.ldiff a (N.ones k)).
  { rewrite N.ldiff_ones_r, N.shiftr_div_pow2, N.shiftl_mul_pow2.
    pose proof (N.div_mod a (2 ^ k) (N.pow_nonzero 2 k ltac:(lia))) as D. rewrite N.mul_comm.
    set (u := 2 ^ k * (a / 2 ^ k)) in *. set (v := a mod 2 ^ k) in *. clearbody u v. lia. }
  rewrite E. apply N.bits_inj; intro i. rewrite N.land_spec, N.ldiff_spec, testbit_ones. destruct (N.ltb_spec i k).
  - rewrite N.shiftl_spec_low by lia. auto.
  - rewrite N.shiftl_spec_high' by lia. rewrite testbit_ones. destruct (N.ltb_spec (i - k) (32 - k)); cbn [negb]; auto.
    rewrite (testbit_high 32 a i) by lia. auto.
Qed.
Lemma mask_mod : forall o a, o <= 4 -> a < 2 ^ 32 -> mask_addr (2 ^ o) a = a - a mod 2 ^ o.
Proof.
  intros o a O A. assert (C : o = 0 \/ o = 1 \/ o = 2 \/ o = 3 \/ o = 4) by lia.
  destruct C as [->|[->|[->|[->| ->]]]]; unfold mask_addr; cbn [N.pow N.eqb Pos.pow Pos.eqb Pos.iter Pos.mul].
  - rewrite N.mod_1_r. lia.
  - exact (land_mask 1 a ltac:(lia) A).
  - exact (land_mask 2 a ltac:(lia) A).
  - exact (land_mask 3 a ltac:(lia) A).
  - exact (land_mask 4 a ltac:(lia) A).
Qed.
Lemma sub_mod_aligned : forall a n, n <> 0 -> (a - a mod n) mod n = 0 /\ a - a mod n <= a.
Proof.
  intros a n N0. split; [|apply N.le_sub_l]. pose proof (N.div_mod a n N0) as D. assert (E : a - a mod n = a / n * n).
  { rewrite (N.mul_comm (a / n)). set (u := n * (a / n)) in *. set (v := a mod n) in *. clearbody u v. lia. }
  rewrite E. apply N.mod_mul. auto.
Qed.

Section B.
Variable p : params.
Hypothesis W : wf_params p.
Hypothesis A32 : p_abw p = 32.

Lemma order4 : clog2 (p_dbw p / 8) <= 4 /\ p_dbw p / 8 = 2 ^ clog2 (p_dbw p / 8) /\ 2 <= clog2 (p_dbw p / 8).
Proof. destruct (wf_dbw p W) as [-> | [-> | ->]]; vm_compute; repeat split; discriminate. Qed.

(** length field of a power-of-two access *)
Lemma len_pow : forall o, o <= lenw p ->
  (if trunc (lenw p) (2 ^ o) =? 0 then p_dbw p / 8 else trunc (lenw p) (2 ^ o)) = 2 ^ o /\ trunc (lenw p) (2 ^ o) < 2 ^ lenw p /\ trunc (lenw p) (2 ^ o) <> 3.
Proof.
  intros o O. unfold lenw in *. destruct order4 as (H4 & D & _). set (k := clog2 (p_dbw p / 8)) in *. rewrite D. clearbody k.
  assert (C : k = 0 \/ k = 1 \/ k = 2 \/ k = 3 \/ k = 4) by lia.
  assert (C' : o = 0 \/ o = 1 \/ o = 2 \/ o = 3 \/ o = 4) by lia.
  destruct C as [->|[->|[->|[->| ->]]]], C' as [->|[->|[->|[->| ->]]]]; try lia; vm_compute; repeat split; discriminate.
Qed.

Definition good (c : fcall) (d : draw) : Prop :=
  fcall_addr c <= d_addr d /\ no_double c /\
  match c with
  | FRead a _ len => len < 2 ^ lenw p /\ exists o, o <= 4 /\ fl_n p len = 2 ^ o /\ fl_n p len <= p_dbw p / 8 /\ a mod 2 ^ o = 0
  | FWrite a _ _ len => len < 2 ^ lenw p /\ exists o, o <= 2 /\ fl_n p len = 2 ^ o /\ fl_n p len <= p_dbw p / 8 /\ a mod 2 ^ o = 0
  | FAmo a _ _ len f => len < 2 ^ lenw p /\ (p_dbw p = 32 \/ len = 4) /\ is_amo_t f = true /\ a mod 4 = 0
  | FInit _ _ _ _ => False
  | _ => True
  end.
Lemma types : forall t, In t [T_READ; T_WRITE; T_AMO_ADD; T_AMO_AND; T_AMO_OR; T_AMO_SWAP; T_AMO_MIN; T_AMO_MINU;
                 T_AMO_MAX; T_AMO_MAXU; T_AMO_XOR; T_INV; T_FLUSH] ->
  t = T_INV \/ t = T_FLUSH \/ is_amo_t t = true \/ t = T_WRITE \/ t = T_READ.
Proof. intros t H. cbn [In] in H. repeat destruct H as [<-|H]; auto; try tauto; right; right; left; reflexivity. Qed.
Lemma amo_t_not : forall t, is_amo_t t = true -> (t =? T_INV) = false /\ (t =? T_FLUSH) = false.
Proof.
  intros t H. unfold is_amo_t, T_AMO_ADD, T_AMO_XOR in H. apply andb_prop in H. destruct H as [H1 H2].
  apply N.leb_le in H1, H2. unfold T_INV, T_FLUSH. split; apply N.eqb_neq; lia.
Qed.

Lemma bench_good : forall hi o d, hi < 2 ^ 31 -> drawable p 0 hi d -> good (bench_call p o d) d.
Proof.
  intros hi o d HI (T & _ & A & O). assert (L : d_addr d < 2 ^ 32) by (change (2 ^ 32) with (2 * 2 ^ 31); lia).
  destruct order4 as (K4 & KD & K2). unfold good, bench_call.
  destruct (types _ T) as [E|[E|[E|[E|E]]]].
  - rewrite E. cbn. repeat split; lia.
  - rewrite E. cbn. repeat split; lia.
  - destruct (amo_t_not _ E) as [-> ->]. rewrite E. cbn [fcall_addr no_double].
    change 0xfffffffc with (N.shiftl (N.ones (32 - 2)) 2). rewrite land_mask by (auto; lia).
    destruct (sub_mod_aligned (d_addr d) (2 ^ 2) ltac:(discriminate)) as [M1 M2].
    split; [auto|]. split; [exact I|]. split; [apply trunc_lt|]. split; [|auto].
    unfold lenw. destruct (wf_dbw p W) as [-> | [-> | ->]]; vm_compute; auto.
  - rewrite E in *. change (T_WRITE =? T_WRITE) with true in O. cbv iota in O. change (T_WRITE =? T_INV) with false. change (T_WRITE =? T_FLUSH) with false.
    change (is_amo_t T_WRITE) with false. change (T_WRITE =? T_WRITE) with true. cbv iota. cbn [fcall_addr no_double].
    assert (O4 : d_order d <= 4) by (clear KD; lia). rewrite mask_mod by auto.
    destruct (sub_mod_aligned (d_addr d) (2 ^ d_order d) ltac:(apply N.pow_nonzero; discriminate)) as [M1 M2].
    assert (OL : d_order d <= lenw p) by (unfold lenw; clear KD; lia).
    destruct (len_pow (d_order d) OL) as (P1 & P2 & P3).
    split; [auto|]. split; [auto|]. split; [auto|]. exists (d_order d). unfold fl_n. rewrite P1. repeat split; auto.
    rewrite KD. apply N.pow_le_mono_r; [discriminate|exact OL].
  - rewrite E in *. change (T_READ =? T_WRITE) with false in O. cbv iota in O. change (T_READ =? T_INV) with false. change (T_READ =? T_FLUSH) with false.
    change (is_amo_t T_READ) with false. change (T_READ =? T_WRITE) with false. cbv iota. cbn [fcall_addr no_double].
    assert (O4 : d_order d <= 4) by (clear KD; lia). rewrite mask_mod by auto.
    destruct (sub_mod_aligned (d_addr d) (2 ^ d_order d) ltac:(apply N.pow_nonzero; discriminate)) as [M1 M2].
    assert (OL : d_order d <= lenw p) by (unfold lenw; clear KD; lia).
    destruct (len_pow (d_order d) OL) as (P1 & P2 & P3).
    split; [auto|]. split; [auto|]. split; [auto|]. exists (d_order d). unfold fl_n. rewrite P1. repeat split; auto.
    rewrite KD. apply N.pow_le_mono_r; [discriminate|exact OL].
Qed.

(** aligned power-of-two accesses stay inside the line *)
Lemma fits_al : forall a o, o <= 4 -> 2 ^ o <= p_dbw p / 8 -> a mod 2 ^ o = 0 -> a < 2 ^ 32 -> fits p (fl_off p a) (2 ^ o) = true.
Proof.
  intros a o O D M A. pose proof (clw_bytes p W) as LB. pose proof (wf_dc p W) as DC.
  pose proof (wf_abw p W) as AB. rewrite A32 in AB.
  assert (OE : o <= offw p).
  { assert (X : 2 ^ o <= 2 ^ offw p) by (rewrite <- LB; etransitivity; [exact D|apply N.div_le_mono; [discriminate|auto]]).
    apply N.pow_le_mono_r_iff in X; auto; lia. }
  assert (E32 : offw p <= 32) by (clear - AB; lia).
  unfold fits. rewrite (foff p (offw p) LB E32). rewrite LB.
  assert (P : 0 < 2 ^ o) by (apply N.neq_0_lt_0, N.pow_nonzero; discriminate). rewrite (proj2 (N.ltb_lt 0 (2 ^ o)) P). cbn [andb].
  apply N.leb_le.
  assert (E : 2 ^ offw p = 2 ^ (offw p - o) * 2 ^ o) by (rewrite <- N.pow_add_r; f_equal; lia).
  assert (R : (a mod 2 ^ offw p) mod 2 ^ o = 0).
  { rewrite E. rewrite (N.mul_comm _ (2 ^ o)), N.mod_mul_r by (apply N.pow_nonzero; discriminate).
    rewrite (N.mul_comm (2 ^ o)), N.mod_add by (apply N.pow_nonzero; discriminate). rewrite N.mod_mod by (apply N.pow_nonzero; discriminate). auto. }
  assert (LT : a mod 2 ^ offw p < 2 ^ offw p) by (apply N.mod_lt, N.pow_nonzero; discriminate).
  apply N.mod_divide in R; [|apply N.pow_nonzero; discriminate]. destruct R as [z Z]. rewrite Z in LT |- *. rewrite E in LT |- *.
  set (u := 2 ^ o) in *. set (v := 2 ^ (offw p - o)) in *. clearbody u v. clear - LT P.
  apply N.mul_lt_mono_pos_r in LT; auto. nia.
Qed.

Definition covered (hi : N) (s : fl) : Prop := forall a, a <= hi -> fl_mem s (fl_line p a) <> None.
Lemma cov_upd : forall hi s t k v, covered hi s -> covered hi (mkFl t (upd (fl_mem s) k (Some v))).
Proof. intros hi s t k v C a A. cbn [fl_mem]. unfold upd. destruct (N.eqb_spec (fl_line p a) k); [discriminate|auto]. Qed.

Lemma good_call : forall hi s c d, hi < 2 ^ 31 -> d_addr d <= hi -> covered hi s -> good c d ->
  exists s' x, fl_call (p_num_bytes p) (p_assoc p) 0 p s c = Some (s', x) /\ covered hi s' /\ wf_req p (fst x).
Proof.
  intros hi s c d HI AD CV (CA & ND & G).
  assert (C31 : fcall_addr c < 2 ^ 31) by lia.
  assert (C32 : fcall_addr c < 2 ^ 32) by (change (2 ^ 32) with (2 * 2 ^ 31); lia).
  destruct c as [a opq len|a v opq len|a v opq len|a v opq len f|opq|opq]; cbn [fcall_addr fl_call] in *.
  - destruct G as (GL & o & O4 & E & D & M). destruct (access _ _ _) as [t hit]. rewrite E in *.
    rewrite fits_al by auto. rewrite (proj2 (N.leb_le _ _) D). cbn [andb]. do 2 eexists. split; [reflexivity|]. split; [apply cov_upd; auto|].
    cbn [fst]. split; [cbn; rewrite A32; auto|]. split; [exact GL|]. left. split; [reflexivity|].
    assert (RB : req_bytes p (mkCReq T_READ opq a len 0) = 2 ^ o) by (rewrite <- E; reflexivity).
    rewrite RB. split; [|exact M]. assert (C : o = 0 \/ o = 1 \/ o = 2 \/ o = 3 \/ o = 4) by lia.
    unfold pow2_size. destruct C as [->|[->|[->|[->| ->]]]]; cbn; tauto.
  - destruct G as (GL & o & O4 & E & D & M). destruct (access _ _ _) as [t hit]. rewrite E in *.
    rewrite fits_al by (auto; lia). rewrite (proj2 (N.leb_le _ _) D). cbn [andb]. do 2 eexists. split; [reflexivity|]. split; [apply cov_upd; auto|].
    cbn [fst]. split; [cbn; rewrite A32; auto|]. split; [exact GL|]. right; left. split; [reflexivity|].
    assert (RB : req_bytes p (mkCReq T_WRITE opq a len (trunc (p_dbw p) v)) = 2 ^ o).
    { rewrite <- E. unfold req_bytes, fl_n. cbn [cq_type cq_len]. cbn [no_double] in ND.
      destruct (N.eqb_spec len 3); [contradiction|]. rewrite ?andb_false_r. reflexivity. }
    rewrite RB. split; [exact M|]. assert (C : o = 0 \/ o = 1 \/ o = 2) by lia.
    destruct C as [->|[->| ->]]; cbn; tauto.
  - contradiction.
  - destruct G as (GL & G4 & GF & M). pose proof (CV a ltac:(lia)) as NN. destruct (fl_mem s (fl_line p a)) as [L|]; [|contradiction].
    change 4 with (2 ^ 2) in M. change (fits p (fl_off p a) 4) with (fits p (fl_off p a) (2 ^ 2)).
    rewrite fits_al; auto; [|discriminate|].
    2:{ destruct (order4) as (_ & KD & K2). rewrite KD. apply N.pow_le_mono_r; [discriminate|exact K2]. }
    unfold is_amo_t in GF. apply andb_prop in GF. destruct GF as [F1 F2]. rewrite F1, F2.
    rewrite (testbit_high 31 a 31) by (auto; lia). cbn [negb andb]. do 2 eexists. split; [reflexivity|]. split; [apply cov_upd; auto|].
    cbn [fst]. split; [cbn; rewrite A32; auto|]. split; [exact GL|]. right; right; left. 
    apply N.leb_le in F1, F2. repeat split; auto.
  - do 2 eexists. split; [reflexivity|]. split; [exact CV|]. cbn [fst]. split; [cbn; rewrite A32; reflexivity|].
    split; [cbn; apply N.neq_0_lt_0, N.pow_nonzero; discriminate|]. right; right; right; left; reflexivity.
  - do 2 eexists. split; [reflexivity|]. split; [exact CV|]. cbn [fst]. split; [cbn; rewrite A32; reflexivity|].
    split; [cbn; apply N.neq_0_lt_0, N.pow_nonzero; discriminate|]. right; right; right; right; reflexivity.
Qed.

Lemma good_calls : forall hi os ds s, hi < 2 ^ 31 -> covered hi s -> Forall (drawable p 0 hi) ds ->
  exists s' xs, fl_calls (p_num_bytes p) (p_assoc p) 0 p s (map (fun od => bench_call p (fst od) (snd od)) (combine os ds)) = Some (s', xs) /\
    length xs = length (combine os ds) /\ Forall (wf_req p) (map fst xs) /\
    Forall no_double (map (fun od => bench_call p (fst od) (snd od)) (combine os ds)).
Proof.
  intros hi os. induction os as [|o os IH]; intros ds s HI CV F.
  - cbn. do 2 eexists. split; [reflexivity|]. repeat split; constructor.
  - destruct F as [|d ds D F]; cbn [combine map fl_calls]; [do 2 eexists; split; [reflexivity|]; repeat split; constructor|]. cbn [fst snd].
    pose proof (bench_good hi o d HI D) as G. destruct D as (_ & _ & [_ D] & _).
    destruct (good_call hi s (bench_call p o d) d HI D CV G) as (s1 & x & E & CV1 & WX). rewrite E.
    destruct (IH ds s1 HI CV1 F) as (s2 & xs & E2 & LX & WXS & NDS). rewrite E2. do 2 eexists. split; [reflexivity|].
    cbn [length map]. split; [lia|]. split; constructor; auto. apply G.
Qed.

(** every line up to the end of the initial contents is in the dictionary *)
Lemma load_some : forall init m k, m k <> None -> fold_left (fl_load p) init m k <> None.
Proof.
  induction init as [|[a v] l IH]; intros m k H; cbn [fold_left]; auto. apply IH. cbn [fl_load]. unfold upd.
  destruct (k =? fl_line p a); [discriminate|auto].
Qed.
Lemma load_in : forall init m a v, In (a, v) init -> fold_left (fl_load p) init m (fl_line p a) <> None.
Proof.
  induction init as [|[a' v'] l IH]; intros m a v H; [contradiction|]. cbn [fold_left]. destruct H as [E|H]; [|eauto].
  injection E as <- <-. apply load_some. cbn [fl_load]. unfold upd. rewrite N.eqb_refl. discriminate.
Qed.
Lemma rand_in : forall hi w a, a <= hi -> In (4 * (a / 4), w (N.to_nat (a / 4))) (rand_mem 0 hi w).
Proof.
  intros hi w a A. unfold rand_mem. rewrite (proj2 (N.leb_le 0 hi) (N.le_0_l hi)). apply in_map_iff. exists (N.to_nat (a / 4)).
  rewrite N2Nat.id, N.add_0_l. split; auto. apply in_seq. rewrite N.sub_0_r.
  assert (X : a / 4 <= hi / 4) by (apply N.div_le_mono; [discriminate|auto]).
  set (q := a / 4) in *. set (q' := hi / 4) in *. clearbody q q'. lia.
Qed.
Lemma rand_cover : forall hi hi' w, hi <= hi' -> hi < 2 ^ 31 -> covered hi (fl0 (p_num_bytes p) (p_assoc p) 0 p (rand_mem 0 hi' w)).
Proof.
  intros hi hi' w H H31 a A. unfold fl0. cbn [fl_mem].
  pose proof (clw_bytes p W) as LB. pose proof (offw_ge3 p W) as G3. pose proof (wf_abw p W) as AB. rewrite A32 in AB.
  assert (E32 : offw p <= 32) by (clear - AB; lia).
  assert (A2 : a < 2 ^ 32) by (change (2 ^ 32) with (2 * 2 ^ 31); lia).
  assert (E : fl_line p a = fl_line p (4 * (a / 4))).
  { pose proof (N.mul_div_le a 4 ltac:(discriminate)) as ML.
    assert (A4 : 4 * (a / 4) < 2 ^ 32) by (eapply N.le_lt_trans; [exact ML|auto]).
    rewrite (fline p (offw p) LB E32 a A2), (fline p (offw p) LB E32 _ A4).
    replace (2 ^ offw p) with (4 * 2 ^ (offw p - 2)) by (change 4 with (2 ^ 2); rewrite <- N.pow_add_r; f_equal; clear - G3; lia).
    rewrite <- !N.div_div by (try discriminate; apply N.pow_nonzero; discriminate). f_equal.
    rewrite N.mul_comm, N.div_mul by discriminate. auto. }
  rewrite E. eapply load_in. apply rand_in. clear - A H. lia.
Qed.
Lemma rand_ok : forall hi w, hi < 2 ^ 31 -> Forall (fun av => fst av < 2 ^ 32 /\ fst av mod 4 = 0) (rand_mem 0 hi w).
Proof.
  intros hi w H. unfold rand_mem. rewrite (proj2 (N.leb_le 0 hi) (N.le_0_l hi)). apply Forall_forall. intros [a v] I.
  apply in_map_iff in I. destruct I as (j & E & J). injection E as <- <-. apply in_seq in J. cbn [fst].
  rewrite N.sub_0_r in J. split.
  - pose proof (N.mul_div_le hi 4 ltac:(discriminate)) as ML. set (q := hi / 4) in *. clearbody q. 
    assert (X : 0 + 4 * N.of_nat j < 2 * 2 ^ 31) by lia. exact X.
  - change ((0 + 4 * N.of_nat j) mod 4 = 0). rewrite N.add_0_l, N.mul_comm. apply N.mod_mul. discriminate.
Qed.

(** No exception, supported requests, and agreement with the RTL cache. *)
Theorem bench_sound : forall hi hi' w os ds, hi <= hi' -> hi' < 2 ^ 31 -> Forall (drawable p 0 hi) ds -> length os = length ds ->
  bench_ok p os = true ->
  exists xs, bench p (rand_mem 0 hi' w) os ds = Some xs /\ length xs = length ds /\ Forall (wf_req p) (map fst xs) /\
    forall s0 is m0 m rq rs, sys_run p s0 is m0 m rq rs -> (forall a, a < 2 ^ 32 -> trunc 8 (m0 a) = trunc 8 (load_words (rand_mem 0 hi' w) a)) ->
      (exists rest, map fst xs = accepted (trace_of p s0 is) ++ rest) ->
      exists rest, map snd xs = responses (trace_of p s0 is) ++ rest.
Proof.
  intros hi hi' w os ds HH H31 F LE BO. unfold bench. rewrite BO.
  destruct (good_calls hi os ds (fl0 (p_num_bytes p) (p_assoc p) 0 p (rand_mem 0 hi' w)) ltac:(lia) (rand_cover hi hi' w HH ltac:(lia)) F)
    as (s' & xs & E & LX & WX & ND).
  rewrite E. exists xs. split; auto. split; [rewrite LX, combine_length; lia|]. split; auto.
  intros s0 is m0 m rq rs R M0 EA. refine (rtl_model p W _ s0 is m0 m rq rs _ _ s' xs R (rand_ok hi' w H31) _ E ND EA).
  - rewrite A32. lia.
  - rewrite A32. auto.
Qed.
End B.

(** ** The configurations of the property-based tests (HypothesisTest.py 137-218) *)
Definition hyp_pairs : list (N * N) := [(64, 32); (64, 64); (128, 32); (128, 64); (128, 128)].
Definition hyp_config (p : params) : Prop :=
  exists assoc clw dbw k, (assoc = 1 \/ assoc = 2) /\ In (clw, dbw) hyp_pairs /\ 1 <= k <= 8 /\ p = hyp_params assoc clw dbw (2 ^ k).
Lemma hyp_ok : forall p, hyp_config p -> wf_params p /\ p_abw p = 32 /\ p_obw p = 8 /\ hyp_max p < 2 ^ 31.
Proof.
  intros p (assoc & clw & dbw & k & A & I & K & ->).
  assert (C : k = 1 \/ k = 2 \/ k = 3 \/ k = 4 \/ k = 5 \/ k = 6 \/ k = 7 \/ k = 8) by lia. clear K.
  split; [|split; [reflexivity|split; [reflexivity|]]].
  - unfold hyp_pairs in I. cbn [In] in I. constructor; cbn [p_assoc p_clw p_dbw p_num_bytes hyp_params p_abw].
    + auto.
    + repeat destruct I as [I|I]; try contradiction; injection I as <- <-; [exists 6|exists 6|exists 7|exists 7|exists 7]; split; (reflexivity || lia).
    + repeat destruct I as [I|I]; try contradiction; injection I as <- <-; auto.
    + repeat destruct I as [I|I]; try contradiction; injection I as <- <-; lia.
    + exists k. split; [lia|].
      repeat destruct I as [I|I]; try contradiction; injection I as <- <-; destruct A as [-> | ->];
        repeat destruct C as [C|C]; subst k; reflexivity.
    + repeat destruct I as [I|I]; try contradiction; injection I as <- <-; destruct A as [-> | ->];
        repeat destruct C as [C|C]; subst k; reflexivity.
  - unfold hyp_pairs in I. cbn [In] in I.
    repeat destruct I as [I|I]; try contradiction; injection I as <- <-; destruct A as [-> | ->];
      repeat destruct C as [C|C]; subst k; reflexivity.
Qed.
Lemma seq_ok : forall (f : nat -> N) p l, (forall i, In i l -> f i < 2 ^ p_obw p) -> bench_ok p (map f l) = true.
Proof. intros f p l H. unfold bench_ok. apply forallb_forall. intros x X. apply in_map_iff in X. destruct X as (i & <- & I). apply N.ltb_lt. auto. Qed.

(** ** The tests pass *)
Definition passes (p : params) (init : list (N * N)) (xs : list (creq * cresp)) : Prop :=
  forall s0 is m0 m rq rs, sys_run p s0 is m0 m rq rs ->
    (forall a, a < 2 ^ 32 -> trunc 8 (m0 a) = trunc 8 (load_words init a)) ->
    (exists rest, map fst xs = accepted (trace_of p s0 is) ++ rest) ->
    exists rest, map snd xs = responses (trace_of p s0 is) ++ rest.
Theorem hyp_sound : forall p w ds, hyp_config p -> (length ds <= 200)%nat -> Forall (drawable p 0 (hyp_max p)) ds ->
  exists xs, hyp_bench p w ds = Some xs /\ length xs = length ds /\ Forall (wf_req p) (map fst xs) /\
    passes p (rand_mem 0 (hyp_max p) w) xs.
Proof.
  intros p w ds HC L F. destruct (hyp_ok p HC) as (W & A32 & O8 & HM).
  refine (bench_sound p W A32 (hyp_max p) (hyp_max p) w _ ds (N.le_refl _) HM F _ _).
  - rewrite map_length, seq_length. auto.
  - apply seq_ok. intros i I. apply in_seq in I. rewrite O8. change (2 ^ 8) with 256. lia.
Qed.
Theorem rnd_sound : forall p w ds, wf_params p -> p_abw p = 32 -> p_obw p = 8 -> rnd_max p <= 0xffff ->
  Forall (drawable p 0 (rnd_max p)) ds ->
  exists xs, rnd_bench p w ds = Some xs /\ length xs = length ds /\ Forall (wf_req p) (map fst xs) /\
    passes p (rand_mem 0 0xffff w) xs.
Proof.
  intros p w ds W A32 O8 HM F.
  refine (bench_sound p W A32 (rnd_max p) 0xffff w _ ds HM eq_refl F _ _).
  - rewrite map_length, seq_length. auto.
  - apply seq_ok. intros i _. rewrite O8. apply trunc_lt.
Qed.
(** all requests sent, then enough cycles: exactly the expected responses *)
Theorem passes_all : forall p init xs, wf_params p -> passes p init xs ->
  forall s0 is is2 m0 m rq rs, sys_run p s0 (is ++ is2) m0 m rq rs ->
  (forall a, a < 2 ^ 32 -> trunc 8 (m0 a) = trunc 8 (load_words init a)) ->
  accepted (trace_of p s0 is) = map fst xs -> accepted (trace_of p s0 (is ++ is2)) = map fst xs ->
  (2 * N.to_nat (5 * total_lines p + 3) <= productive_cycles (trace_of p s0 is) (trace_of p (fst (run p s0 is)) is2))%nat ->
  responses (trace_of p s0 (is ++ is2)) = map snd xs.
Proof.
  intros p init xs W P s0 is is2 m0 m rq rs R M0 A1 A2 PC.
  destruct (P s0 (is ++ is2) m0 m rq rs R M0) as [rest E]; [exists []; rewrite app_nil_r; auto|].
  pose proof (sys_progress p W is is2 s0 m0 m rq rs R PC) as L. rewrite A1, map_length in L.
  pose proof (f_equal (@length _) E) as EL. rewrite map_length, app_length in EL.
  destruct rest; [rewrite app_nil_r in E; auto|]. cbn [length] in EL. lia.
Qed.
Theorem hyp_passes : forall p w ds xs, hyp_config p -> (length ds <= 200)%nat ->
  Forall (drawable p 0 (hyp_max p)) ds -> hyp_bench p w ds = Some xs ->
  forall s0 is is2 m0 m rq rs, sys_run p s0 (is ++ is2) m0 m rq rs ->
  (forall a, a < 2 ^ 32 -> trunc 8 (m0 a) = trunc 8 (load_words (rand_mem 0 (hyp_max p) w) a)) ->
  accepted (trace_of p s0 is) = map fst xs -> accepted (trace_of p s0 (is ++ is2)) = map fst xs ->
  (2 * N.to_nat (5 * total_lines p + 3) <= productive_cycles (trace_of p s0 is) (trace_of p (fst (run p s0 is)) is2))%nat ->
  responses (trace_of p s0 (is ++ is2)) = map snd xs.
Proof.
  intros p w ds xs HC L F E. destruct (hyp_sound p w ds HC L F) as (xs' & E' & _ & _ & P). rewrite E in E'. injection E' as <-.
  exact (passes_all p _ xs (proj1 (hyp_ok p HC)) P).
Qed.
