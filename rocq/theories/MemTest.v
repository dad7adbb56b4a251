(** C75: ports that use different addresses do not notice each other, and the tests of
    test/MemoryCL_test.py are right. *)
From Coq Require Import Arith NArith List Bool Lia.
From Verif Require Import Bits Params Msg Mem MultiSys ViewDefs MultiAmo DynMore MemTestSpec.
Import ListNotations.
Open Scope N_scope.

Section Ports.
Variable dw : N.
Variable Z : nat -> N -> Prop.
Hypothesis APART : forall i j a, i <> j -> Z i a -> Z j a -> False.

Lemma plain_ext : forall (P : N -> Prop) m m' q, (forall a, P a -> m a = m' a) -> within dw P q ->
  snd (plain_exec dw m q) = snd (plain_exec dw m' q) /\ forall a, P a -> fst (plain_exec dw m q) a = fst (plain_exec dw m' q) a.
Proof.
  intros P m m' q AG WI. unfold within in WI. unfold plain_exec. cbv zeta.
  destruct (mq_type q =? T_READ) eqn:TR; [|destruct (mq_type q =? T_WRITE) eqn:TW]; cbn [orb] in WI; cbn [fst snd].
  - split; auto. f_equal. apply rd_ext. intros k K. rewrite N2Nat.id in K. rewrite AG; auto.
  - split; auto. intros a Pa. unfold wr_bytes. rewrite AG; auto.
  - assert (E : rd_bytes m (mq_addr q) 4 = rd_bytes m' (mq_addr q) 4).
    { apply rd_ext. intros k K. rewrite AG; auto. }
    rewrite E. split; auto. intros a Pa. unfold wr_bytes. rewrite AG; auto.
Qed.
Lemma plain_out : forall (P : N -> Prop) m q a, within dw P q -> ~ P a -> fst (plain_exec dw m q) a = m a.
Proof.
  intros P m q a WI NP. unfold within in WI. unfold plain_exec. cbv zeta.
  assert (O : forall n d, (forall k, k < N.of_nat n -> P (mq_addr q + k)) -> wr_bytes m (mq_addr q) n d a = m a).
  { intros n d H. unfold wr_bytes. destruct (N.leb_spec (mq_addr q) a); auto. destruct (N.ltb_spec a (mq_addr q + N.of_nat n)); auto.
    exfalso. apply NP. replace a with (mq_addr q + (a - mq_addr q)) by lia. apply H. lia. }
  destruct (mq_type q =? T_READ) eqn:TR; [|destruct (mq_type q =? T_WRITE) eqn:TW]; cbn [orb] in WI; cbn [fst].
  - auto.
  - apply O. intros k K. rewrite N2Nat.id in K. auto.
  - apply O. auto.
Qed.
Lemma run_app : forall qs m qs', plain_run dw m (qs ++ qs') = plain_run dw m qs ++ plain_run dw (plain_end dw m qs) qs'.
Proof. induction qs as [|q qs IH]; intros m qs'; cbn; auto. rewrite IH. auto. Qed.
Lemma end_app : forall qs m qs', plain_end dw m (qs ++ qs') = plain_end dw (plain_end dw m qs) qs'.
Proof. intros. unfold plain_end. apply fold_left_app. Qed.
Lemma arrived_app : forall i h h', arrived i (h ++ h') = arrived i h ++ arrived i h'.
Proof. intros. unfold arrived. apply flat_map_app. Qed.
Lemma delivered_app : forall i h h', delivered i (h ++ h') = delivered i h ++ delivered i h'.
Proof. intros. unfold delivered. apply flat_map_app. Qed.

Lemma ports_inv : forall m0 h m rq rs, pmem dw m0 h m rq rs -> (forall i, Forall (within dw (Z i)) (arrived i h)) ->
  forall i, exists ex, arrived i h = ex ++ rq i /\ delivered i h ++ rs i = plain_run dw m0 ex /\ forall a, Z i a -> m a = plain_end dw m0 ex a.
Proof.
  intros m0 h m rq rs H. induction H as [|h m rq rs j q H IH|h m rq rs j q l H IH EQ|h m rq rs j y l H IH EQ]; intros W i.
  - exists []. repeat split; auto.
  - assert (W0 : forall i, Forall (within dw (Z i)) (arrived i h)).
    { intros k. specialize (W k). rewrite arrived_app in W. apply Forall_app in W. tauto. }
    destruct (IH W0 i) as (ex & E1 & E2 & E3). exists ex. rewrite arrived_app, delivered_app. cbn [arrived delivered flat_map]. rewrite !app_nil_r.
    split; [|split; auto]. rewrite E1. unfold setq. rewrite (Nat.eqb_sym i j). destruct (Nat.eqb_spec j i) as [->|N].
    + rewrite app_assoc. auto.
    + rewrite app_nil_r. auto.
  - assert (W0 : forall i, Forall (within dw (Z i)) (arrived i h)).
    { intros k. specialize (W k). rewrite arrived_app in W. apply Forall_app in W. tauto. }
    destruct (IH W0 i) as (ex & E1 & E2 & E3). rewrite arrived_app, delivered_app. cbn [arrived delivered flat_map]. rewrite !app_nil_r. unfold setq.
    destruct (Nat.eqb_spec i j) as [->|N].
    + rewrite EQ in E1. specialize (W0 j). rewrite E1 in W0. apply Forall_app in W0. destruct W0 as [_ W0]. inversion W0 as [|? ? WQ _]; subst.
      destruct (plain_ext (Z j) m (plain_end dw m0 ex) q E3 WQ) as [X Y].
      exists (ex ++ [q]). rewrite E1, <- app_assoc. split; auto. split.
      * rewrite run_app. cbn [plain_run]. rewrite <- X, app_assoc, E2. auto.
      * intros a A. rewrite end_app. apply Y; auto.
    + destruct (IH W0 j) as (ex' & F1 & _). rewrite EQ in F1. pose proof (W0 j) as WJ. rewrite F1 in WJ. apply Forall_app in WJ. destruct WJ as [_ WJ]. inversion WJ as [|? ? WQ _]; subst.
      exists ex. split; auto. split; auto. intros a A. rewrite (plain_out (Z j) m q a WQ); auto. intro B. apply (APART i j a); auto.
  - assert (W0 : forall i, Forall (within dw (Z i)) (arrived i h)).
    { intros k. specialize (W k). rewrite arrived_app in W. apply Forall_app in W. tauto. }
    destruct (IH W0 i) as (ex & E1 & E2 & E3). exists ex. rewrite arrived_app, delivered_app. cbn [arrived delivered flat_map]. rewrite !app_nil_r. unfold setq.
    split; auto. split; auto. rewrite <- E2. rewrite (Nat.eqb_sym i j). destruct (Nat.eqb_spec j i) as [->|N].
    + rewrite EQ, <- app_assoc. auto.
    + rewrite app_nil_r. auto.
Qed.

Theorem ports_private : forall m0 h m rq rs i, pmem dw m0 h m rq rs -> (forall j, Forall (within dw (Z j)) (arrived j h)) ->
  exists rest, plain_run dw m0 (arrived i h) = delivered i h ++ rest.
Proof.
  intros m0 h m rq rs i H W. destruct (ports_inv _ _ _ _ _ H W i) as (ex & E1 & E2 & _). rewrite E1, run_app, <- E2, <- app_assoc. eexists. reflexivity.
Qed.
Theorem ports_memory : forall m0 h m rq rs i a, pmem dw m0 h m rq rs -> (forall j, Forall (within dw (Z j)) (arrived j h)) ->
  length (delivered i h) = length (arrived i h) -> Z i a -> m a = plain_end dw m0 (arrived i h) a.
Proof.
  intros m0 h m rq rs i a H W L A. destruct (ports_inv _ _ _ _ _ H W i) as (ex & E1 & E2 & E3).
  assert (LR : forall qs m, length (plain_run dw m qs) = length qs) by (clear; induction qs; intros; cbn; auto).
  apply (f_equal (@length _)) in E2. rewrite app_length, LR in E2. pose proof E1 as E1'. apply (f_equal (@length _)) in E1'. rewrite app_length in E1'.
  assert (RQ : rq i = []) by (destruct (rq i); auto; cbn in E1'; lia). rewrite E1, RQ, app_nil_r. auto.
Qed.
End Ports.

(** *** The messages are right from any base address *)
Definition shift (b : N) (q : mreq) : mreq := mkMReq (mq_type q) (mq_opq q) (b + mq_addr q) (mq_len q) (mq_mask q) (mq_data q).
Section Shift.
Variable dw b : N.
Lemma rd_shift : forall n m m' a, (forall x, m (b + x) = m' x) -> rd_bytes m (b + a) n = rd_bytes m' a n.
Proof. induction n; intros m m' a H; cbn; auto. rewrite H. rewrite <- N.add_assoc, (IHn m m') by auto. auto. Qed.
Lemma wr_shift : forall n m m' a d, (forall x, m (b + x) = m' x) -> forall x, wr_bytes m (b + a) n d (b + x) = wr_bytes m' a n d x.
Proof.
  intros n m m' a d H x. unfold wr_bytes. rewrite H. replace (b + x - (b + a)) with (x - a) by lia.
  destruct (N.leb_spec (b + a) (b + x)), (N.leb_spec a x); try lia; destruct (N.ltb_spec (b + x) (b + a + N.of_nat n)), (N.ltb_spec x (a + N.of_nat n)); try lia; auto.
Qed.
Lemma run_shift : forall qs m m', (forall x, m (b + x) = m' x) -> plain_run dw m (map (shift b) qs) = plain_run dw m' qs.
Proof.
  induction qs as [|q qs IH]; intros m m' H; cbn [map plain_run]; auto.
  assert (X : snd (plain_exec dw m (shift b q)) = snd (plain_exec dw m' q) /\ forall x, fst (plain_exec dw m (shift b q)) (b + x) = fst (plain_exec dw m' q) x).
  { unfold plain_exec, shift. cbn [mq_type mq_opq mq_addr mq_len mq_data]. cbv zeta.
    destruct (mq_type q =? T_READ); [|destruct (mq_type q =? T_WRITE)]; cbn [fst snd].
    - rewrite (rd_shift _ m m') by auto. auto.
    - split; auto. apply wr_shift; auto.
    - rewrite (rd_shift _ m m') by auto. split; auto. apply wr_shift; auto. }
  destruct X as [X Y]. rewrite X. f_equal. apply IH; auto.
Qed.
End Shift.

Lemma run_at : forall b m l l0, map fst l = map (shift b) (map fst l0) -> map snd l = map snd l0 ->
  (forall m, plain_run 32 m (map fst l0) = map snd l0) -> plain_run 32 m (map fst l) = map snd l.
Proof. intros b m l l0 E1 E2 H. rewrite E1, E2. rewrite (run_shift 32 b _ m (fun x => m (b + x))) by auto. apply H. Qed.

(** *** The random messages *)
Section Random.
Variable b : N.
Definition word_at (m : mem) (k : nat) : N := rd_bytes m (b + 4 * N.of_nat k) 4.
Lemma word_wr : forall m k j v, v < 2 ^ 32 -> word_at (wr_bytes m (b + 4 * N.of_nat k) 4 v) j = if Nat.eqb j k then v else word_at m j.
Proof.
  intros m k j v V. unfold word_at. destruct (Nat.eqb_spec j k) as [->|N].
  - rewrite rd_wr_same. apply trunc_small. exact V.
  - apply rd_ext. intros x X. change (N.of_nat 4) with 4 in X. f_equal. unfold wr_bytes. change (N.of_nat 4) with 4.
    destruct (N.leb_spec (b + 4 * N.of_nat k) (b + 4 * N.of_nat j + x)); auto. destruct (N.ltb_spec (b + 4 * N.of_nat j + x) (b + 4 * N.of_nat k + 4)); auto. exfalso. lia.
Qed.
Definition writes (s : nat) (vs : list N) : list msg := map (fun x => tw (N.of_nat (fst x)) (b + 4 * N.of_nat (fst x)) 0 (snd x)) (combine (seq s (length vs)) vs).
Lemma writes_ok : forall vs s m, Forall (fun v => v < 2 ^ 32) vs ->
  plain_run 32 m (map fst (writes s vs)) = map snd (writes s vs) /\
  forall j, word_at (plain_end 32 m (map fst (writes s vs))) j = if Nat.leb s j && Nat.ltb j (s + length vs) then nth (j - s) vs 0 else word_at m j.
Proof.
  induction vs as [|v vs IH]; intros s m F.
  - split; auto. intros j. cbn [length]. rewrite Nat.add_0_r. destruct (Nat.leb_spec s j), (Nat.ltb_spec j s); auto; lia.
  - inversion F as [|? ? F1 F2]; subst. unfold writes. cbn [length seq combine map]. fold (writes (S s) vs). cbn [tw fst snd].
    change (plain_run 32 m (?q :: ?l)) with (snd (plain_exec 32 m q) :: plain_run 32 (fst (plain_exec 32 m q)) l).
    change (plain_end 32 m (?q :: ?l)) with (plain_end 32 (fst (plain_exec 32 m q)) l).
    set (m1 := fst (plain_exec 32 m _)). destruct (IH (S s) m1 F2) as [I1 I2]. split; [rewrite I1; reflexivity|].
    intros j. rewrite I2. assert (EM : m1 = wr_bytes m (b + 4 * N.of_nat s) 4 v) by reflexivity. rewrite EM, word_wr by auto.
    destruct (Nat.leb_spec (S s) j), (Nat.ltb_spec j (S s + length vs)), (Nat.leb_spec s j), (Nat.ltb_spec j (s + S (length vs))), (Nat.eqb_spec j s); cbn [andb]; try lia; auto.
    + replace (j - s)%nat with (S (j - S s)) by lia. reflexivity.
    + subst. rewrite Nat.sub_diag. reflexivity.
Qed.
Lemma random_ok : forall m vmem idx op, length vmem = 20%nat -> Forall (fun v => v < 2 ^ 32) vmem -> (idx < 20)%nat ->
  plain_run 32 m (map fst (random_msgs b vmem idx op)) = map snd (random_msgs b vmem idx op).
Proof.
  intros m vmem idx op L F I.
  assert (E : exists x, random_msgs b vmem idx op = writes 0 vmem ++ [x] /\ x = match op with None => tr_ 0 (b + 4 * N.of_nat idx) 0 (nth idx vmem 0) | Some d => tw 0 (b + 4 * N.of_nat idx) 0 d end).
  { eexists. split; [|reflexivity]. unfold random_msgs, writes. rewrite L. reflexivity. }
  destruct E as (x & -> & ->). rewrite !map_app, run_app.
  destruct (writes_ok vmem 0 m F) as [W1 W2]. apply f_equal2; [exact W1|]. specialize (W2 idx). rewrite L, Nat.sub_0_r in W2.
  destruct (Nat.ltb_spec idx (0 + 20)) as [_|]; [|lia]. cbn [Nat.leb andb] in W2.
  destruct op as [d|]; cbn [tr_ tw fst snd map plain_run]; [reflexivity|]. unfold plain_exec. cbn [mrq mq_type mq_opq mq_addr mq_len mq_data].
  change (T_READ =? T_READ) with true. cbn iota. cbn [snd]. f_equal. f_equal. exact W2.
Qed.
End Random.

Theorem msgs_ok : forall b l m, test_msgs b l -> plain_run 32 m (map fst l) = map snd l.
Proof.
  intros b l m T. destruct T.
  - apply (run_at b m _ (basic_msgs 0)); [reflexivity.. | intros; vm_compute; reflexivity].
  - apply (run_at b m _ (stream_msgs 0)); [reflexivity.. | intros; vm_compute; reflexivity].
  - apply (run_at b m _ (subword_rd_msgs 0)); [reflexivity.. | intros; vm_compute; reflexivity].
  - apply (run_at b m _ (subword_wr_msgs 0)); [reflexivity.. | intros; vm_compute; reflexivity].
  - apply (run_at b m _ (amo_msgs 0)); [reflexivity.. | intros; vm_compute; reflexivity].
  - apply random_ok; auto.
Qed.

(** The tests use 80 bytes from their base address. *)
Definition zone80 (b a : N) : Prop := b <= a < b + 80.
Definition okb (b : N) (q : mreq) : bool :=
  (b <=? mq_addr q) && (mq_addr q + (if (mq_type q =? T_READ) || (mq_type q =? T_WRITE) then (if mq_len q =? 0 then 4 else mq_len q) else 4) <=? b + 80).
Lemma okb_within : forall b q, okb b q = true -> within 32 (zone80 b) q.
Proof.
  intros b q H k K. unfold okb in H. apply andb_prop in H. destruct H as [H1 H2]. rewrite N.leb_le in H1, H2. change (32 / 8) with 4 in K.
  unfold zone80. set (z := if _ || _ then _ else _) in *. clearbody z. lia.
Qed.
Lemma okb_shift : forall b q, okb 0 q = true -> okb b (shift b q) = true.
Proof.
  intros b q H. unfold okb in *. cbn [shift mq_addr mq_type mq_len]. apply andb_prop in H. destruct H as [H1 H2]. rewrite N.leb_le in H2.
  set (z := if _ || _ then _ else _) in *. clearbody z. apply andb_true_intro. split; apply N.leb_le; lia.
Qed.
Lemma within_at : forall b (l l0 : list msg), map fst l = map (shift b) (map fst l0) -> forallb (okb 0) (map fst l0) = true -> Forall (within 32 (zone80 b)) (map fst l).
Proof.
  intros b l l0 E H. rewrite E. rewrite forallb_forall in H. apply Forall_forall. intros q Q. apply in_map_iff in Q. destruct Q as (q0 & <- & Q).
  apply okb_within, okb_shift, H, Q.
Qed.
Lemma msgs_within : forall b l, test_msgs b l -> Forall (within 32 (zone80 b)) (map fst l).
Proof.
  intros b l T. destruct T.
  - apply (within_at b _ (basic_msgs 0)); vm_compute; reflexivity.
  - apply (within_at b _ (stream_msgs 0)); reflexivity.
  - apply (within_at b _ (subword_rd_msgs 0)); reflexivity.
  - apply (within_at b _ (subword_wr_msgs 0)); reflexivity.
  - apply (within_at b _ (amo_msgs 0)); reflexivity.
  - unfold random_msgs. rewrite map_app. apply Forall_app. split.
    + rewrite map_map. apply Forall_forall. intros q Q. apply in_map_iff in Q. destruct Q as ((s & v) & <- & Q). apply in_combine_l, in_seq in Q.
      apply okb_within. unfold okb. cbn [fst snd tw mrq mq_addr mq_type mq_len]. apply andb_true_intro. change (if (T_WRITE =? T_READ) || (T_WRITE =? T_WRITE) then if 0 =? 0 then 4 else 0 else 4) with 4.
      split; apply N.leb_le; lia.
    + constructor; [|constructor]. apply okb_within. destruct op; unfold okb; cbn [fst snd tw tr_ mrq mq_addr mq_type mq_len]; apply andb_true_intro;
      [change (if (T_WRITE =? T_READ) || (T_WRITE =? T_WRITE) then if 0 =? 0 then 4 else 0 else 4) with 4 | change (if (T_READ =? T_READ) || (T_READ =? T_WRITE) then if 0 =? 0 then 4 else 0 else 4) with 4];
      split; apply N.leb_le; lia.
Qed.

Theorem mem_tests : forall n base msgs m0 h m rq rs i,
  (forall j, (j < n)%nat -> test_msgs (base j) (msgs j)) ->
  (forall j k, (j < n)%nat -> (k < n)%nat -> j <> k -> base j + 80 <= base k \/ base k + 80 <= base j) ->
  pmem 32 m0 h m rq rs ->
  (forall j, if Nat.ltb j n then exists rest, map fst (msgs j) = arrived j h ++ rest else arrived j h = []) ->
  (i < n)%nat -> exists rest, map snd (msgs i) = delivered i h ++ rest.
Proof.
  intros n base msgs m0 h m rq rs i TM AP H AR I.
  set (Z := fun j a => (j < n)%nat /\ zone80 (base j) a).
  assert (W : forall j, Forall (within 32 (Z j)) (arrived j h)).
  { intros j. specialize (AR j). destruct (Nat.ltb_spec j n) as [J|J]; [|rewrite AR; constructor].
    destruct AR as (rest & E). pose proof (msgs_within _ _ (TM j J)) as WJ. rewrite E in WJ. apply Forall_app in WJ. destruct WJ as [WJ _].
    eapply Forall_impl; [|exact WJ]. intros q Q k K. split; auto. }
  assert (ZA : forall j k a, j <> k -> Z j a -> Z k a -> False).
  { intros j k a N [J ZJ] [K ZK]. unfold zone80 in *. destruct (AP j k J K N); lia. }
  destruct (ports_private 32 Z ZA _ _ _ _ _ i H W) as (r1 & E1). specialize (AR i). destruct (Nat.ltb_spec i n); [|lia]. destruct AR as (r2 & E2).
  rewrite <- (msgs_ok _ _ m0 (TM i I)), E2, run_app, E1, <- app_assoc. eexists. reflexivity.
Qed.

(** test_read_write_mem: words written directly, then read through a port *)
Lemma pack_len : forall data, length (pack data) = (4 * length data)%nat.
Proof. induction data as [|v data IH]; auto. change (pack (v :: data)) with (map (fun k => slice v (8 * k) (8 * k + 8)) [0; 1; 2; 3] ++ pack data). rewrite app_length, IH. cbn [map length]. lia. Qed.
Lemma pack_nth : forall data j k, (j < length data)%nat -> (k < 4)%nat -> nth (4 * j + k) (pack data) 0 = slice (nth j data 0) (8 * N.of_nat k) (8 * N.of_nat k + 8).
Proof.
  induction data as [|v data IH]; intros j k J K; [cbn in J; lia|].
  change (pack (v :: data)) with (map (fun k => slice v (8 * k) (8 * k + 8)) [0; 1; 2; 3] ++ pack data).
  destruct j as [|j].
  - rewrite app_nth1 by (cbn; lia). do 4 (destruct k as [|k]; [reflexivity|]). lia.
  - rewrite app_nth2 by (cbn [map length]; lia). cbn [map length nth]. replace (4 * S j + k - 4)%nat with (4 * j + k)%nat by lia. apply IH; cbn in J; lia.
Qed.
Lemma pack_rd : forall m b data j, Forall (fun v => v < 2 ^ 32) data -> (j < length data)%nat ->
  rd_bytes (write_mem m b (pack data)) (b + 4 * N.of_nat j) 4 = nth j data 0.
Proof.
  intros m b data j F J. symmetry. apply rd_of_bytes.
  - rewrite Forall_forall in F. apply F. apply nth_In. auto.
  - intros k K. change (N.of_nat 4) with 4 in K. unfold write_mem. rewrite pack_len.
    destruct (N.leb_spec b (b + 4 * N.of_nat j + k)); [|lia]. destruct (N.ltb_spec (b + 4 * N.of_nat j + k) (b + N.of_nat (4 * length data))); [|lia]. cbn [andb].
    replace (N.to_nat (b + 4 * N.of_nat j + k - b)) with (4 * j + N.to_nat k)%nat by lia. rewrite pack_nth by lia. rewrite N2Nat.id. symmetry. apply (trunc_small 8). apply gb_lt.
Qed.
Lemma checks_run : forall data b m, (forall j, (j < length data)%nat -> rd_bytes m (b + 4 * N.of_nat j) 4 = nth j data 0) ->
  plain_run 32 m (map fst (check_msgs b data)) = map snd (check_msgs b data) /\ forall a, plain_end 32 m (map fst (check_msgs b data)) a = m a.
Proof.
  intros data b m H.
  assert (G : forall l, (forall x, In x l -> rd_bytes m (b + 4 * N.of_nat (fst x)) 4 = snd x) ->
    plain_run 32 m (map fst (map (fun x : nat * N => tr_ 1 (b + 4 * N.of_nat (fst x)) 0 (snd x)) l)) = map snd (map (fun x => tr_ 1 (b + 4 * N.of_nat (fst x)) 0 (snd x)) l) /\
    plain_end 32 m (map fst (map (fun x => tr_ 1 (b + 4 * N.of_nat (fst x)) 0 (snd x)) l)) = m).
  { induction l as [|x l IH]; intros HL; [split; reflexivity|]. destruct (IH (fun y Y => HL y (or_intror Y))) as [I1 I2]. specialize (HL x (or_introl eq_refl)).
    split; [|exact I2]. cbn [map]. transitivity (mkMResp T_READ 1 0 (rd_bytes m (b + 4 * N.of_nat (fst x)) 4) :: map snd (map (fun x0 => tr_ 1 (b + 4 * N.of_nat (fst x0)) 0 (snd x0)) l)).
    - exact (f_equal (cons _) I1).
    - rewrite HL. reflexivity. }
  destruct (G (combine (seq 0 (length data)) data)) as [G1 G2].
  { intros [j v] I. cbn [fst snd]. pose proof (in_combine_l _ _ _ _ I) as J. apply in_seq in J. rewrite H by lia.
    apply In_nth with (d := (0%nat, 0)) in I. destruct I as (k & K & E). rewrite combine_length, seq_length, Nat.min_id in K.
    rewrite combine_nth in E by (rewrite seq_length; auto). rewrite seq_nth in E by auto. inversion E; subst. reflexivity. }
  split; [exact G1|]. intros a. exact (f_equal (fun f => f a) G2).
Qed.
Theorem rw_test : forall b data m0 h m rq rs, Forall (fun v => v < 2 ^ 32) data ->
  pmem 32 (write_mem m0 b (pack data)) h m rq rs ->
  (exists rest, map fst (check_msgs b data) = arrived 0 h ++ rest) -> (forall j, j <> 0%nat -> arrived j h = []) ->
  (exists rest, map snd (check_msgs b data) = delivered 0 h ++ rest) /\
  (length (delivered 0 h) = length data -> read_mem m b (length (pack data)) = pack data).
Proof.
  intros b data m0 h m rq rs F H (rest & E) NO. set (m1 := write_mem m0 b (pack data)) in *.
  set (Z := fun (j : nat) (a : N) => j = 0%nat).
  assert (W : forall j, Forall (within 32 (Z j)) (arrived j h)).
  { intros [|j]; [|rewrite NO by lia; constructor]. apply Forall_forall. intros q _ k _. reflexivity. }
  assert (ZA : forall j k a, j <> k -> Z j a -> Z k a -> False) by (unfold Z; intros; congruence).
  destruct (checks_run data b m1 (fun j J => pack_rd m0 b data j F J)) as [C1 C2].
  destruct (ports_private 32 Z ZA _ _ _ _ _ 0 H W) as (r1 & E1).
  split. { rewrite <- C1, E, run_app, E1, <- app_assoc. eexists. reflexivity. }
  intros L. assert (LC : length (map fst (check_msgs b data)) = length data).
  { unfold check_msgs. rewrite !map_length, combine_length, seq_length. apply Nat.min_id. }
  assert (LR : forall qs m, length (plain_run 32 m qs) = length qs) by (clear; induction qs; intros; cbn; auto).
  pose proof (f_equal (@length _) E1) as L1. rewrite app_length, LR in L1. pose proof (f_equal (@length _) E) as L2. rewrite app_length, LC in L2.
  assert (RE : rest = []) by (destruct rest; auto; cbn in L2; lia). rewrite RE, app_nil_r in E.
  assert (ME : forall a, m a = m1 a). { intros a. rewrite (ports_memory 32 Z ZA _ _ _ _ _ 0 a H W); [|lia|reflexivity]. rewrite <- E. apply C2. }
  unfold read_mem. apply nth_ext with (d := m b) (d' := 0); [rewrite map_length, seq_length; auto|].
  intros k K. rewrite map_length, seq_length in K. rewrite (nth_indep _ (m b) (m (b + N.of_nat 0))) by (rewrite map_length, seq_length; auto).
  rewrite (map_nth (fun k => m (b + N.of_nat k))). rewrite seq_nth by auto. rewrite ME. unfold m1, write_mem.
  destruct (N.leb_spec b (b + N.of_nat (0 + k))); [|lia]. destruct (N.ltb_spec (b + N.of_nat (0 + k)) (b + N.of_nat (length (pack data)))); [|lia]. cbn [andb].
  f_equal. lia.
Qed.
