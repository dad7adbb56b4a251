(** Model of test/MulticoreModel.py: the test driver that releases the requests
    of several processors in an order given by the test, and the lemmas behind
    C40. *)
From Coq Require Import Arith NArith List Bool Lia.
From Verif Require Import Bits Units2.
Import ListNotations.
Open Scope N_scope.

(** A test: for each transaction the cache it goes to and its order
    (MulticoreModel.py 38-46; the message itself and the expected response play no
    part in the ordering). *)
Definition txs := list (nat * N).
(** MulticoreModel.py 42-45: what [src[i]] will send, in program order *)
Definition src_of (t : txs) (i : nat) : list N := map snd (filter (fun x => Nat.eqb (fst x) i) t).
(** MulticoreModel.py 40, 66, 71: [orders.count(k)] *)
Definition orders_count (t : txs) (k : N) : N := N.of_nat (count_occ N.eq_dec (map snd t) k).

(** [curr_order], [curr_order_in_flight], and the number of messages each source
    has sent (the index register of TestSrcRTL). *)
Record mc_st := mkMc { mc_curr : N; mc_infl : N; mc_sent : nat -> nat }.
(** Per cycle, for each cache: its request ready, whether the source's delay has
    run out, and the cache's response enable. *)
Record mc_in := mkMi { mi_rdy : nat -> bool; mi_go : nat -> bool; mi_resp : nat -> bool }.

(** MulticoreModel.py 62, 70: reset values *)
Definition mc_reset (t : txs) : mc_st := mkMc 0 (trunc 32 (orders_count t 0)) (fun _ => 0%nat).
(** MulticoreModel.py 76-82, and the source, which sends when it is ready and has
    something left *)
Definition mc_sends (t : txs) (s : mc_st) (x : mc_in) (i : nat) : option N :=
  match nth_error (src_of t i) (mc_sent s i) with
  | Some o => if mi_go x i && mi_rdy x i && (o <=? mc_curr s) then Some o else None
  | None => None
  end.
(** MulticoreModel.py 84-93 *)
Definition trans_done (n : nat) (x : mc_in) : N := N.of_nat (length (filter (mi_resp x) (seq 0 n))).
(** one clock edge: the two CounterUpDown (MulticoreModel.py 62-74) and the
    source index *)
Definition mc_step (n : nat) (t : txs) (s : mc_st) (x : mc_in) : mc_st := {|
  mc_curr := ud_step 32 0 (mc_curr s) (mkUd false (mc_infl s =? 0) 1 false 1 false 0);
  mc_infl := ud_step 32 (orders_count t 0) (mc_infl s)
               (mkUd false false 0 (negb (trans_done n x =? 0)) (trans_done n x)
                     (mc_infl s =? 0) (orders_count t (trunc 32 (mc_curr s + 1))));
  mc_sent := fun i => match mc_sends t s x i with Some _ => S (mc_sent s i) | None => mc_sent s i end
|}.
Definition mc_run (n : nat) (t : txs) (xs : list mc_in) : mc_st := fold_left (mc_step n t) xs (mc_reset t).

(** Responses cache [i] has given. *)
Definition answers (i : nat) (xs : list mc_in) : nat := length (filter (fun x => mi_resp x i) xs).
(** No cache answers more than it was sent (C11), and there are [n] caches. *)
Definition caches_ok (n : nat) (t : txs) (xs : list mc_in) : Prop :=
  forall a x b, xs = a ++ x :: b -> forall i, 
    (mi_resp x i = true -> (i < n)%nat) /\
    (answers i (a ++ [x]) <= mc_sent (mc_run n t (a ++ [x])) i)%nat.
(** The test fits the driver: cache numbers exist, orders fit 32 bits, and the
    number of transactions too (otherwise the model raises an exception). *)
Definition txs_ok (n : nat) (t : txs) : Prop :=
  Forall (fun x => (fst x < n)%nat /\ snd x < 2 ^ 32) t /\ N.of_nat (length t) < 2 ^ 32.

Section M.
Variables (n : nat) (t : txs).
Hypothesis OK : txs_ok n t.

Definition sum (f : nat -> nat) : nat := list_sum (map f (seq 0 n)).
Lemma list_sum_le : forall l (f g : nat -> nat), (forall i, In i l -> (f i <= g i)%nat) ->
  (list_sum (map f l) <= list_sum (map g l))%nat.
Proof.
  induction l as [|i l IH]; intros f g H; cbn; auto. pose proof (H i (or_introl eq_refl)). 
  pose proof (IH f g (fun j J => H j (or_intror J))). unfold list_sum in *. lia.
Qed.
Lemma list_sum_add : forall l (f g h : nat -> nat), (forall i, In i l -> f i = (g i + h i)%nat) ->
  list_sum (map f l) = (list_sum (map g l) + list_sum (map h l))%nat.
Proof.
  induction l as [|i l IH]; intros f g h H; cbn; auto. pose proof (H i (or_introl eq_refl)). 
  pose proof (IH f g h (fun j J => H j (or_intror J))). unfold list_sum in *. lia.
Qed.
Lemma list_sum_eq : forall l (f g : nat -> nat), (forall i, In i l -> (f i <= g i)%nat) ->
  list_sum (map f l) = list_sum (map g l) -> forall i, In i l -> f i = g i.
Proof.
  induction l as [|j l IH]; intros f g H E i I; [destruct I|]. cbn in E.
  pose proof (H j (or_introl eq_refl)). pose proof (list_sum_le l f g (fun j J => H j (or_intror J))). unfold list_sum in *.
  destruct I as [->|I]; [lia|]. apply IH; auto. { intros; apply H; right; auto. } lia.
Qed.
Lemma list_sum_filter : forall l (b : nat -> bool), list_sum (map (fun i => if b i then 1%nat else 0%nat) l) = length (filter b l).
Proof. induction l as [|i l IH]; intros b; cbn; auto. destruct (b i); cbn; unfold list_sum in *; rewrite IH; auto. Qed.

Lemma count_split : forall u k, Forall (fun x => (fst x < n)%nat) u ->
  count_occ N.eq_dec (map snd u) k = sum (fun i => count_occ N.eq_dec (src_of u i) k).
Proof.
  unfold sum. induction u as [|[c o] u IH]; intros k F.
  - cbn. generalize (seq 0 n). induction l; cbn; auto.
  - inversion F; subst. cbn [fst] in *.
    rewrite list_sum_add with (g := fun i => if Nat.eqb c i then (if N.eq_dec o k then 1%nat else 0%nat) else 0%nat)
       (h := fun i => count_occ N.eq_dec (src_of u i) k).
    2:{ intros i _. unfold src_of. cbn [filter fst]. destruct (Nat.eqb_spec c i); cbn [map snd count_occ]; auto. destruct (N.eq_dec o k); auto. }
    rewrite <- IH by auto. cbn [map snd count_occ].
    assert (X : list_sum (map (fun i => if Nat.eqb c i then (if N.eq_dec o k then 1 else 0) else 0)%nat (seq 0 n)) = (if N.eq_dec o k then 1 else 0)%nat).
    { assert (Y : forall m b, list_sum (map (fun i => if Nat.eqb c i then (if N.eq_dec o k then 1 else 0) else 0)%nat (seq b m))
              = if (Nat.leb b c && Nat.ltb c (b + m))%bool then (if N.eq_dec o k then 1 else 0)%nat else 0%nat).
      { induction m as [|m IHm]; intros b; cbn [seq map].
        - change (list_sum []) with 0%nat. destruct (Nat.leb_spec b c), (Nat.ltb_spec c (b + 0)); cbn [andb]; auto; lia.
        - change (list_sum (?x :: ?l)) with (x + list_sum l)%nat. rewrite IHm.
          destruct (Nat.eqb_spec c b), (Nat.leb_spec (S b) c), (Nat.ltb_spec c (S b + m)), (Nat.leb_spec b c), (Nat.ltb_spec c (b + S m)), (N.eq_dec o k); cbn [andb]; lia. }
      rewrite Y. destruct (Nat.leb_spec 0 c), (Nat.ltb_spec c (0 + n)); cbn; auto; lia. }
    rewrite X. destruct (N.eq_dec o k); lia.
Qed.

Definition cnt (k : N) (l : list N) : nat := count_occ N.eq_dec l k.
Definition answered (k : N) (xs : list mc_in) : nat := sum (fun i => cnt k (firstn (answers i xs) (src_of t i))).
Definition total (k : N) : nat := sum (fun i => cnt k (src_of t i)).
Lemma total_count : forall k, orders_count t k = N.of_nat (total k).
Proof.
  intros k. unfold orders_count, total. rewrite count_split; auto. destruct OK as [F _].
  apply Forall_impl with (2 := F). tauto.
Qed.
Lemma total_small : forall k, N.of_nat (total k) < 2 ^ 32.
Proof.
  intros k. rewrite <- total_count. destruct OK as [_ L]. unfold orders_count.
  pose proof (count_occ_bound N.eq_dec k (map snd t)). rewrite map_length in *. lia.
Qed.
Lemma cnt_prefix : forall k j l, (cnt k (firstn j l) <= cnt k l)%nat.
Proof. intros k j l. rewrite <- (firstn_skipn j l) at 2. unfold cnt. rewrite count_occ_app. lia. Qed.
Lemma answered_total : forall k xs, (answered k xs <= total k)%nat.
Proof. intros. unfold answered, total, sum. apply list_sum_le. intros. apply cnt_prefix. Qed.

(** every transaction of order at most/below [k] is answered *)
Definition all_below (k : N) (xs : list mc_in) : Prop :=
  forall i j o, nth_error (src_of t i) j = Some o -> o < k -> (j < answers i xs)%nat.

Lemma cnt_full : forall k l j, cnt k (firstn j l) = cnt k l -> forall m, nth_error l m = Some k -> (m < j)%nat.
Proof.
  intros k l j E m H. destruct (Nat.lt_ge_cases m j) as [|G]; auto. exfalso.
  rewrite <- (firstn_skipn j l) in E at 2. unfold cnt in E. rewrite count_occ_app in E.
  assert (count_occ N.eq_dec (skipn j l) k = 0%nat) by lia. apply (count_occ_not_In N.eq_dec) in H0. apply H0.
  rewrite <- (firstn_skipn j l) in H. rewrite nth_error_app2 in H by (rewrite firstn_length; lia). eapply nth_error_In; eauto.
Qed.
Lemma src_range : forall i j o, nth_error (src_of t i) j = Some o -> (i < n)%nat /\ o < 2 ^ 32.
Proof.
  intros i j o H. apply nth_error_In in H. unfold src_of in H. apply in_map_iff in H. destruct H as ((c & o') & E & I). cbn in E. subst o'.
  apply filter_In in I. destruct I as [I E]. cbn in E. apply Nat.eqb_eq in E. subst c.
  destruct OK as [F _]. rewrite Forall_forall in F. apply F in I. exact I.
Qed.

(** The invariant.  While the order counter has not wrapped: everything sent has
    order at most [curr]; everything below [curr] is answered; the in-flight
    counter is the number of transactions of order [curr] not yet answered.
    After wrapping: everything is answered. *)
Definition minv (s : mc_st) (xs : list mc_in) : Prop :=
  (forall i, (answers i xs <= mc_sent s i <= length (src_of t i))%nat) /\
  (mc_curr s < 2 ^ 32 /\
   (forall i j o, nth_error (src_of t i) j = Some o -> (j < mc_sent s i)%nat -> o <= mc_curr s) /\
   all_below (mc_curr s) xs /\
   (N.to_nat (mc_infl s) + answered (mc_curr s) xs = total (mc_curr s))%nat
   \/ all_below (2 ^ 32) xs).

Lemma answers_snoc : forall i xs x, answers i (xs ++ [x]) = (answers i xs + (if mi_resp x i then 1 else 0))%nat.
Proof. intros. unfold answers. rewrite filter_app, app_length. cbn. destruct (mi_resp x i); auto. Qed.
Lemma run_snoc_mc : forall xs x, mc_run n t (xs ++ [x]) = mc_step n t (mc_run n t xs) x.
Proof. intros. unfold mc_run. rewrite fold_left_app. auto. Qed.

Lemma below_mono : forall k xs x, all_below k xs -> all_below k (xs ++ [x]).
Proof. intros k xs x H i j o A B. rewrite answers_snoc. specialize (H i j o A B). lia. Qed.

Lemma sends_spec : forall s x i o, mc_sends t s x i = Some o -> nth_error (src_of t i) (mc_sent s i) = Some o /\ o <= mc_curr s.
Proof.
  intros s x i o H. unfold mc_sends in H. destruct (nth_error (src_of t i) (mc_sent s i)) as [o'|]; [|discriminate].
  destruct (mi_go x i && mi_rdy x i && (o' <=? mc_curr s)) eqn:E; [|discriminate]. inversion H; subst.
  apply andb_true_iff in E. destruct E as [_ E]. apply N.leb_le in E. auto.
Qed.

Lemma minv_step : forall s xs x, minv s xs ->
  (forall i, (mi_resp x i = true -> (i < n)%nat) /\ (answers i (xs ++ [x]) <= mc_sent (mc_step n t s x) i)%nat) ->
  minv (mc_step n t s x) (xs ++ [x]).
Proof.
  intros s xs x [S0 I] E.
  assert (SL : forall i, (answers i (xs ++ [x]) <= mc_sent (mc_step n t s x) i <= length (src_of t i))%nat).
  { intros i. split; [apply E|]. cbn [mc_step mc_sent]. destruct (mc_sends t s x i) eqn:M; [|apply S0].
    apply sends_spec in M. destruct M as [M _]. apply nth_error_Some. rewrite M. discriminate. }
  split; auto.
  destruct I as [(C & SE & AB & FL) | AB]; [|right; apply below_mono; auto].
  assert (SE' : forall i j o, nth_error (src_of t i) j = Some o -> (j < mc_sent (mc_step n t s x) i)%nat -> o <= mc_curr s).
  { intros i j o H J. cbn [mc_step mc_sent] in J. destruct (mc_sends t s x i) as [o'|] eqn:M; [|eapply SE; eauto].
    apply sends_spec in M. destruct M as [M1 M2]. destruct (Nat.eq_dec j (mc_sent s i)) as [->|NE].
    - rewrite M1 in H. inversion H; subst. auto.
    - apply (SE i j o H). lia. }
  destruct (N.eqb_spec (mc_infl s) 0) as [Z|Z].
  - (* next order *)
    assert (FULL : all_below (mc_curr s + 1) xs).
    { intros i j o H L. destruct (N.eq_dec o (mc_curr s)) as [->|NE]; [|apply (AB i j o H); lia].
      destruct (src_range _ _ _ H) as [IN _].
      apply (cnt_full (mc_curr s) (src_of t i)); auto.
      apply list_sum_eq with (l := seq 0 n) (f := fun i => cnt (mc_curr s) (firstn (answers i xs) (src_of t i))) (g := fun i => cnt (mc_curr s) (src_of t i)).
      - intros. apply cnt_prefix.
      - change (answered (mc_curr s) xs = total (mc_curr s)). rewrite Z in FL. cbn in FL. auto.
      - apply in_seq. lia. }
    destruct (N.eq_dec (mc_curr s + 1) (2 ^ 32)) as [WR|NW].
    { right. rewrite <- WR. apply below_mono. auto. }
    left. cbn [mc_step mc_curr mc_infl]. rewrite Z. unfold ud_step. cbn [ui_reset ui_ld ui_up ui_dw ui_upa ui_lda andb negb N.eqb].
    assert (T : trunc 32 (mc_curr s + 1) = mc_curr s + 1) by (rewrite trunc_mod; apply N.mod_small; lia).
    rewrite !T. rewrite total_count. rewrite (trunc_mod 32 (N.of_nat _)), (N.mod_small (N.of_nat _)) by apply total_small.
    split; [lia|]. split. { intros i j o H J. specialize (SE' i j o H J). lia. }
    split; [apply below_mono; auto|]. rewrite Nnat.Nat2N.id.
    assert (Z0 : answered (mc_curr s + 1) (xs ++ [x]) = 0%nat).
    { unfold answered, sum. apply Nat.le_0_r. eapply Nat.le_trans.
      - apply list_sum_le with (g := fun _ => 0%nat). intros i _. apply Nat.le_0_r. apply (count_occ_not_In N.eq_dec).
        intro IN. apply In_nth_error in IN. destruct IN as (j & H).
        assert (J : (j < answers i (xs ++ [x]))%nat).
        { assert (LT : (j < length (firstn (answers i (xs ++ [x])) (src_of t i)))%nat) by (apply nth_error_Some; rewrite H; discriminate).
          rewrite firstn_length in LT. lia. }
        assert (H' : nth_error (src_of t i) j = Some (mc_curr s + 1)).
        { rewrite <- (firstn_skipn (answers i (xs ++ [x])) (src_of t i)). rewrite nth_error_app1; auto. apply nth_error_Some. rewrite H. discriminate. }
        assert (X : mc_curr s + 1 <= mc_curr s).
        { apply (SE' i j _ H'). destruct (SL i). lia. }
        lia.
      - generalize (seq 0 n). induction l; cbn; auto. }
    lia.
  - (* still serving this order *)
    left. cbn [mc_step mc_curr mc_infl]. destruct (N.eqb_spec (mc_infl s) 0) as [|_]; [contradiction|].
    unfold ud_step. cbn [ui_reset ui_ld ui_up ui_dw ui_upa ui_lda ui_dwa andb negb].
    split; auto. split; auto. split; [apply below_mono; auto|].
    assert (ST : answered (mc_curr s) (xs ++ [x]) = (answered (mc_curr s) xs + length (filter (mi_resp x) (seq 0 n)))%nat).
    { unfold answered, sum. rewrite <- list_sum_filter. apply list_sum_add. intros i _. rewrite answers_snoc.
      destruct (mi_resp x i) eqn:RI; [|rewrite !Nat.add_0_r; auto].
      assert (L1 : (answers i xs < length (src_of t i))%nat) by (destruct (SL i) as [L1 L2]; rewrite answers_snoc, RI in L1; lia).
      destruct (nth_error (src_of t i) (answers i xs)) as [o|] eqn:H; [|apply nth_error_None in H; lia].
      assert (O1 : o <= mc_curr s).
      { apply (SE' i (answers i xs) o H). destruct (SL i) as [L2 L3]. rewrite answers_snoc, RI in L2. lia. }
      assert (O2 : ~ o < mc_curr s). { intro L. specialize (AB i (answers i xs) o H L). lia. }
      assert (o = mc_curr s) by lia. subst o.
      rewrite Nat.add_1_r.
      assert (FS : forall T k (l : list T) z, nth_error l k = Some z -> firstn (S k) l = firstn k l ++ [z]).
      { clear. induction k as [|k IH]; intros [|y l] z H; try discriminate; cbn in *; [congruence|]. f_equal. auto. }
      rewrite (FS _ _ _ _ H). unfold cnt. rewrite count_occ_app. cbn [count_occ]. destruct (N.eq_dec (mc_curr s) (mc_curr s)); [auto | contradiction]. }
    rewrite ST. unfold trans_done. pose proof (answered_total (mc_curr s) (xs ++ [x])) as AT. rewrite ST in AT.
    set (d := length (filter (mi_resp x) (seq 0 n))) in *. clearbody d.
    pose proof (total_small (mc_curr s)) as TS.
    destruct (N.eqb_spec (N.of_nat d) 0) as [D|D]; cbn [negb]; [lia|].
    assert (TD : trunc 32 (N.of_nat d) = N.of_nat d) by (rewrite trunc_mod; apply N.mod_small; lia).
    rewrite TD.
    assert (TI : trunc 32 (mc_infl s + (2 ^ 32 - N.of_nat d)) = mc_infl s - N.of_nat d).
    { rewrite trunc_mod. replace (mc_infl s + (2 ^ 32 - N.of_nat d)) with (mc_infl s - N.of_nat d + 1 * 2 ^ 32) by lia.
      rewrite N.mod_add by discriminate. apply N.mod_small. lia. }
    rewrite TI. lia.
Qed.

Lemma minv_run : forall xs, caches_ok n t xs -> minv (mc_run n t xs) xs.
Proof.
  induction xs as [|x xs IH] using rev_ind; intros C.
  - unfold mc_run. cbn [fold_left mc_reset]. split.
    + intros i. cbn. lia.
    + left. unfold mc_reset. cbn [mc_curr mc_infl mc_sent]. split; [reflexivity|]. split; [intros i j o _ J; cbn in J; lia|]. split; [intros i j o _ L; lia|].
      rewrite total_count. rewrite trunc_mod, N.mod_small by apply total_small. rewrite Nnat.Nat2N.id.
      assert (Z0 : answered 0%N [] = 0%nat); [|lia]. unfold answered, sum. cbn [answers filter length firstn cnt count_occ].
      generalize (seq 0 n). induction l; cbn; auto.
  - rewrite run_snoc_mc. apply minv_step.
    + apply IH. intros a y b E. apply (C a y (b ++ [x])). rewrite E, <- app_assoc. auto.
    + intros i. specialize (C xs x [] eq_refl i). rewrite run_snoc_mc in C. auto.
Qed.

Theorem order_barrier : forall xs x i k, caches_ok n t xs ->
  mc_sends t (mc_run n t xs) x i = Some k ->
  forall i' j k', nth_error (src_of t i') j = Some k' -> k' < k -> (j < answers i' xs)%nat.
Proof.
  intros xs x i k C S i' j k' H L. destruct (minv_run xs C) as [_ [(C1 & _ & AB & _) | AB]].
  - apply sends_spec in S. apply (AB i' j k' H). lia.
  - apply (AB i' j k' H). apply (src_range _ _ _ H).
Qed.
End M.
