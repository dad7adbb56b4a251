(** A memory of fixed latency (C63): counting the cycles in which the cache waits. *)
From Coq Require Import NArith PeanoNat List Bool Lia.
From Verif Require Import Bits Params Msg Rtl Mem Traffic ParamsProofs RtlLemmas Spec System SysProofs SysFacts Facts1 Facts2 Facts3 Progress Hide Obliv Proto LiveSpec Live TimeSpec Service Service2 RunTime
  ExactSpec Exact2 ScheduleSpec Schedule Schedule2 LatSpec Lat.
Import ListNotations.
Open Scope nat_scope.

Definition ct (q : list bool) : nat := length (filter (fun b => b) q).
Lemma ct_app : forall a b, ct (a ++ b) = ct a + ct b.
Proof. intros. unfold ct. rewrite filter_app, app_length. auto. Qed.
Lemma ct_rep : forall n, ct (repeat false n) = 0.
Proof. induction n; auto. Qed.
Lemma ct_cons : forall b l, ct (b :: l) = (if b then 1 else 0) + ct l.
Proof. intros [] l; auto. Qed.
Lemma ct0 : forall l, ct l = 0 -> l = repeat false (length l).
Proof. induction l as [|[] l IH]; intros H; cbn in *; auto; [discriminate|]. f_equal. apply IH. auto. Qed.
Lemma rep_snoc : forall n, repeat false n ++ [false] = repeat false (S n).
Proof. induction n; cbn; auto. f_equal. auto. Qed.

(** The requests of the last [L] cycles. *)
Definition que (L : nat) (tr : trace) : list bool :=
  map (fun k => Nat.leb L (length tr + k) && sent_at tr (length tr + k - L)) (seq 0 L).
Lemma que_len : forall L tr, length (que L tr) = L.
Proof. intros. unfold que. rewrite map_length, seq_length. auto. Qed.
Lemma sent_nil : forall t, sent_at [] t = false.
Proof. intros []; auto. Qed.
Lemma que_nil : forall L, que L [] = repeat false L.
Proof.
  intros L. assert (H : ct (que L []) = 0); [|apply ct0 in H; rewrite que_len in H; auto].
  unfold que. induction (seq 0 L) as [|k l IH]; auto. cbn [map]. rewrite ct_cons, IH, sent_nil, andb_false_r. auto.
Qed.
Lemma sent_app1 : forall tr x t, t < length tr -> sent_at (tr ++ x) t = sent_at tr t.
Proof. intros. unfold sent_at. rewrite nth_error_app1; auto. Qed.
Lemma sent_last : forall tr io, sent_at (tr ++ [io]) (length tr) = is_some (o_mreq (snd io)).
Proof. intros. unfold sent_at. rewrite nth_error_app2, Nat.sub_diag by lia. auto. Qed.
Lemma que_hd : forall L tr io, 1 <= L -> latency L (tr ++ [io]) -> i_mresp_en (fst io) = hd false (que L tr).
Proof.
  intros L tr io G H. rewrite (H (length tr) io) by (rewrite nth_error_app2, Nat.sub_diag by lia; auto).
  destruct L; [lia|]. unfold que. cbn [seq map hd]. rewrite Nat.add_0_r.
  destruct (Nat.leb_spec (S L) (length tr)); auto. rewrite sent_app1 by lia. auto.
Qed.
Lemma que_snoc : forall L tr io, 1 <= L -> que L (tr ++ [io]) = tl (que L tr) ++ [is_some (o_mreq (snd io))].
Proof.
  intros [|L] tr io G; [lia|]. unfold que. change (seq 0 (S L)) with (0 :: seq 1 L) at 2. cbn [map tl]. rewrite (seq_S L 0), map_app. cbn [map]. f_equal.
  - rewrite <- seq_shift, map_map. apply map_ext_in. intros k K. apply in_seq in K. rewrite app_length. cbn [length].
    replace (length tr + 1 + k) with (length tr + S k) by lia. destruct (Nat.leb_spec (S L) (length tr + S k)); auto. rewrite sent_app1 by lia. auto.
  - rewrite app_length. cbn [length]. rewrite Nat.add_0_l. replace (length tr + 1 + L - S L) with (length tr) by lia.
    rewrite sent_last. destruct (Nat.leb_spec (S L) (length tr + 1 + L)); auto. lia.
Qed.
Lemma latency_app : forall L t1 t2, 1 <= L -> latency L (t1 ++ t2) -> latency L t1.
Proof.
  intros L t1 t2 G H t io E. assert (T : t < length t1) by (apply nth_error_Some; congruence).
  rewrite (H t io) by (rewrite nth_error_app1; auto). rewrite sent_app1 by lia. auto.
Qed.
Lemma typed_app : forall t1 t2, answers_typed (t1 ++ t2) -> answers_typed t1.
Proof. intros t1 t2 A a x b E. apply (A a x (b ++ t2)). rewrite E, <- app_assoc. auto. Qed.
Lemma que_outst : forall L tr, 1 <= L -> answers_typed tr -> latency L tr -> length (outstanding tr) = ct (que L tr).
Proof.
  intros L tr G. induction tr as [|io tr IH] using rev_ind; intros A H.
  - rewrite que_nil, ct_rep. auto.
  - pose proof (typed_app _ _ A) as A1. pose proof (latency_app _ _ _ G H) as H1. specialize (IH A1 H1).
    pose proof (que_hd _ _ _ G H) as HD. rewrite que_snoc by auto. rewrite ct_app.
    pose proof (typed_le _ A) as LE. pose proof (typed_le _ A1) as LE1. unfold outstanding in *. rewrite skipn_length in *.
    assert (E1 : length (memresps (tr ++ [io])) = length (memresps tr) + if i_mresp_en (fst io) then 1 else 0).
    { rewrite memresps_app, app_length. f_equal. unfold memresps. cbn [flat_map]. destruct (i_mresp_en (fst io)); auto. }
    assert (E2 : length (memreqs (tr ++ [io])) = length (memreqs tr) + if is_some (o_mreq (snd io)) then 1 else 0).
    { rewrite memreqs_app, app_length. f_equal. unfold memreqs. cbn [flat_map]. destruct (o_mreq (snd io)); auto. }
    rewrite E1, E2 in *.
    pose proof (que_len L tr) as QL. destruct (que L tr) as [|b q]; [cbn in QL; lia|]. cbn [hd tl] in *. rewrite ct_cons in IH.
    rewrite ct_cons. change (ct []) with 0. destruct (is_some (o_mreq (snd io))), (i_mresp_en (fst io)), b; try discriminate; lia.
Qed.

(** The state of waiting: [n] requests sent, those of the last [L] cycles, [U] cycles waited. *)
Inductive wst (L : nat) (fl : bool) (M : nat) : nat -> list bool -> nat -> Prop :=
| w_f0 n : fl = true -> wst L fl M n (repeat false L) ((L - 1) * n)
| w_f1 n a b : fl = true -> a + S b = L -> wst L fl M (S n) (repeat false a ++ true :: repeat false b) ((L - 1) * n + b)
| w_r0 : fl = false -> wst L fl M 0 (repeat false L) 0
| w_r1 a b : fl = false -> a + S b = L -> b = 0 \/ M = 1 -> wst L fl M 1 (repeat false a ++ true :: repeat false b) b
| w_r1d : fl = false -> M = 1 -> wst L fl M 1 (repeat false L) (L - 1)
| w_r2 a b : fl = false -> M = 2 -> a + S (S b) = L -> wst L fl M 2 (repeat false a ++ true :: true :: repeat false b) (S b)
| w_r3 b : fl = false -> M = 2 -> S b = L -> wst L fl M 2 (true :: repeat false b) b
| w_r2d : fl = false -> M = 2 -> wst L fl M 2 (repeat false L) (L - 1).

Lemma wst_conv : forall L fl M n q U n' U', wst L fl M n q U -> n = n' -> U = U' -> wst L fl M n' q U'.
Proof. intros; subst; auto. Qed.
Lemma wst_step : forall L fl M n q U s, 1 <= L -> wst L fl M n q U ->
  let n' := n + (if s : bool then 1 else 0) in let q' := tl q ++ [s] in
  let U' := U + (if Nat.eqb (ct q) 0 || hd false q then 0 else 1) in
  (fl = true -> ct q' <= 1) -> (fl = false -> n' <= M) -> (fl = false -> M <= 2) -> (fl = false -> 1 <= n < M -> s = true) ->
  wst L fl M n' q' U'.
Proof.
  intros L fl M n q U s G H n' q' U' C1 C2 C3 C4. subst n' q' U'.
  assert (RS : forall k, S k = L -> tl (repeat false L) = repeat false k) by (intros k <-; auto).
  destruct L as [|K]; [lia|]. specialize (RS K eq_refl).
  inversion H; subst n q U.
  - rewrite ct_rep. cbn [Nat.eqb orb]. rewrite RS, Nat.add_0_r. destruct s.
    + rewrite Nat.add_1_r. replace ((S K - 1) * n0) with ((S K - 1) * n0 + 0) by lia. exact (w_f1 (S K) fl M n0 K 0 H0 ltac:(lia)).
    + rewrite Nat.add_0_r, rep_snoc. constructor; auto.
  - rewrite ct_app, ct_cons, !ct_rep. cbn [Nat.add Nat.eqb orb]. destruct a as [|a]; cbn [repeat app hd tl] in *.
    + rewrite Nat.add_0_r. assert (b = K) by lia. subst b. destruct s.
      * rewrite Nat.add_1_r. replace ((S K - 1) * n0 + K) with ((S K - 1) * S n0 + 0) by lia. exact (w_f1 (S K) fl M (S n0) K 0 H0 ltac:(lia)).
      * rewrite Nat.add_0_r, rep_snoc. replace ((S K - 1) * n0 + K) with ((S K - 1) * S n0) by lia. constructor; auto.
    + specialize (C1 H0). destruct s.
      * rewrite !ct_app, ct_cons in C1. unfold ct at 3 in C1. cbn in C1. lia.
      * rewrite Nat.add_0_r, <- app_assoc. cbn [app]. rewrite rep_snoc. replace ((S K - 1) * n0 + b + 1) with ((S K - 1) * n0 + S b) by lia. constructor; auto. lia.
  - rewrite ct_rep. cbn [Nat.eqb orb]. rewrite RS. destruct s.
    + exact (w_r1 (S K) fl M K 0 H0 ltac:(lia) (or_introl eq_refl)).
    + rewrite rep_snoc. constructor; auto.
  - specialize (C2 H0). specialize (C3 H0). specialize (C4 H0). rewrite ct_app, ct_cons, !ct_rep. cbn [Nat.add Nat.eqb orb].
    destruct H2 as [-> | ->].
    + destruct s.
      * assert (M = 2) by lia. destruct a as [|a]; cbn [repeat app hd tl].
        -- exact (w_r3 (S K) fl M 0 H0 H2 H1).
        -- rewrite <- app_assoc. cbn [app]. apply (w_r2 (S K) fl M a 0); auto. lia.
      * assert (M = 1) by (destruct (Nat.eq_dec M 1); auto; exfalso; assert (false = true) by (apply C4; lia); discriminate).
        destruct a as [|a]; cbn [repeat app hd tl].
        -- assert (K = 0) by lia. subst K. exact (w_r1d 1 fl M H0 H2).
        -- rewrite <- app_assoc. cbn [app]. apply (w_r1 (S K) fl M a 1); auto. lia.
    + destruct s; [exfalso; lia|]. destruct a as [|a]; cbn [repeat app hd tl].
      * rewrite rep_snoc. assert (b = K) by lia. subst b. rewrite Nat.add_0_r. pose proof (w_r1d (S K) fl 1 H0 eq_refl) as X. replace (S K - 1) with K in X by lia. exact X.
      * rewrite <- app_assoc. cbn [app]. rewrite rep_snoc. rewrite (Nat.add_1_r b). apply w_r1; auto. lia.
  - specialize (C2 H0). destruct s; [exfalso; lia|]. rewrite ct_rep. cbn [Nat.eqb orb]. rewrite RS, rep_snoc, (Nat.add_0_r (S K - 1)). apply w_r1d; auto.
  - specialize (C2 H0). destruct s; [exfalso; lia|]. rewrite ct_app, !ct_cons, !ct_rep. cbn [Nat.add Nat.eqb orb].
    destruct a as [|a]; cbn [repeat app hd tl].
    + rewrite rep_snoc. apply (wst_conv (S K) fl M 2 _ (S b)); [apply w_r3; auto|auto|lia].
    + rewrite <- app_assoc. cbn [app]. rewrite rep_snoc. apply (wst_conv (S K) fl M 2 _ (S (S b))); [apply w_r2; auto; lia|auto|lia].
  - specialize (C2 H0). destruct s; [exfalso; lia|]. rewrite ct_cons, !ct_rep. cbn [Nat.add Nat.eqb orb hd tl]. rewrite rep_snoc, Nat.add_0_r.
    inversion H2; subst b. pose proof (w_r2d (S K) fl M H0 H1) as X. replace (S K - 1) with K in X by lia. exact X.
  - specialize (C2 H0). destruct s; [exfalso; lia|]. rewrite ct_rep. cbn [Nat.eqb orb]. rewrite RS, rep_snoc, (Nat.add_0_r (S K - 1)). apply w_r2d; auto.
Qed.

Definition fl_of (r : creq) : bool := N.eqb (cq_type r) T_FLUSH.
Lemma wst_le : forall L r M n q U, 1 <= L -> wst L (fl_of r) M n q U -> n <= M -> U <= (L - 1) * bursts r M.
Proof.
  intros L r M n q U G H LE. unfold bursts. fold (fl_of r).
  assert (X : forall k, k <= M -> (L - 1) * k <= (L - 1) * M) by (intros; apply Nat.mul_le_mono_l; auto).
  inversion H; subst; rewrite H0; try lia; try (apply X; lia);
  try (specialize (X _ LE); rewrite Nat.mul_succ_r in X; lia);
  destruct M; lia.
Qed.
Lemma wst_eq : forall L r M q U, 1 <= L -> wst L (fl_of r) M M q U -> ct q = 0 -> U = (L - 1) * bursts r M.
Proof.
  intros L r M q U G H CZ. unfold bursts. fold (fl_of r).
  inversion H; subst; rewrite H0; try lia; rewrite ?ct_app, ?ct_cons in CZ; try lia.
Qed.
