(** The tracker is an n-way true LRU; the model cache is a flat memory. *)
From Coq Require Import PeanoNat NArith List Bool Lia.
From Verif Require Import Bits Params Msg Mem Fl.
Import ListNotations.
Open Scope N_scope.

(** ** Specification: line numbers, sets, and n-way LRU *)
Section Spec.
Variable g : geom.
(** Line number of an address (bank bits are ignored) and its set. *)
Definition key (a : N) : N := a / 2 ^ (g_off g + g_bank g).
Definition kset (k : N) : N := k mod 2 ^ g_idx g.
(** resident lines of each set, most recently used first *)
Definition nlru_step (L : N -> list N) (c : tcall) : (N -> list N) * bool :=
  match c with
  | CAcc a => let k := key a in let i := kset k in
      (upd L i (firstn (g_ways g) (k :: remove N.eq_dec k (L i))),
       if in_dec N.eq_dec k (L i) then true else false)
  | CAmo a => let k := key a in let i := kset k in (upd L i (remove N.eq_dec k (L i)), false)
  | CInv => (fun _ => [], false)
  end.
Fixpoint nlru (L : N -> list N) (cs : list tcall) : (N -> list N) * list bool :=
  match cs with
  | [] => (L, [])
  | c :: cs => let '(L1, b) := nlru_step L c in let '(L2, bs) := nlru L1 cs in (L2, b :: bs)
  end.
Definition call_addr (c : tcall) : N := match c with CAcc a | CAmo a => a | CInv => 0 end.
End Spec.

(** ** Lists *)
Lemma rem1_in : forall w x l, In x (rem1 w l) -> In x l.
Proof. induction l as [|y l IH]; cbn; auto. destruct (Nat.eqb w y); cbn; intuition. Qed.
Lemma rem1_neq : forall w x l, x <> w -> In x l -> In x (rem1 w l).
Proof.
  induction l as [|y l IH]; cbn; auto. intros NE H. destruct (Nat.eqb_spec w y); cbn; destruct H; subst; auto. congruence.
Qed.
Lemma rem1_nodup : forall w l, NoDup l -> NoDup (rem1 w l) /\ ~ In w (rem1 w l).
Proof.
  induction l as [|y l IH]; cbn; intros H; [split; auto|]. inversion H; subst. destruct (IH H3) as [A B].
  destruct (Nat.eqb_spec w y) as [->|N]; auto. split.
  - constructor; auto. intros I. apply rem1_in in I. auto.
  - intros [E|I]; auto.
Qed.
Lemma rem1_app : forall w V U, In w V -> rem1 w (V ++ U) = rem1 w V ++ U.
Proof.
  induction V as [|y V IH]; cbn; intros U H; [tauto|]. destruct (Nat.eqb_spec w y); auto. cbn. f_equal. apply IH.
  destruct H; congruence || auto.
Qed.
Lemma rem1_last : forall w l, ~ In w l -> rem1 w (l ++ [w]) = l.
Proof.
  induction l as [|y l IH]; cbn; intros H. { rewrite Nat.eqb_refl. auto. }
  destruct (Nat.eqb_spec w y) as [->|N]; [destruct H; auto|]. f_equal. apply IH. tauto.
Qed.
Lemma rem1_len : forall w l, In w l -> S (length (rem1 w l)) = length l.
Proof.
  induction l as [|y l IH]; cbn; intros H; [tauto|]. destruct (Nat.eqb_spec w y); auto. cbn. f_equal. apply IH. destruct H; congruence || auto.
Qed.
Lemma remove_out : forall k l, ~ In k l -> remove N.eq_dec k l = l.
Proof. intros. apply notin_remove; auto. Qed.
Lemma map_rem1 : forall (f : nat -> N) w V, NoDup (map f V) -> In w V -> map f (rem1 w V) = remove N.eq_dec (f w) (map f V).
Proof.
  induction V as [|y V IH]; cbn; intros H I; [tauto|]. inversion H; subst.
  destruct (Nat.eqb_spec w y) as [->|N].
  - destruct (N.eq_dec (f y) (f y)); [|congruence]. symmetry. apply remove_out; auto.
  - destruct I as [->|I]; [congruence|]. destruct (N.eq_dec (f w) (f y)) as [E|E].
    + exfalso. apply H2. rewrite <- E. apply in_map; auto.
    + cbn. f_equal. apply IH; auto.
Qed.
Lemma remove_len : forall k l, NoDup l -> In k l -> S (length (remove N.eq_dec k l)) = length l.
Proof.
  induction l as [|y l IH]; cbn; intros H I; [tauto|]. inversion H; subst. destruct (N.eq_dec k y) as [->|N].
  - rewrite remove_out; auto.
  - destruct I; [congruence|]. cbn. f_equal. auto.
Qed.
Lemma remove_nodup : forall k l, NoDup l -> NoDup (remove N.eq_dec k l).
Proof.
  induction l as [|y l IH]; cbn; intros H; auto. inversion H; subst. destruct (N.eq_dec k y); auto.
  constructor; auto. intros I. apply in_remove in I. tauto.
Qed.

(** ** The tracker *)
Section Tracker.
Variable g : geom.
Hypothesis G : (0 < g_ways g)%nat.
Hypothesis B : g_off g + g_bank g + g_idx g <= 32.

Lemma key_split : forall a, a < 2 ^ 32 -> key g a = f_tag g a * 2 ^ g_idx g + f_idx g a /\ f_idx g a = kset g (key g a).
Proof.
  intros a A. unfold key, f_tag, f_idx, kset, slice. rewrite !trunc_mod, !N.shiftr_div_pow2.
  replace (g_off g + g_bank g + g_idx g - (g_off g + g_bank g)) with (g_idx g) by lia.
  split; auto. rewrite (N.pow_add_r 2 (g_off g + g_bank g) (g_idx g)), <- N.div_div by (apply N.pow_nonzero; lia).
  set (b := a / 2 ^ (g_off g + g_bank g)).
  assert (Q : b / 2 ^ g_idx g < 2 ^ (32 - (g_off g + g_bank g + g_idx g))).
  { unfold b. rewrite N.div_div by (apply N.pow_nonzero; lia). rewrite <- N.pow_add_r.
    apply N.div_lt_upper_bound; [apply N.pow_nonzero; lia|]. rewrite <- N.pow_add_r.
    replace (g_off g + g_bank g + g_idx g + (32 - (g_off g + g_bank g + g_idx g))) with 32 by lia. auto. }
  rewrite (N.mod_small (b / 2 ^ g_idx g)) by auto. rewrite N.mul_comm. apply N.div_mod. apply N.pow_nonzero; lia.
Qed.
Lemma idx_lt : forall a, f_idx g a < 2 ^ g_idx g.
Proof. intros. unfold f_idx. replace (g_idx g) with (g_off g + g_bank g + g_idx g - (g_off g + g_bank g)) at 2 by lia. apply slice_lt. Qed.

(** line in way [w] of set [i] *)
Definition wkey (t : trk) (i : N) (w : nat) : N := t_line t i w * 2 ^ g_idx g + i.

Definition tinv (t : trk) (L : N -> list N) : Prop := forall i, i < 2 ^ g_idx g ->
  exists V U, t_lru t i = V ++ U /\ NoDup (V ++ U) /\ (forall w, In w (V ++ U) <-> (w < g_ways g)%nat) /\
    (forall w, In w V -> t_valid t i w = true) /\ (forall w, In w U -> t_valid t i w = false) /\
    map (wkey t i) V = L i /\ NoDup (L i).

Lemma tinv0 : tinv (trk0 g) (fun _ => []).
Proof.
  intros i I. exists [], (seq 0 (g_ways g)). cbn. repeat split; auto; try tauto.
  - apply seq_NoDup.
  - intros H. apply in_seq in H. lia.
  - intros H. apply in_seq. lia.
  - constructor.
Qed.

Lemma perm_len : forall V U, NoDup (V ++ U) -> (forall w, In w (V ++ U) <-> (w < g_ways g)%nat) ->
  (length V + length U = g_ways g)%nat.
Proof.
  intros V U ND P. rewrite <- app_length, <- (seq_length (g_ways g) 0).
  apply Nat.le_antisymm; apply NoDup_incl_length; auto using seq_NoDup.
  - intros w I. apply in_seq. apply P in I. lia.
  - intros w I. apply in_seq in I. apply P. lia.
Qed.

Lemma wkey_idx : forall t i w tag, wkey t i w = tag * 2 ^ g_idx g + i <-> t_line t i w = tag.
Proof.
  intros. unfold wkey. pose proof (N.pow_nonzero 2 (g_idx g) ltac:(lia)). split; [|intros ->; auto].
  intros E. assert (E1 : t_line t i w * 2 ^ g_idx g = tag * 2 ^ g_idx g) by lia. apply N.mul_cancel_r in E1; auto.
Qed.

(** lookup *)
Lemma match_spec : forall t L a, tinv t L -> a < 2 ^ 32 ->
  match match_way g t (f_tag g a) (f_idx g a) with
  | Some w => In (key g a) (L (f_idx g a)) /\
      exists V U, t_lru t (f_idx g a) = V ++ U /\ NoDup (V ++ U) /\ (forall w, In w (V ++ U) <-> (w < g_ways g)%nat) /\
        (forall w, In w V -> t_valid t (f_idx g a) w = true) /\ (forall w, In w U -> t_valid t (f_idx g a) w = false) /\
        map (wkey t (f_idx g a)) V = L (f_idx g a) /\ In w V /\ wkey t (f_idx g a) w = key g a
  | None => ~ In (key g a) (L (f_idx g a))
  end.
Proof.
  intros t L a I A. destruct (I _ (idx_lt a)) as (V & U & E & ND & P & VV & VU & M & NL).
  destruct (key_split a A) as [K _]. unfold match_way.
  destruct (find _ _) as [w|] eqn:F.
  - apply find_some in F. destruct F as [S F]. apply andb_prop in F. destruct F as [F1 F2]. apply N.eqb_eq in F2.
    assert (IV : In w V).
    { apply in_seq in S. assert (X : In w (V ++ U)) by (apply P; lia). apply in_app_iff in X. destruct X as [X|X]; auto.
      rewrite (VU _ X) in F1. discriminate. }
    assert (WK : wkey t (f_idx g a) w = key g a) by (rewrite K; apply wkey_idx; auto).
    split. { rewrite <- M, <- WK. apply in_map; auto. }
    exists V, U. repeat split; auto; apply P.
  - intros H. rewrite <- M in H. apply in_map_iff in H. destruct H as (w & W & IV). rewrite K in W. apply wkey_idx in W.
    assert (X : In w (seq 0 (g_ways g))).
    { apply in_seq. assert (X : (w < g_ways g)%nat) by (apply P; apply in_or_app; auto). lia. }
    pose proof (find_none _ _ F w X) as Z. cbv beta in Z. rewrite (VV _ IV), W, N.eqb_refl in Z. discriminate.
Qed.

Lemma set2_same : forall A (f : N -> nat -> A) i w v, set2 f i w v i w = v.
Proof. intros. unfold set2. rewrite N.eqb_refl, Nat.eqb_refl. auto. Qed.
Lemma set2_w : forall A (f : N -> nat -> A) i w v w', w' <> w -> set2 f i w v i w' = f i w'.
Proof. intros. unfold set2. destruct (Nat.eqb_spec w' w); [congruence|]. rewrite andb_false_r. auto. Qed.
Lemma set2_i : forall A (f : N -> nat -> A) i w v i' w', i' <> i -> set2 f i w v i' w' = f i' w'.
Proof. intros. unfold set2. destruct (N.eqb_spec i' i); [congruence|]. auto. Qed.

Lemma firstn_all2' : forall A n (l : list A), (length l <= n)%nat -> firstn n l = l.
Proof. intros. apply firstn_all2; auto. Qed.

Lemma access_ok : forall t L a, tinv t L -> a < 2 ^ 32 ->
  tinv (fst (access g t a)) (fst (nlru_step g L (CAcc a))) /\ snd (access g t a) = snd (nlru_step g L (CAcc a)).
Proof.
  intros t L a I A. pose proof (match_spec t L a I A) as MS. destruct (key_split a A) as [K KS].
  cbn [nlru_step fst snd]. rewrite <- KS. unfold access, tag_check.
  destruct (match_way g t (f_tag g a) (f_idx g a)) as [w|]; cbn [fst snd].
  - destruct MS as (IL & V & U & E & ND & P & VV & VU & M & IV & WK).
    destruct (in_dec N.eq_dec (key g a) (L (f_idx g a))) as [_|X]; [|tauto]. split; auto.
    intros i Hi. destruct (N.eq_dec i (f_idx g a)) as [->|NE].
    2:{ unfold lru_hit. cbn [t_line t_valid t_lru]. rewrite !upd_neq by auto. apply (I i Hi). }
    destruct (I _ Hi) as (_ & _ & _ & _ & _ & _ & _ & _ & NL).
    unfold lru_hit. cbn [t_line t_valid t_lru]. rewrite !upd_eq. exists (w :: rem1 w V), U.
    destruct (rem1_nodup w (V ++ U) ND) as [R1 R2]. rewrite rem1_app in R1, R2 by auto.
    assert (P2 : forall x, In x ((w :: rem1 w V) ++ U) <-> In x (V ++ U)).
    { intros x. cbn. rewrite !in_app_iff. split.
      - intros [<-|[X|X]]; auto. left. apply rem1_in in X. auto.
      - intros [X|X]; auto. destruct (Nat.eq_dec x w) as [->|N]; auto. right. left. apply rem1_neq; auto. }
    rewrite E, rem1_app by auto. split; [auto|]. split; [constructor; auto|].
    split; [intros x; rewrite P2; apply P|]. split; [|split; [auto|]].
    + intros x [<-|X]; auto. apply VV. apply rem1_in in X. auto.
    + assert (NK : NoDup (key g a :: remove N.eq_dec (key g a) (L (f_idx g a)))).
      { constructor; [apply remove_In|apply remove_nodup; auto]. }
      assert (LE : (length (key g a :: remove N.eq_dec (key g a) (L (f_idx g a))) <= g_ways g)%nat).
      { cbn. rewrite remove_len by auto. rewrite <- M, map_length. pose proof (perm_len V U ND P). lia. }
      rewrite firstn_all2 by auto. split; auto. cbn [map]. f_equal; auto.
      change (wkey {| t_line := t_line t; t_valid := t_valid t; t_lru := _ |} (f_idx g a)) with (wkey t (f_idx g a)).
      rewrite map_rem1; auto; [|rewrite M; auto]. rewrite M, WK. auto.
  - destruct (in_dec N.eq_dec (key g a) (L (f_idx g a))) as [X|_]; [tauto|]. split; auto.
    intros i Hi. destruct (N.eq_dec i (f_idx g a)) as [->|NE].
    2:{ unfold refill, lru_hit. cbn [t_line t_valid t_lru]. rewrite !upd_neq by auto.
        destruct (I i Hi) as (V & U & E & ND & P & VV & VU & M & NL). exists V, U. repeat split; auto; try apply P.
        - intros w X. rewrite set2_i by auto. auto.
        - intros w X. rewrite set2_i by auto. auto.
        - rewrite <- M. apply map_ext. intros w. unfold wkey. cbn [t_line]. rewrite set2_i by auto. auto. }
    destruct (I _ Hi) as (V & U & E & ND & P & VV & VU & M & NL).
    unfold refill, lru_hit, lru_get. cbn [t_line t_valid t_lru]. rewrite !upd_eq.
    rewrite remove_out by auto. pose proof (perm_len V U ND P) as PL.
    destruct (@exists_last _ (V ++ U)) as (l & v & EL). { destruct V, U; cbn; try discriminate. cbn in PL. lia. }
    rewrite E, EL, last_last. rewrite EL in ND, P.
    assert (NV : ~ In v l). { apply NoDup_remove_2 in ND. rewrite app_nil_r in ND. auto. }
    rewrite rem1_last by auto.
    assert (ND2 : NoDup (v :: l)). { constructor; auto. apply NoDup_remove_1 in ND. rewrite app_nil_r in ND. auto. }
    assert (P2 : forall w, In w (v :: l) <-> (w < g_ways g)%nat).
    { intros w. rewrite <- P, in_app_iff. cbn. tauto. }
    assert (WKV : forall l', ~ In v l' -> map (wkey (mkTrk (set2 (t_line t) (f_idx g a) v (f_tag g a))
                    (set2 (t_valid t) (f_idx g a) v true) (upd (t_lru t) (f_idx g a) (v :: l))) (f_idx g a)) (v :: l')
                  = key g a :: map (wkey t (f_idx g a)) l').
    { intros l' NI. cbn [map]. f_equal.
      - unfold wkey. cbn [t_line]. rewrite set2_same. auto.
      - apply map_ext_in. intros w Iw. unfold wkey. cbn [t_line]. rewrite set2_w; auto. intros ->. auto. }
    destruct U as [|u U] using rev_ind.
    + rewrite app_nil_r in EL. subst V. exists (v :: l), []. rewrite app_nil_r. split; auto. split; auto. split; auto.
      split. { intros w Iw. destruct (Nat.eq_dec w v) as [->|Nw]; [rewrite set2_same; auto|rewrite set2_w by auto].
               apply VV. apply in_app_iff. cbn. destruct Iw; [congruence|auto]. }
      split. { intros w []. }
      assert (EF : firstn (g_ways g) (key g a :: L (f_idx g a)) = key g a :: map (wkey t (f_idx g a)) l).
      { rewrite <- M, map_app. cbn [map]. rewrite app_length in PL. cbn in PL.
        replace (g_ways g) with (S (length (map (wkey t (f_idx g a)) l))) by (rewrite map_length; lia).
        cbn [firstn]. f_equal. rewrite firstn_app, Nat.sub_diag. cbn [firstn]. rewrite app_nil_r. apply firstn_all2; auto. }
      rewrite EF. split; [apply WKV; auto|]. rewrite <- M in NL. rewrite map_app in NL. cbn [map] in NL.
      constructor. { intros X. apply MS. rewrite <- M, map_app. apply in_or_app. auto. }
      apply NoDup_remove_1 in NL. rewrite app_nil_r in NL. auto.
    + clear IHU. rewrite app_assoc in EL. apply app_inj_tail in EL. destruct EL as [<- ->].
      exists (v :: V), U. cbn [app]. split; auto. split; auto. split; auto.
      split. { intros w Iw. destruct (Nat.eq_dec w v) as [->|Nw]; [rewrite set2_same; auto|rewrite set2_w by auto].
               apply VV. destruct Iw; [congruence|auto]. }
      split. { intros w Iw. rewrite set2_w; [apply VU; apply in_or_app; auto|]. intros ->. apply NV. apply in_or_app; auto. }
      assert (LE : (length (key g a :: L (f_idx g a)) <= g_ways g)%nat).
      { cbn. rewrite <- M, map_length. rewrite app_length in PL. cbn in PL. lia. }
      rewrite firstn_all2 by auto. split; [|constructor; auto]. rewrite WKV; [rewrite M; auto|].
      intros X. apply NV. apply in_or_app; auto.
Qed.

Lemma amo_ok : forall t L a, tinv t L -> a < 2 ^ 32 -> tinv (amo_acc g t a) (fst (nlru_step g L (CAmo a))).
Proof.
  intros t L a I A. pose proof (match_spec t L a I A) as MS. destruct (key_split a A) as [K KS].
  cbn [nlru_step fst snd]. rewrite <- KS. unfold amo_acc.
  destruct (match_way g t (f_tag g a) (f_idx g a)) as [w|].
  - destruct MS as (IL & V & U & E & ND & P & VV & VU & M & IV & WK).
    intros i Hi. destruct (N.eq_dec i (f_idx g a)) as [->|NE].
    2:{ unfold lru_set. cbn [t_line t_valid t_lru]. rewrite !upd_neq by auto.
        destruct (I i Hi) as (V1 & U1 & E1 & ND1 & P1 & VV1 & VU1 & M1 & NL1). exists V1, U1. repeat split; auto; try apply P1.
        - intros x X. rewrite set2_i by auto. auto.
        - intros x X. rewrite set2_i by auto. auto. }
    destruct (I _ Hi) as (_ & _ & _ & _ & _ & _ & _ & _ & NL).
    unfold lru_set. cbn [t_line t_valid t_lru]. rewrite !upd_eq. exists (rem1 w V), (U ++ [w]).
    destruct (rem1_nodup w (V ++ U) ND) as [R1 R2]. rewrite rem1_app in R1, R2 by auto.
    rewrite E, rem1_app, !app_assoc by auto. split; auto.
    assert (ND' : NoDup (w :: rem1 w V ++ U)) by (constructor; auto).
    split. { apply (NoDup_Add (a := w) (l := rem1 w V ++ U)); [|split; auto].
             pose proof (Add_app w (rem1 w V ++ U) []) as X. rewrite app_nil_r in X. auto. }
    split.
    { intros x. rewrite <- P. rewrite !in_app_iff. cbn. split.
      - intros [[X|X]|[<-|[]]]; auto. left. apply rem1_in in X. auto.
      - intros [X|X]; auto. destruct (Nat.eq_dec x w) as [->|N]; auto. left. left. apply rem1_neq; auto. }
    split. { intros x X. rewrite set2_w; [apply VV; eapply rem1_in; eauto|]. intros ->. apply R2. apply in_or_app; auto. }
    split. { intros x X. apply in_app_iff in X. destruct X as [X|[<-|[]]]; [|apply set2_same].
             rewrite set2_w; auto. intros ->. apply R2. apply in_or_app; auto. }
    split; [|apply remove_nodup; auto].
    change (wkey {| t_line := t_line t; t_valid := _; t_lru := _ |} (f_idx g a)) with (wkey t (f_idx g a)).
    rewrite map_rem1; auto; [|rewrite M; auto]. rewrite M, WK. auto.
  - intros i Hi. destruct (N.eq_dec i (f_idx g a)) as [->|NE]; [rewrite upd_eq, remove_out by auto | rewrite upd_neq by auto]; apply I; auto.
Qed.

Lemma inv_ok : forall t L, tinv t L -> tinv (inv_acc t) (fun _ => []).
Proof.
  intros t L I i Hi. destruct (I i Hi) as (V & U & E & ND & P & VV & VU & M & NL).
  exists [], (V ++ U). cbn. repeat split; auto; try tauto; try apply P. constructor.
Qed.

Lemma step_ok : forall t L c, tinv t L -> call_addr c < 2 ^ 32 ->
  tinv (fst (tcall_step g t c)) (fst (nlru_step g L c)) /\ snd (tcall_step g t c) = snd (nlru_step g L c).
Proof.
  intros t L [a|a|] I A; cbn [tcall_step].
  - apply access_ok; auto.
  - split; auto. apply amo_ok; auto.
  - split; auto. eapply inv_ok; eauto.
Qed.
Lemma calls_ok : forall cs t L, tinv t L -> Forall (fun c => call_addr c < 2 ^ 32) cs ->
  tinv (fst (tcalls g t cs)) (fst (nlru g L cs)) /\ snd (tcalls g t cs) = snd (nlru g L cs).
Proof.
  induction cs as [|c cs IH]; intros t L I F; cbn [tcalls nlru]; auto. inversion F; subst.
  destruct (step_ok t L c I H1) as [S1 S2].
  destruct (tcall_step g t c) as [t1 b1], (nlru_step g L c) as [L1 b2]. cbn [fst snd] in *.
  destruct (IH t1 L1 S1 H2) as [Q1 Q2].
  destruct (tcalls g t1 cs), (nlru g L1 cs). cbn [fst snd] in *. split; congruence || auto.
Qed.
Theorem tracker_lru : forall cs, Forall (fun c => call_addr c < 2 ^ 32) cs ->
  snd (tcalls g (trk0 g) cs) = snd (nlru g (fun _ => []) cs).
Proof. intros cs F. apply calls_ok; auto. apply tinv0. Qed.

(** ** Recency *)
Definition rstep (R : N -> list N) (a : N) : N -> list N :=
  let k := key g a in upd R (kset g k) (k :: remove N.eq_dec k (R (kset g k))).
Definition rrun (R : N -> list N) (l : list N) : N -> list N := fold_left rstep l R.
Definition rnd (R : N -> list N) : Prop := forall i, NoDup (R i).
Lemma rstep_nd : forall R a, rnd R -> rnd (rstep R a).
Proof.
  intros R a H i. unfold rstep. destruct (N.eq_dec i (kset g (key g a))) as [->|N]; [rewrite upd_eq|rewrite upd_neq by auto; auto].
  constructor; [apply remove_In|apply remove_nodup; auto].
Qed.
Lemma firstn_remove : forall k n l, NoDup l -> firstn n (remove N.eq_dec k (firstn (S n) l)) = firstn n (remove N.eq_dec k l).
Proof.
  intros k. induction n as [|n IH]; intros l H; auto. destruct l as [|y l]; auto. inversion H; subst.
  change (firstn (S (S n)) (y :: l)) with (y :: firstn (S n) l). cbn [remove].
  destruct (N.eq_dec k y) as [->|NE].
  - rewrite !remove_out; auto. { rewrite firstn_firstn, Nat.min_id. auto. }
    intros X. apply H2. rewrite <- (firstn_skipn (S n) l). apply in_or_app; auto.
  - cbn [firstn]. f_equal. apply IH; auto.
Qed.
Definition cut (R : N -> list N) : N -> list N := fun i => firstn (g_ways g) (R i).
Lemma in_firstn : forall A n (l : list A) x, In x (firstn n l) -> In x l.
Proof. intros A n l x H. rewrite <- (firstn_skipn n l). apply in_or_app; auto. Qed.
Lemma nlru_cut : forall R L a, rnd R -> (forall i, L i = cut R i) -> forall i, fst (nlru_step g L (CAcc a)) i = cut (rstep R a) i.
Proof.
  intros R L a H E i. cbn [nlru_step fst]. unfold cut, rstep. destruct (N.eq_dec i (kset g (key g a))) as [->|N].
  - rewrite !upd_eq, E. unfold cut. destruct (g_ways g) as [|n]; auto. cbn [firstn]. f_equal. apply firstn_remove; auto.
  - rewrite !upd_neq by auto. apply E.
Qed.
Lemma nlru_app : forall c1 c2 L, snd (nlru g L (c1 ++ c2)) = snd (nlru g L c1) ++ snd (nlru g (fst (nlru g L c1)) c2).
Proof.
  induction c1 as [|c c1 IH]; intros c2 L; cbn [app nlru]; auto.
  destruct (nlru_step g L c) as [L1 b]. specialize (IH c2 L1).
  destruct (nlru g L1 (c1 ++ c2)), (nlru g L1 c1). cbn [fst snd app] in *. f_equal. auto.
Qed.
Lemma nlru_len : forall cs L, length (snd (nlru g L cs)) = length cs.
Proof.
  induction cs as [|c cs IH]; intros L; cbn [nlru]; auto. destruct (nlru_step g L c) as [L1 b]. specialize (IH L1).
  destruct (nlru g L1 cs). cbn [snd length] in *. auto.
Qed.
Lemma nlru_rrun : forall l R L, rnd R -> (forall i, L i = cut R i) ->
  rnd (rrun R l) /\ forall i, fst (nlru g L (map CAcc l)) i = cut (rrun R l) i.
Proof.
  induction l as [|a l IH]; intros R L H E; [split; auto|].
  change (rrun R (a :: l)) with (rrun (rstep R a) l). cbn [map nlru].
  pose proof (nlru_cut R L a H E) as E1. destruct (nlru_step g L (CAcc a)) as [L1 b]. cbn [fst] in E1.
  destruct (IH (rstep R a) L1 (rstep_nd R a H) E1) as [Q1 Q2]. split; auto.
  intros i. specialize (Q2 i). destruct (nlru g L1 (map CAcc l)). cbn [fst] in *. auto.
Qed.

Definition in_set (i k : N) : bool := kset g k =? i.
Lemma rrun_snoc : forall R l a, rrun R (l ++ [a]) = rstep (rrun R l) a.
Proof. intros. unfold rrun. rewrite fold_left_app. auto. Qed.
Lemma remove_app' : forall k (a b : list N), remove N.eq_dec k (a ++ b) = remove N.eq_dec k a ++ remove N.eq_dec k b.
Proof. intros. apply remove_app. Qed.

(** lines above [k] in the recency list *)
Lemma rec_above : forall k R post, (exists Y, R (kset g k) = k :: Y) -> (forall c, In c post -> key g c <> k) ->
  exists X Y, rrun R post (kset g k) = X ++ k :: Y /\ NoDup X /\
    forall x, In x X <-> In x (filter (in_set (kset g k)) (map (key g) post)).
Proof.
  intros k R post [Y0 E0]. induction post as [|c post IH] using rev_ind; intros H.
  - exists [], Y0. cbn. split; auto. split; [constructor|tauto].
  - destruct IH as (X & Y & E & ND & IN). { intros c' I. apply H. apply in_or_app; auto. }
    assert (NK : key g c <> k) by (apply H; apply in_or_app; cbn; auto).
    rewrite rrun_snoc. unfold rstep. rewrite map_app, filter_app. cbn [map filter]. unfold in_set at 2.
    destruct (N.eqb_spec (kset g (key g c)) (kset g k)) as [S|S].
    + rewrite S, upd_eq, E, remove_app'. cbn [remove]. destruct (N.eq_dec (key g c) k) as [|_]; [congruence|].
      exists (key g c :: remove N.eq_dec (key g c) X), (remove N.eq_dec (key g c) Y). split; auto.
      split; [constructor; [apply remove_In|apply remove_nodup; auto]|].
      intros x. rewrite in_app_iff, <- IN. cbn [In]. split.
      * intros [<-|I]; auto. apply in_remove in I. tauto.
      * intros [I|[<-|[]]]; auto. destruct (N.eq_dec x (key g c)) as [->|N]; auto. right. apply in_in_remove; auto.
    + rewrite upd_neq by auto. exists X, Y. rewrite app_nil_r. auto.
Qed.
Lemma rec_in : forall k R l i, In k (rrun R l i) -> In k (R i) \/ In k (map (key g) l).
Proof.
  intros k R l. induction l as [|c l IH] using rev_ind; intros i H; auto.
  rewrite rrun_snoc in H. rewrite map_app, in_app_iff. cbn. unfold rstep in H.
  destruct (N.eq_dec i (kset g (key g c))) as [->|N]; [rewrite upd_eq in H|rewrite upd_neq in H by auto].
  - destruct H as [->|H]; auto. apply in_remove in H. destruct (IH _ (proj1 H)); auto.
  - destruct (IH _ H); auto.
Qed.
Lemma in_firstn_pos : forall n X (k : N) Y, NoDup (X ++ k :: Y) -> (In k (firstn n (X ++ k :: Y)) <-> (length X < n)%nat).
Proof.
  intros n X k Y ND. rewrite firstn_app. split.
  - intros H. destruct (Nat.lt_ge_cases (length X) n) as [L|L]; auto. exfalso.
    replace (n - length X)%nat with 0%nat in H by lia. cbn [firstn] in H. rewrite app_nil_r in H.
    apply in_firstn in H. apply NoDup_remove_2 in ND. apply ND. apply in_or_app; auto.
  - intros L. apply in_or_app. right. destruct (n - length X)%nat eqn:E; [lia|]. left; auto.
Qed.
Lemma last_split : forall k l, In k (map (key g) l) ->
  exists pre b post, l = pre ++ b :: post /\ key g b = k /\ forall c, In c post -> key g c <> k.
Proof.
  intros k l. induction l as [|c l IH] using rev_ind; intros H; [destruct H|].
  destruct (N.eq_dec (key g c) k) as [E|N].
  - exists l, c, []. split; auto.
  - rewrite map_app, in_app_iff in H. destruct H as [H|[H|[]]]; [|congruence].
    destruct (IH H) as (pre & b & post & -> & K & Q). exists pre, b, (post ++ [c]). rewrite <- app_assoc. split; auto. split; auto.
    intros c' I. apply in_app_iff in I. destruct I as [I|[<-|[]]]; auto.
Qed.

Theorem tracker_distance : forall l a rest b, Forall (fun x => x < 2 ^ 32) (l ++ a :: rest) ->
  nth_error (snd (tcalls g (trk0 g) (map CAcc (l ++ a :: rest)))) (length l) = Some b ->
  (b = true <-> exists pre x post, l = pre ++ x :: post /\ key g x = key g a /\
     (forall c, In c post -> key g c <> key g a) /\
     (length (nodup N.eq_dec (filter (fun k => N.eqb (kset g k) (kset g (key g a))) (map (key g) post))) < g_ways g)%nat).
Proof.
  intros l a rest b F H. rewrite tracker_lru in H.
  2:{ rewrite Forall_forall in *. intros c I. apply in_map_iff in I. destruct I as (x & <- & I). cbn. auto. }
  rewrite map_app, nlru_app, nth_error_app2 in H by (rewrite nlru_len, map_length; auto).
  rewrite nlru_len, map_length, Nat.sub_diag in H. cbn [map nlru] in H.
  set (L := fst (nlru g (fun _ => []) (map CAcc l))) in *.
  destruct (nlru_rrun l (fun _ => []) (fun _ => [])) as [RN RL].
  { intros i. constructor. } { intros i. unfold cut. destruct (g_ways g); auto. }
  fold L in RL.
  assert (HB : b = if in_dec N.eq_dec (key g a) (L (kset g (key g a))) then true else false).
  { destruct (nlru_step g L (CAcc a)) as [L1 b1] eqn:ST. destruct (nlru g L1 (map CAcc rest)). cbn in H.
    apply (f_equal snd) in ST. cbn [nlru_step snd] in ST. congruence. }
  clear H. set (k := key g a) in *.
  assert (HB2 : b = true <-> In k (cut (rrun (fun _ => []) l) (kset g k))).
  { rewrite HB, <- RL. destruct (in_dec N.eq_dec k (L (kset g k))); split; auto; discriminate || tauto. }
  rewrite HB2. clear HB HB2 RL L.
  assert (POS : forall pre x post, l = pre ++ x :: post -> key g x = k -> (forall c, In c post -> key g c <> k) ->
    (In k (cut (rrun (fun _ => []) l) (kset g k)) <->
     (length (nodup N.eq_dec (filter (fun k' => N.eqb (kset g k') (kset g k)) (map (key g) post))) < g_ways g)%nat)).
  { intros pre x post El Ex Ep.
    assert (RR : rrun (fun _ => []) l = rrun (rstep (rrun (fun _ => []) pre) x) post).
    { rewrite El. unfold rrun. rewrite fold_left_app. auto. }
    destruct (rec_above k (rstep (rrun (fun _ => []) pre) x) post) as (X & Y & E & ND & IN); auto.
    { unfold rstep. rewrite Ex, upd_eq. eauto. }
    specialize (RN (kset g k)). unfold cut. rewrite RR in *. rewrite E in *. rewrite in_firstn_pos by auto.
    replace (length X) with (length (nodup N.eq_dec (filter (fun k' => N.eqb (kset g k') (kset g k)) (map (key g) post)))); [tauto|].
    apply Nat.le_antisymm; apply NoDup_incl_length; auto using NoDup_nodup.
    - intros z Z. apply nodup_In in Z. apply IN in Z. auto.
    - intros z Z. apply nodup_In. apply IN. auto. }
  split.
  - intros H. destruct (last_split k l) as (pre & x & post & El & Ex & Ep).
    { unfold cut in H. apply in_firstn in H. apply rec_in in H. destruct H as [[]|H]; auto. }
    exists pre, x, post. split; auto. split; auto. split; auto. apply (POS pre x post); auto.
  - intros (pre & x & post & El & Ex & Ep & LT). apply (POS pre x post); auto.
Qed.
End Tracker.
