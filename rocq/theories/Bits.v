(** Bit vectors as [N], with the handful of PyMTL operators the code uses.
    PyMTL's Bits are fixed-width unsigned integers; here a value is an [N]
    and every truncation that a PyMTL port performs is an explicit [trunc]. *)
From Coq Require Import NArith List Bool Lia.
Import ListNotations.
Open Scope N_scope.

(** pymtl3 [clog2] (used in CacheDerivedParams.py 51-64): ceiling log2. *)
Definition clog2 (n : N) : N := N.log2_up n.

(** Truncation to [w] bits, pymtl3 [trunc] / assignment to a [w]-bit port. *)
Definition trunc (w x : N) : N := N.land x (N.ones w).

(** [x[lo:hi]] in PyMTL. *)
Definition slice (x lo hi : N) : N := trunc (hi - lo) (N.shiftr x lo).

(** [concat(hi, lo)] with [lo] of width [wlo]. *)
Definition cat (hi : N) (wlo lo : N) : N := N.lor (N.shiftl hi wlo) (trunc wlo lo).

(** Write [new] into [old] at the bits selected by [mask]
    (SramGenericPRTL.py 50-52). *)
Definition mwrite (old new mask : N) : N := N.lor (N.ldiff old mask) (N.land new mask).

(** A [w]-bit vector given bit by bit: models "for i in range(w): out[i] @= f(i)". *)
Fixpoint bits_ofn (f : N -> bool) (n : nat) : N :=
  match n with
  | O => 0
  | S n' => let r := bits_ofn f n' in
            if f (N.of_nat n') then N.setbit r (N.of_nat n') else r
  end.
Definition bits_of (f : N -> bool) (w : N) : N := bits_ofn f (N.to_nat w).

Definition b2n (b : bool) : N := if b then 1 else 0.

(** [range n] = [0; 1; ...; n-1] as in Python. *)
Definition range (n : N) : list N := map N.of_nat (seq 0 (N.to_nat n)).

(** Function update, used for arrays. *)
Definition upd {A} (f : N -> A) (k : N) (v : A) : N -> A :=
  fun x => if x =? k then v else f x.

(** The same function, but with its values at ways 0 and 1 computed once
    (only there so that [vm_compute] can run the model). *)
Definition memo {A} (f : N -> A) : N -> A :=
  let a := f 0 in let b := f 1 in
  fun w => if w =? 0 then a else if w =? 1 then b else f w.

(** ** Lemmas *)

Lemma memo_eq : forall A (f : N -> A) w, memo f w = f w.
Proof.
  intros; unfold memo. destruct (N.eqb_spec w 0); [congruence|].
  destruct (N.eqb_spec w 1); congruence.
Qed.

Lemma trunc_mod : forall w x, trunc w x = x mod 2 ^ w.
Proof. intros; unfold trunc; apply N.land_ones. Qed.

Lemma trunc_lt : forall w x, trunc w x < 2 ^ w.
Proof. intros; rewrite trunc_mod; apply N.mod_lt; apply N.pow_nonzero; lia. Qed.

Lemma trunc_small : forall w x, x < 2 ^ w -> trunc w x = x.
Proof. intros; rewrite trunc_mod; apply N.mod_small; auto. Qed.

Lemma trunc_trunc : forall w x, trunc w (trunc w x) = trunc w x.
Proof. intros; apply trunc_small, trunc_lt. Qed.

Lemma testbit_ones : forall n i, N.testbit (N.ones n) i = (i <? n).
Proof.
  intros. destruct (N.ltb_spec i n).
  - now apply N.ones_spec_low.
  - now apply N.ones_spec_high.
Qed.

Lemma testbit_trunc : forall w x i, N.testbit (trunc w x) i = (i <? w) && N.testbit x i.
Proof. intros; unfold trunc; rewrite N.land_spec, testbit_ones, andb_comm; auto. Qed.

Lemma testbit_slice : forall x lo hi i,
  N.testbit (slice x lo hi) i = (i <? hi - lo) && N.testbit x (i + lo).
Proof. intros; unfold slice; rewrite testbit_trunc, N.shiftr_spec'; auto. Qed.

Lemma slice_lt : forall x lo hi, slice x lo hi < 2 ^ (hi - lo).
Proof. intros; apply trunc_lt. Qed.

Lemma testbit_mwrite : forall o n m i,
  N.testbit (mwrite o n m) i = if N.testbit m i then N.testbit n i else N.testbit o i.
Proof.
  intros; unfold mwrite; rewrite N.lor_spec, N.ldiff_spec, N.land_spec.
  destruct (N.testbit m i), (N.testbit o i), (N.testbit n i); auto.
Qed.

Lemma mwrite_idem : forall o n m, mwrite (mwrite o n m) n m = mwrite o n m.
Proof.
  intros; apply N.bits_inj; intro i; rewrite !testbit_mwrite.
  destruct (N.testbit m i); auto.
Qed.

Lemma mwrite_0 : forall o n, mwrite o n 0 = o.
Proof. intros; apply N.bits_inj; intro; rewrite testbit_mwrite, N.bits_0; auto. Qed.

Lemma testbit_bits_ofn : forall f n i,
  N.testbit (bits_ofn f n) i = (i <? N.of_nat n) && f i.
Proof.
  induction n; intros.
  - simpl. destruct i; auto.
  - cbn [bits_ofn]. rewrite Nat2N.inj_succ.
    destruct (f (N.of_nat n)) eqn:E.
    + rewrite N.setbit_eqb, IHn.
      destruct (N.eqb_spec (N.of_nat n) i).
      * subst. rewrite E. destruct (N.ltb_spec (N.of_nat n) (N.succ (N.of_nat n))); auto; lia.
      * simpl. destruct (N.ltb_spec i (N.of_nat n)), (N.ltb_spec i (N.succ (N.of_nat n))); auto; lia.
    + rewrite IHn.
      destruct (N.ltb_spec i (N.of_nat n)), (N.ltb_spec i (N.succ (N.of_nat n))); auto; try lia.
      assert (i = N.of_nat n) by lia; subst; rewrite E; auto.
Qed.

Lemma testbit_bits_of : forall f w i, N.testbit (bits_of f w) i = (i <? w) && f i.
Proof. intros; unfold bits_of; rewrite testbit_bits_ofn, N2Nat.id; auto. Qed.

Lemma lt_pow2_bits : forall w x, (forall i, w <= i -> N.testbit x i = false) -> x < 2 ^ w.
Proof.
  intros w x H.
  assert (x = trunc w x) as ->; [|apply trunc_lt].
  apply N.bits_inj; intro i; rewrite testbit_trunc.
  destruct (N.ltb_spec i w); auto.
Qed.

Lemma bits_of_lt : forall f w, bits_of f w < 2 ^ w.
Proof.
  intros; apply lt_pow2_bits; intros; rewrite testbit_bits_of.
  destruct (N.ltb_spec i w); auto; lia.
Qed.

Lemma testbit_high : forall w x i, x < 2 ^ w -> w <= i -> N.testbit x i = false.
Proof.
  intros. rewrite <- (trunc_small w x) by auto. rewrite testbit_trunc.
  destruct (N.ltb_spec i w); auto; lia.
Qed.

Lemma testbit_cat : forall h w l i,
  N.testbit (cat h w l) i = if i <? w then N.testbit l i else N.testbit h (i - w).
Proof.
  intros; unfold cat; rewrite N.lor_spec, testbit_trunc.
  destruct (N.ltb_spec i w).
  - rewrite N.shiftl_spec_low by auto. simpl; auto.
  - rewrite N.shiftl_spec_high'; auto. simpl. rewrite orb_false_r; auto.
Qed.

Lemma slice_cat_hi : forall h w l n, h < 2 ^ n -> slice (cat h w l) w (w + n) = h.
Proof.
  intros; apply N.bits_inj; intro i; rewrite testbit_slice, testbit_cat.
  replace (w + n - w) with n by lia.
  destruct (N.ltb_spec i n).
  - destruct (N.ltb_spec (i + w) w); try lia. simpl. f_equal; lia.
  - simpl. symmetry; eapply testbit_high; eauto.
Qed.

Lemma slice_cat_lo : forall h w l, slice (cat h w l) 0 w = trunc w l.
Proof.
  intros; apply N.bits_inj; intro i; rewrite testbit_slice, testbit_cat, testbit_trunc.
  rewrite N.sub_0_r, N.add_0_r. destruct (i <? w) eqn:E; auto.
Qed.

Lemma in_range : forall n k, In k (range n) <-> k < n.
Proof.
  intros; unfold range; rewrite in_map_iff; split.
  - intros (x & <- & H). apply in_seq in H. lia.
  - intros. exists (N.to_nat k). rewrite N2Nat.id. split; auto. apply in_seq. lia.
Qed.

Lemma upd_eq : forall A (f : N -> A) k v, upd f k v k = v.
Proof. intros; unfold upd; rewrite N.eqb_refl; auto. Qed.
Lemma upd_neq : forall A (f : N -> A) k v x, x <> k -> upd f k v x = f x.
Proof. intros; unfold upd; destruct (N.eqb_spec x k); congruence. Qed.
