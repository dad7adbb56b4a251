(** C73: counting memory requests of a cache and of a bigger one. *)
From Coq Require Import Arith NArith List Bool Lia FinFun.
From Verif Require Import Bits Params Msg Rtl Mem Spec System ParamsProofs Traffic MetaProofs PendProofs TrafProofs ExactSpec Exact Bigger BiggerSpec Bigger2.
Import ListNotations.
Open Scope N_scope.

Definition cnt {A} (f : A -> bool) (l : list A) : nat := length (filter f l).
Lemma cnt_app : forall A (f : A -> bool) l l', cnt f (l ++ l') = (cnt f l + cnt f l')%nat.
Proof. intros. unfold cnt. rewrite filter_app, app_length. auto. Qed.
Lemma cnt_map : forall A B (g : A -> B) (f : B -> bool) l, cnt f (map g l) = cnt (fun x => f (g x)) l.
Proof. intros A B g f l. unfold cnt. induction l as [|x l IH]; auto. cbn [map filter]. destruct (f (g x)); cbn [length]; auto. Qed.
Lemma cnt_ext : forall A (f g : A -> bool) l, (forall x, f x = g x) -> cnt f l = cnt g l.
Proof. intros A f g l H. unfold cnt. f_equal. apply filter_ext. auto. Qed.
Lemma cnt_none : forall A (f : A -> bool) l, (forall x, In x l -> f x = false) -> cnt f l = 0%nat.
Proof. intros A f l H. unfold cnt. induction l as [|x l IH]; auto. cbn [filter]. rewrite H by (left; auto). apply IH. intros; apply H; right; auto. Qed.
Lemma cnt_split : forall A (f g : A -> bool) l, cnt f l = (cnt (fun x => f x && g x) l + cnt (fun x => f x && negb (g x)) l)%nat.
Proof. intros A f g l. unfold cnt. induction l as [|x l IH]; auto. cbn [filter]. destruct (f x), (g x); cbn [andb negb length]; lia. Qed.
Lemma cnt_one : forall A B (f : B -> bool) (h : A -> list B) k0 L, NoDup L -> In k0 L -> (forall k, In k L -> k <> k0 -> cnt f (h k) = 0%nat) ->
  cnt f (flat_map h L) = cnt f (h k0).
Proof.
  intros A B f h k0 L ND. induction ND as [|k L NI ND IH]; intros I H; [destruct I|]. cbn [flat_map]. rewrite cnt_app.
  assert (Z : forall L', (forall k, In k L' -> cnt f (h k) = 0%nat) -> cnt f (flat_map h L') = 0%nat).
  { induction L' as [|a L' IH']; intros H'; auto. cbn [flat_map]. rewrite cnt_app, H' by (left; auto). rewrite IH'; auto. intros k' I'. apply H'. right. auto. }
  destruct I as [->|I].
  - rewrite Z; [lia|]. intros k I. apply H; [right; auto | intros ->; contradiction].
  - rewrite IH; auto; [|intros; apply H; auto; right; auto]. rewrite H; [lia | left; auto | intros ->; contradiction].
Qed.
Definition b2n (b : bool) : nat := if b then 1%nat else 0%nat.

(** *** write-backs of one line, or of some of its words *)
Section K.
Variable p : params.
Hypothesis W : wf_params p.
Variable l0 : N. Variable tj : N -> bool.
Definition pT (P : N -> bool) : bool := existsb (fun j => P (words p * l0 + j) && tj j) (range (words p)).
Definition hT (s : shape) : bool :=
  (sh_type s =? T_WRITE) && (sh_addr s =? line_bytes p * l0) && existsb (fun j => N.testbit (sh_mask s) j && tj j) (range (words p)).
Definition mT (r : creq) : bool :=
  (cq_type r =? T_WRITE) && existsb (fun j => ((word_num (cq_addr r) <=? words p * l0 + j) && (words p * l0 + j <=? word_num (cq_addr r + req_bytes p r - 1))) && tj j) (range (words p)).

Lemma existsb_ext : forall A (f g : A -> bool) l, (forall x, In x l -> f x = g x) -> existsb f l = existsb g l.
Proof. intros A f g l H. induction l as [|x l IH]; auto. cbn [existsb]. rewrite H by (left; auto). rewrite IH; auto. intros; apply H; right; auto. Qed.
Lemma existsb_or : forall A (f g : A -> bool) l, existsb (fun x => f x || g x) l = existsb f l || existsb g l.
Proof. intros A f g l. induction l as [|x l IH]; auto. cbn [existsb]. rewrite IH. destruct (f x), (g x), (existsb f l), (existsb g l); auto. Qed.
Lemma existsb_none : forall A (f : A -> bool) l, (forall x, In x l -> f x = false) -> existsb f l = false.
Proof. intros A f l H. destruct (existsb f l) eqn:E; auto. apply existsb_exists in E. destruct E as (x & I & E). rewrite H in E; auto. Qed.
Lemma pT_ext : forall P P', (forall k, k / words p = l0 -> P k = P' k) -> pT P = pT P'.
Proof. intros P P' H. apply existsb_ext. intros j J. apply in_range in J. rewrite H; auto. apply word_line; auto. Qed.
Lemma pT_mono : forall P P', (forall k, P k = true -> P' k = true) -> pT P = true -> pT P' = true.
Proof.
  intros P P' H E. apply existsb_exists in E. destruct E as (j & J & E). apply existsb_exists. exists j. split; auto.
  apply andb_true_iff in E. destruct E as [E1 E2]. rewrite H, E2; auto.
Qed.
Lemma pT_mark : forall P r, pT (mark p P r) = pT P || mT r.
Proof.
  intros P r. unfold pT, mT, mark. destruct (cq_type r =? T_WRITE); cbn [andb]; [|rewrite orb_false_r; auto].
  rewrite <- existsb_or. apply existsb_ext. intros j _. destruct (P (words p * l0 + j)), (tj j), (word_num (cq_addr r) <=? _), (_ <=? _); auto.
Qed.
Lemma lb_pos' : 0 < line_bytes p. Proof. apply (lb_pos p W). Qed.
Lemma addr_eqb : forall l, (line_bytes p * l =? line_bytes p * l0) = (l =? l0).
Proof. intros l. pose proof lb_pos'. destruct (N.eqb_spec l l0) as [->|N]; [apply N.eqb_refl|]. apply N.eqb_neq. nia. Qed.
Lemma cnt_wb : forall P l, cnt hT (wb p P l) = if l =? l0 then b2n (pT P) else 0%nat.
Proof.
  intros P l. unfold wb, cnt, hT. destruct (N.eqb_spec (pend_mask p P l) 0) as [Z|Z].
  - cbn [filter length]. destruct (N.eqb_spec l l0) as [->|N]; auto. unfold pT. rewrite existsb_none; auto.
    intros j J. pose proof (pend_bit p P l0 j) as B. rewrite Z, N.bits_0 in B. apply in_range in J. apply N.ltb_lt in J. rewrite J in B. cbn [andb] in B. rewrite <- B. auto.
  - cbn [filter sh_type sh_addr sh_mask]. rewrite N.eqb_refl, addr_eqb. cbn [andb]. destruct (N.eqb_spec l l0) as [->|N]; cbn [andb]; auto.
    replace (existsb _ _) with (pT P); [destruct (pT P); auto|]. apply existsb_ext. intros j J. rewrite pend_bit. apply in_range, N.ltb_lt in J. rewrite J. auto.
Qed.
Lemma cnt_notw : forall s, sh_type s <> T_WRITE -> cnt hT [s] = 0%nat.
Proof. intros s H. unfold cnt, hT. cbn [filter]. apply N.eqb_neq in H. rewrite H. auto. Qed.
Lemma pT_unpend : forall P l, pT (unpend p P l) = if l =? l0 then false else pT P.
Proof.
  intros P l. destruct (N.eqb_spec l l0) as [->|N].
  - apply existsb_none. intros j J. apply in_range in J. unfold unpend. rewrite word_line, N.eqb_refl by auto. rewrite andb_false_r. auto.
  - apply pT_ext. intros k E. unfold unpend. rewrite E. destruct (N.eqb_spec l0 l); [congruence|]. apply andb_true_r.
Qed.

(** nothing is lost: a pending line is written back once *)
Lemma pend_rw : forall x l, wfx p x -> (cnt hT (fst (x_rw p x l)) + b2n (pT (x_pend (snd (x_rw p x l)))) = b2n (pT (x_pend x)))%nat.
Proof.
  intros x l X. destruct (rw_cases p x l X) as (w & Hw & C & _ & _ & EP & EG). cbv zeta in C, EP, EG. rewrite EG, cnt_app.
  assert (R0 : cnt hT (match x_slot x (l mod nblocks p) w with Some (v, true) => if v =? l then [] else [mkShape T_READ (line_bytes p * l) 0 0] | _ => [mkShape T_READ (line_bytes p * l) 0 0] end) = 0%nat).
  { destruct (x_slot x (l mod nblocks p) w) as [[v [|]]|]; [destruct (v =? l); auto| |]; apply cnt_notw; discriminate. }
  rewrite R0. unfold victim in EP. destruct (x_slot x (l mod nblocks p) w) as [[v b]|].
  - destruct (N.eqb_spec v l) as [->|NE]; cbn [negb andb] in EP.
    + rewrite (pT_ext (x_pend (snd (x_rw p x l))) (x_pend x)); auto. intros k _. rewrite EP, andb_true_r. auto.
    + rewrite cnt_wb. rewrite (pT_ext (x_pend (snd (x_rw p x l))) (unpend p (x_pend x) v)) by (intros k _; apply EP). rewrite pT_unpend. destruct (v =? l0); cbn [b2n]; lia.
  - rewrite (pT_ext (x_pend (snd (x_rw p x l))) (x_pend x)); auto. intros k _. rewrite EP, andb_true_r. auto.
Qed.
Lemma pend_amo : forall x l q, wfx p x -> sh_type q <> T_WRITE ->
  (cnt hT (fst (x_amo p x l q)) + b2n (pT (x_pend (snd (x_amo p x l q)))) = b2n (pT (x_pend x)))%nat.
Proof.
  intros x l q X Q. unfold x_amo. destruct (x_way p x l); cbn [fst snd x_pend].
  - rewrite cnt_app, cnt_wb, pT_unpend, cnt_notw by auto. destruct (l =? l0); cbn [b2n]; lia.
  - rewrite cnt_notw by auto. lia.
Qed.
Lemma pend_flush : forall x, wfx p x -> cnt hT (fst (x_flush p x)) = b2n (pT (x_pend x)).
Proof.
  intros x X. unfold x_flush. cbn [fst].
  set (h := fun k => match x_slot x (k / p_assoc p) (k mod p_assoc p) with Some (l, _) => wb p (x_pend x) l | None => [] end).
  assert (A0 : 0 < p_assoc p) by (destruct (wf_assoc p W) as [A|A]; rewrite A; lia).
  assert (K : forall k, k < p_assoc p * nblocks p -> (exists b, loc p x l0 (k mod p_assoc p) b /\ k / p_assoc p = l0 mod nblocks p) \/ cnt hT (h k) = 0%nat).
  { intros k Hk. unfold h. destruct (x_slot x (k / p_assoc p) (k mod p_assoc p)) as [[l b]|] eqn:S; [|auto].
    rewrite cnt_wb. destruct (N.eqb_spec l l0) as [->|N]; auto. left. exists b.
    pose proof (N.mod_lt k (p_assoc p) ltac:(lia)) as Hw. assert (Hi : k / p_assoc p < nblocks p) by (apply N.div_lt_upper_bound; lia).
    pose proof (wx_line p x X _ _ _ _ Hi Hw S) as E. split; auto. split; auto. rewrite E. auto. }
  assert (ND : NoDup (rev (range (p_assoc p * nblocks p)))).
  { apply NoDup_rev. unfold range. apply Injective_map_NoDup; [intros a b; apply Nat2N.inj | apply seq_NoDup]. }
  destruct (x_way p x l0) as [w|] eqn:E.
  - destruct (way_some p x l0 w E) as [b L]. set (k0 := p_assoc p * (l0 mod nblocks p) + w).
    pose proof (proj1 L) as Hw. pose proof (nb_lt p W l0) as Hi.
    assert (D : k0 / p_assoc p = l0 mod nblocks p) by (symmetry; apply N.div_unique with w; auto).
    assert (M : k0 mod p_assoc p = w) by (symmetry; apply N.mod_unique with (l0 mod nblocks p); auto).
    rewrite (cnt_one _ _ hT h k0); auto.
    + unfold h. rewrite D, M, (proj2 L), cnt_wb, N.eqb_refl. auto.
    + apply in_rev. rewrite rev_involutive. apply in_range. unfold k0. nia.
    + intros k I NE. apply in_rev in I. rewrite ?rev_involutive in I. apply in_range in I. destruct (K k I) as [(b' & L' & D')|]; auto. exfalso. apply NE.
      assert (k mod p_assoc p = w) by (apply (wx_uniq p x X l0 _ w b' b); auto). pose proof (N.div_mod k (p_assoc p)). unfold k0. nia.
  - assert (Z : pT (x_pend x) = false).
    { apply existsb_none. intros j J. apply in_range in J. destruct (x_pend x (words p * l0 + j)) eqn:PJ; auto. exfalso.
      destruct (wx_pend p x X _ PJ) as (w & b & L). rewrite word_line in L by auto. apply (way_none p x l0 w b E L). }
    rewrite Z. cbn [b2n]. unfold cnt. replace (filter hT _) with (@nil shape); auto. symmetry.
    destruct (filter hT (flat_map h (rev (range (p_assoc p * nblocks p))))) as [|s t] eqn:F; auto. exfalso.
    assert (I : In s (filter hT (flat_map h (rev (range (p_assoc p * nblocks p)))))) by (rewrite F; left; auto).
    apply filter_In in I. destruct I as [I HT]. apply in_flat_map in I. destruct I as (k & I & IH). apply in_rev in I. rewrite ?rev_involutive in I. apply in_range in I.
    destruct (K k I) as [(b' & L' & _)|C]; [eapply way_none; eauto|].
    assert (I2 : In s (filter hT (h k))) by (apply filter_In; auto). unfold cnt in C. destruct (filter hT (h k)); [destruct I2 | discriminate].
Qed.
Lemma amo_type : forall r, is_amo (cq_type r) = true -> cq_type r <> T_WRITE /\ cq_type r <> T_READ.
Proof. intros r H. split; intros E; rewrite E in H; discriminate H. Qed.
Theorem pend_step : forall x r, wfx p x ->
  (cnt hT (fst (x_step p x r)) + b2n (pT (pre p x r)) = b2n (pT (x_pend x)))%nat /\ forall k, x_pend (snd (x_step p x r)) k = mark p (pre p x r) r k.
Proof.
  intros x r X. unfold pre, x_step. cbv zeta. destruct (N.eqb_spec (cq_type r) T_INV) as [T|T]; cbn [orb].
  - split; auto. intros k. unfold mark. rewrite T. auto.
  - destruct (N.eqb_spec (cq_type r) T_FLUSH) as [T2|T2]; cbn [orb].
    + split; [|intros k; unfold mark; rewrite T2; auto]. rewrite pend_flush by auto. cbn [snd x_flush x_pend].
      replace (pT (fun _ : N => false)) with false; [cbn [b2n]; lia|]. symmetry. apply existsb_none. auto.
    + destruct (is_amo (cq_type r)) eqn:AM.
      * destruct (amo_type r AM) as [TW _]. split; [apply pend_amo; auto|]. intros k. unfold mark. apply N.eqb_neq in TW. rewrite TW. auto.
      * pose proof (pend_rw x (line_of p (cq_addr r)) X) as H. destruct (x_rw p x (line_of p (cq_addr r))) as [g x1]. cbn [fst snd] in *. split; auto.
Qed.
End K.

(** *** refills *)
Section L.
Variable p : params.
Hypothesis W : wf_params p.
Definition isR (s : shape) : bool := sh_type s =? T_READ.
Definition isW (s : shape) : bool := sh_type s =? T_WRITE.
Lemma wb_all : forall P l s, In s (wb p P l) -> sh_type s = T_WRITE /\ sh_addr s = line_bytes p * l /\ sh_mask s <> 0 /\ sh_mask s < 2 ^ words p.
Proof.
  intros P l s I. unfold wb in I. destruct (N.eqb_spec (pend_mask p P l) 0) as [Z|Z]; [destruct I|]. destruct I as [<-|[]]. cbn. repeat split; auto.
  destruct (N.lt_ge_cases (pend_mask p P l) (2 ^ words p)) as [|G]; auto. exfalso.
  assert (L : words p <= N.log2 (pend_mask p P l)) by (apply N.log2_le_pow2; [lia | auto]).
  pose proof (N.bit_log2 _ Z) as B. rewrite pend_bit in B. apply N.ltb_ge in L. rewrite L in B. discriminate.
Qed.
Lemma wb_noR : forall P l, cnt isR (wb p P l) = 0%nat.
Proof. intros. apply cnt_none. intros s I. destruct (wb_all _ _ _ I) as (E & _). unfold isR. rewrite E. auto. Qed.
(** what a request asks for besides write-backs *)
Definition isO (s : shape) : bool := negb (isR s) && negb (isW s).
(** [f]: a test for READs of one line, or for all *)
Lemma step_notw : forall x r, wfx p x -> filter (fun s => negb (isW s)) (fst (x_step p x r)) =
  if (cq_type r =? T_INV) || (cq_type r =? T_FLUSH) then [] else
  if is_amo (cq_type r) then [mkShape (cq_type r) (cq_addr r) 4 0] else
  match x_way p x (line_of p (cq_addr r)) with
  | Some w => match x_slot x (line_of p (cq_addr r) mod nblocks p) w with Some (_, true) => [] | _ => [mkShape T_READ (line_bytes p * line_of p (cq_addr r)) 0 0] end
  | None => [mkShape T_READ (line_bytes p * line_of p (cq_addr r)) 0 0] end.
Proof.
  intros x r X. set (f := fun s => negb (isW s)).
  assert (FW : forall P l, filter f (wb p P l) = []).
  { intros P l. assert (H : cnt f (wb p P l) = 0%nat) by (apply cnt_none; intros s I; destruct (wb_all _ _ _ I) as (E & _); unfold f, isW; rewrite E; auto).
    unfold cnt in H. destruct (filter f (wb p P l)); auto. discriminate. }
  unfold x_step. cbv zeta. destruct (cq_type r =? T_INV); cbn [orb]; auto. destruct (cq_type r =? T_FLUSH); cbn [orb].
  - cbn [fst x_flush]. set (L := rev _). clearbody L. induction L as [|k L IH]; auto. cbn [flat_map]. rewrite filter_app, IH, app_nil_r.
    destruct (x_slot x (k / p_assoc p) (k mod p_assoc p)) as [[l b]|]; auto.
  - destruct (is_amo (cq_type r)) eqn:AM.
    + assert (FQ : filter f [mkShape (cq_type r) (cq_addr r) 4 0] = [mkShape (cq_type r) (cq_addr r) 4 0]).
      { cbn [filter]. unfold f, isW. cbn [sh_type]. destruct (amo_type r AM) as [H _]. apply N.eqb_neq in H. rewrite H. auto. }
      unfold x_amo. destruct (x_way p x (line_of p (cq_addr r))); cbn [fst]; auto. rewrite filter_app, FW. auto.
    + unfold x_rw. cbv zeta. destruct (x_way p x (line_of p (cq_addr r))) as [w|]; cbn [fst].
      * destruct (x_slot x (line_of p (cq_addr r) mod nblocks p) w) as [[v [|]]|]; auto.
      * destruct (x_slot x (line_of p (cq_addr r) mod nblocks p) (x_next x (line_of p (cq_addr r) mod nblocks p))) as [[v b]|]; cbn [fst]; auto. rewrite filter_app, FW. auto.
Qed.
End L.
