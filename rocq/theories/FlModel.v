(** The model cache is a flat byte memory, and agrees with the RTL cache. *)
From Coq Require Import PeanoNat NArith List Bool Lia.
From Verif Require Import Bits Params Msg Rtl Mem Spec System ParamsProofs ViewDefs SysProofs SysFacts Facts1 Facts3 Traffic Fl FlProofs.
Import ListNotations.
Open Scope N_scope.

(** ** Specification: the calls on a flat byte memory *)
Section Spec.
Variable p : params.
(** number of bytes, 0 meaning the data width *)
Definition nbytes_of (len : N) : nat := N.to_nat (if len =? 0 then p_dbw p / 8 else len).
Definition call_exec (m : mem) (c : fcall) : mem * N :=
  match c with
  | FRead a _ len => (m, rd_bytes m a (nbytes_of len))
  | FWrite a v _ len | FInit a v _ len => (wr_bytes m a (nbytes_of len) v, 0)
  | FAmo a v _ _ f => let old := rd_bytes m a 4 in (wr_bytes m a 4 (amo_fun f old (trunc 32 v)), old)
  | FInv _ | FFlush _ => (m, 0)
  end.
Fixpoint call_data (m : mem) (cs : list fcall) : list N :=
  match cs with [] => [] | c :: cs => snd (call_exec m c) :: call_data (fst (call_exec m c)) cs end.
(** initial memory: words over zeros *)
Definition load_words (init : list (N * N)) : mem :=
  fold_left (fun m av => wr_bytes m (fst av) 4 (snd av)) init (fun _ => 0).
Definition fcall_addr (c : fcall) : N :=
  match c with FRead a _ _ | FWrite a _ _ _ | FInit a _ _ _ | FAmo a _ _ _ _ => a | _ => 0 end.
End Spec.

Lemma rd_feq : forall n m m' a, (forall x, m x = m' x) -> rd_bytes m a n = rd_bytes m' a n.
Proof. intros. apply rd_ext. intros. rewrite H. auto. Qed.
Lemma wr_feq : forall n m m' a d, (forall x, m x = m' x) -> forall x, wr_bytes m a n d x = wr_bytes m' a n d x.
Proof. intros. unfold wr_bytes. destruct ((a <=? x) && (x <? a + N.of_nat n)); auto. Qed.
Lemma call_feq : forall p m m' c, (forall x, m x = m' x) ->
  (forall x, fst (call_exec p m c) x = fst (call_exec p m' c) x) /\ snd (call_exec p m c) = snd (call_exec p m' c).
Proof.
  intros p m m' c E. destruct c; cbn [call_exec fst snd]; split; auto; try (apply rd_feq; auto); try (apply wr_feq; auto).
  rewrite (rd_feq 4 m m' a E). apply wr_feq; auto.
Qed.

Section M.
Variable p : params.
Variables nbytes nways nbanks : N.
Variable e : N.
Hypothesis LB : p_clw p / 8 = 2 ^ e.
Hypothesis E32 : e <= 32.

Lemma offw_e : fl_offw p = e.
Proof. unfold fl_offw. rewrite LB. apply N.log2_pow2. lia. Qed.
Lemma fline : forall a, a < 2 ^ 32 -> fl_line p a = a / 2 ^ e.
Proof.
  intros a A. unfold fl_line, slice. rewrite offw_e, N.shiftr_div_pow2. apply trunc_small.
  apply N.div_lt_upper_bound; [apply N.pow_nonzero; lia|]. rewrite <- N.pow_add_r. replace (e + (32 - e)) with 32 by lia. auto.
Qed.
Lemma foff : forall a, fl_off p a = a mod 2 ^ e.
Proof. intros. unfold fl_off, slice. rewrite offw_e, N.shiftr_0_r, N.sub_0_r. apply trunc_mod. Qed.

(** the bytes held by the dictionary *)
Definition fbytes (m : N -> option N) : mem := fun x => gb (get_line m (x / 2 ^ e)) (x mod 2 ^ e).

Lemma addr_in : forall a k, a mod 2 ^ e + k < 2 ^ e -> (a + k) / 2 ^ e = a / 2 ^ e /\ (a + k) mod 2 ^ e = a mod 2 ^ e + k.
Proof.
  intros a k H. pose proof (N.pow_nonzero 2 e ltac:(lia)) as NZ. pose proof (N.div_mod a (2 ^ e) NZ) as D.
  assert (X : a + k = 2 ^ e * (a / 2 ^ e) + (a mod 2 ^ e + k)) by lia. split.
  - symmetry. apply (N.div_unique _ _ _ _ H X).
  - symmetry. apply (N.mod_unique _ _ _ _ H X).
Qed.
Lemma fread : forall m a n, a < 2 ^ 32 -> a mod 2 ^ e + n <= 2 ^ e ->
  get_b (get_line m (fl_line p a)) (fl_off p a) n = rd_bytes (fbytes m) a (N.to_nat n).
Proof.
  intros m a n A F. rewrite foff, fline by auto. unfold get_b. symmetry.
  rewrite (rd_slice (N.to_nat n) (fbytes m) a (get_line m (a / 2 ^ e)) (a mod 2 ^ e)).
  - rewrite N2Nat.id. f_equal. lia.
  - intros k K. rewrite N2Nat.id in K. destruct (addr_in a k) as [E1 E2]; [lia|]. unfold fbytes. rewrite E1, E2. apply trunc_gb.
Qed.
Lemma gb_set : forall L o n v k, gb (set_b L o n v) k = if (o <=? k) && (k <? o + n) then gb v (k - o) else gb L k.
Proof.
  intros L o n v k. apply N.bits_inj; intro i.
  assert (X : N.testbit (gb (set_b L o n v) k) i = (i <? 8) && (if (o <=? k) && (k <? o + n) then N.testbit v (8 * (k - o) + i) else N.testbit L (8 * k + i))).
  { rewrite testbit_gb. destruct (N.ltb_spec i 8) as [I|I]; cbn [andb]; auto.
    unfold set_b. rewrite testbit_mwrite.
    destruct (N.leb_spec o k) as [O|O]; cbn [andb].
    - rewrite !N.shiftl_spec_high' by lia. rewrite testbit_ones.
      replace (8 * k + i - 8 * o) with (8 * (k - o) + i) by lia.
      destruct (N.ltb_spec k (o + n)), (N.ltb_spec (8 * (k - o) + i) (8 * n)); auto; lia.
    - rewrite !N.shiftl_spec_low by lia. auto. }
  rewrite X. destruct ((o <=? k) && (k <? o + n)); rewrite testbit_gb; auto.
Qed.
Lemma fwrite : forall m a n v w, a < 2 ^ 32 -> a mod 2 ^ e + n <= 2 ^ e -> (forall k, k < n -> gb v k = gb w k) ->
  forall x, fbytes (upd m (fl_line p a) (Some (set_b (get_line m (fl_line p a)) (fl_off p a) n v))) x = wr_bytes (fbytes m) a (N.to_nat n) w x.
Proof.
  intros m a n v w A F V x. rewrite foff, fline by auto. unfold wr_bytes. rewrite N2Nat.id.
  pose proof (N.pow_nonzero 2 e ltac:(lia)) as NZ.
  pose proof (N.div_mod a (2 ^ e) NZ) as Da. pose proof (N.div_mod x (2 ^ e) NZ) as Dx.
  pose proof (N.mod_lt x (2 ^ e) NZ) as Lx. pose proof (N.mod_lt a (2 ^ e) NZ) as La.
  unfold fbytes at 1, get_line at 1. set (qa := a / 2 ^ e) in *. set (qx := x / 2 ^ e) in *. unfold upd.
  destruct (N.eqb_spec qx qa) as [Q|Q].
  - rewrite gb_set. destruct (N.leb_spec a x), (N.leb_spec (a mod 2 ^ e) (x mod 2 ^ e)); cbn [andb]; try nia.
    + destruct (N.ltb_spec x (a + n)), (N.ltb_spec (x mod 2 ^ e) (a mod 2 ^ e + n)); try nia.
      * rewrite V by lia. replace (x mod 2 ^ e - a mod 2 ^ e) with (x - a) by nia. reflexivity.
      * unfold fbytes. fold qx. rewrite Q. auto.
    + unfold fbytes. fold qx. rewrite Q. auto.
  - destruct (N.leb_spec a x) as [H|H]; cbn [andb]; [|reflexivity].
    destruct (N.ltb_spec x (a + n)) as [H1|H1]; [|reflexivity].
    exfalso. apply Q. destruct (addr_in a (x - a)) as [E1 _]; [lia|]. unfold qx, qa. rewrite <- E1. f_equal. lia.
Qed.
Lemma ftouch : forall m k x, fbytes (upd m k (Some (get_line m k))) x = fbytes m x.
Proof. intros. unfold fbytes, get_line, upd. destruct (N.eqb_spec (x / 2 ^ e) k) as [->|]; auto. Qed.

Lemma fits_ok : forall a n, fits p (fl_off p a) n = true -> 0 < n /\ a mod 2 ^ e + n <= 2 ^ e.
Proof.
  intros a n H. unfold fits in H. rewrite foff, LB in H. apply andb_prop in H. destruct H as [H1 H2].
  apply N.ltb_lt in H1. apply N.leb_le in H2. auto.
Qed.

Lemma fl_call_flat : forall s c s' x, fcall_addr c < 2 ^ 32 -> fl_call nbytes nways nbanks p s c = Some (s', x) ->
  cr_data (snd x) = snd (call_exec p (fbytes (fl_mem s)) c) /\
  forall z, fbytes (fl_mem s') z = fst (call_exec p (fbytes (fl_mem s)) c) z.
Proof.
  intros s c s' x A H. destruct c as [a opq len|a v opq len|a v opq len|a v opq len f|opq|opq]; cbn [fcall_addr] in A; cbn [fl_call] in H.
  - destruct (access _ _ _) as [t hit]. destruct (fits p (fl_off p a) (fl_n p len)) eqn:F; cbn [andb] in H; [|discriminate].
    destruct (fl_n p len <=? p_dbw p / 8) eqn:D; [|discriminate]. injection H as <- <-. cbn [fl_mem snd cr_data call_exec fst].
    apply fits_ok in F. destruct F as [F0 F]. split; [|apply ftouch]. rewrite fread by auto. reflexivity.
  - destruct (access _ _ _) as [t hit]. destruct (fits p (fl_off p a) (fl_n p len)) eqn:F; cbn [andb] in H; [|discriminate].
    destruct (fl_n p len <=? p_dbw p / 8) eqn:D; [|discriminate]. injection H as <- <-. cbn [fl_mem snd cr_data call_exec fst].
    apply fits_ok in F. destruct F as [F0 F]. split; auto. apply fwrite; auto.
    intros k K. apply N.leb_le in D. apply gb_ext. intros i I. rewrite testbit_slice, testbit_trunc.
    assert (D8 : 8 * (p_dbw p / 8) <= p_dbw p) by (apply N.mul_div_le; lia). set (q := p_dbw p / 8) in *. clearbody q.
    rewrite N.add_0_r. rewrite (proj2 (N.ltb_lt (8 * k + i) (p_dbw p))) by lia.
    match goal with |- (?a <? ?b) && _ = _ => rewrite (proj2 (N.ltb_lt a b)) by (change b with (8 * fl_n p len - 0); lia) end. auto.
  - destruct (access _ _ _) as [t hit]. destruct (fits p (fl_off p a) (fl_n p len)) eqn:F; cbn [andb] in H; [|discriminate].
    destruct (fl_n p len =? p_dbw p / 8) eqn:D; [|discriminate]. injection H as <- <-. cbn [fl_mem snd cr_data call_exec fst].
    apply fits_ok in F. destruct F as [F0 F]. split; auto. apply fwrite; auto.
    intros k K. apply N.eqb_eq in D. apply gb_ext. intros i I. rewrite testbit_trunc.
    assert (D8 : 8 * (p_dbw p / 8) <= p_dbw p) by (apply N.mul_div_le; lia). set (q := p_dbw p / 8) in *. clearbody q.
    destruct (N.ltb_spec (8 * k + i) (p_dbw p)); [|lia]. auto.
  - destruct (fl_mem s (fl_line p a)) as [L|] eqn:EL; [|discriminate].
    destruct (fits p (fl_off p a) 4) eqn:F; cbn [andb] in H; [|discriminate].
    destruct (_ && _) in H; [|discriminate]. injection H as <- <-. cbn [fl_mem snd cr_data call_exec fst].
    apply fits_ok in F. destruct F as [F0 F].
    assert (GL : L = get_line (fl_mem s) (fl_line p a)) by (unfold get_line; rewrite EL; auto).
    assert (RD : get_b L (fl_off p a) 4 = rd_bytes (fbytes (fl_mem s)) a 4) by (rewrite GL, fread by auto; auto).
    split; auto. rewrite RD, GL. apply (fwrite (fl_mem s) a 4); auto.
  - injection H as <- <-. cbn. auto.
  - injection H as <- <-. cbn. auto.
Qed.

Lemma fl_calls_flat : forall cs s m s' xs, Forall (fun c => fcall_addr c < 2 ^ 32) cs -> (forall z, fbytes (fl_mem s) z = m z) ->
  fl_calls nbytes nways nbanks p s cs = Some (s', xs) -> map (fun x => cr_data (snd x)) xs = call_data p m cs.
Proof.
  induction cs as [|c cs IH]; intros s m s' xs F E H; cbn [fl_calls] in H.
  - injection H as <- <-. auto.
  - inversion F; subst. destruct (fl_call nbytes nways nbanks p s c) as [[s1 x]|] eqn:C; [|discriminate].
    destruct (fl_calls nbytes nways nbanks p s1 cs) as [[s2 xs1]|] eqn:R; [|discriminate]. injection H as <- <-.
    destruct (fl_call_flat s c s1 x H2 C) as [Q1 Q2]. destruct (call_feq p _ _ c E) as [Q3 Q4].
    cbn [map call_data]. f_equal; [congruence|]. apply (IH s1 (fst (call_exec p m c)) s2 xs1); auto.
    intros z. rewrite Q2, Q3. auto.
Qed.
Lemma fl_init : forall init z, 2 <= e -> Forall (fun av => fst av < 2 ^ 32 /\ fst av mod 4 = 0) init ->
  fbytes (fl_mem (fl0 nbytes nways nbanks p init)) z = load_words init z.
Proof.
  intros init z E2. unfold fl0, load_words. cbn [fl_mem].
  assert (G : forall m m', (forall z, fbytes m z = m' z) -> Forall (fun av => fst av < 2 ^ 32 /\ fst av mod 4 = 0) init ->
    fbytes (fold_left (fl_load p) init m) z = fold_left (fun m av => wr_bytes m (fst av) 4 (snd av)) init m' z).
  { induction init as [|[a v] init IH]; intros m m' E F; [apply E|]. inversion F; subst. destruct H1 as [A AL]. cbn [fst] in *.
    cbn [fold_left]. apply IH; auto. intros z'. unfold fl_load. cbn [fst snd].
    rewrite (fwrite m a 4 (trunc 32 v) v).
    - apply wr_feq. auto.
    - auto.
    - pose proof (N.pow_nonzero 2 e ltac:(lia)) as NZ. pose proof (N.mod_lt a (2 ^ e) NZ) as La.
      assert (EE : 2 ^ e = 4 * 2 ^ (e - 2)) by (change 4 with (2 ^ 2); rewrite <- N.pow_add_r; f_equal; lia).
      assert (M4 : (a mod 2 ^ e) mod 4 = 0).
      { rewrite EE, N.mod_mul_r; [|lia|apply N.pow_nonzero; lia]. rewrite AL, N.add_0_l, N.mul_comm. apply N.mod_mul. lia. }
      apply N.mod_divide in M4; [|lia]. destruct M4 as [q Q]. rewrite EE in *. lia.
    - intros k K. apply gb_ext. intros i I. rewrite testbit_trunc. destruct (N.ltb_spec (8 * k + i) 32); [auto|lia]. }
  apply G. intros z'. unfold fbytes, get_line. cbn. apply N.bits_inj; intro i. rewrite testbit_gb, N.bits_0. destruct (i <? 8); auto.
Qed.
Theorem model_flat : forall init cs s' xs, 2 <= e -> Forall (fun av => fst av < 2 ^ 32 /\ fst av mod 4 = 0) init ->
  Forall (fun c => fcall_addr c < 2 ^ 32) cs ->
  fl_calls nbytes nways nbanks p (fl0 nbytes nways nbanks p init) cs = Some (s', xs) ->
  map (fun x => cr_data (snd x)) xs = call_data p (load_words init) cs.
Proof. intros init cs s' xs E2 FI FC H. eapply fl_calls_flat; eauto. intros z. apply fl_init; auto. Qed.
End M.

(** ** Agreement with the RTL cache *)
Section Agree.
Variable p : params.
Hypothesis W : wf_params p.
Hypothesis A32 : p_abw p <= 32.
Notation nb := (p_num_bytes p). Notation na := (p_assoc p).
Let g := fl_geom nb na 0 p.

Lemma g_eq : g_ways g = N.to_nat na /\ g_off g + g_bank g = offw p /\ g_idx g = idxw p.
Proof.
  unfold g, fl_geom, mk_geom. cbn [g_ways g_off g_bank g_idx]. change (0 =? 0) with true. cbv iota.
  split; auto. split.
  - rewrite N.add_0_r, (clw_bytes p W). apply N.log2_pow2. lia.
  - change (p_num_bytes p * 8 / p_clw p / p_assoc p) with (nblocks p). rewrite (nblocks_pow p W). apply N.log2_pow2. lia.
Qed.
Lemma key_line : forall a, key g a = line_of p a.
Proof. intros. unfold key, line_of, line_bytes. destruct g_eq as (_ & E & _). rewrite E, (clw_bytes p W). auto. Qed.
Lemma kset_line : forall k, kset g k = k mod nblocks p.
Proof. intros. unfold kset. destruct g_eq as (_ & _ & E). rewrite E, (nblocks_pow p W). auto. Qed.
Lemma g32 : (0 < g_ways g)%nat /\ g_off g + g_bank g + g_idx g <= 32.
Proof.
  destruct g_eq as (E1 & E2 & E3). rewrite E1, E2, E3. destruct (wf_assoc p W) as [Z|Z]; rewrite Z; (split; [cbn; lia|]);
  pose proof (wf_abw p W); lia.
Qed.
Lemma addr32 : forall a, a < 2 ^ p_abw p -> a < 2 ^ 32.
Proof. intros a H. eapply N.lt_le_trans; [exact H|]. apply N.pow_le_mono_r; lia. Qed.

(** requests as tracker calls *)
Lemma lru_agree : forall L L' t r c, tinv g t L -> (forall i, L i = L' i) -> call_addr c < 2 ^ 32 ->
  (rw_req r = true /\ c = CAcc (cq_addr r)) \/ (rw_req r = false /\ is_amo (cq_type r) = true /\ c = CAmo (cq_addr r)) \/
  (rw_req r = false /\ is_amo (cq_type r) = false /\ (cq_type r =? T_INV) = true /\ c = CInv) ->
  tinv g (fst (tcall_step g t c)) (fst (nlru_step g L c)) /\
  (forall i, fst (nlru_step g L c) i = fst (lru_step p L' r) i) /\
  b2n (snd (tcall_step g t c)) = snd (lru_step p L' r).
Proof.
  intros L L' t r c I E A H. destruct g32 as [G1 G2]. destruct (step_ok g G1 G2 t L c I A) as [S1 S2].
  split; auto. rewrite S2. destruct g_eq as (EW & _ & _). unfold lru_step.
  destruct H as [(R & ->) | [(R & AM & ->) | (R & AM & T & ->)]]; rewrite R; [| rewrite AM | rewrite AM, T];
    cbn [nlru_step fst snd]; unfold upd; rewrite ?key_line, ?kset_line.
  - split; [intros i; rewrite EW | ]; rewrite !E; auto. destruct (in_dec _ _ _); auto.
  - split; auto. intros i. rewrite !E; auto.
  - auto.
Qed.

(** the part of the calls that the RTL cache supports with the same meaning *)
Definition no_double (c : fcall) : Prop :=
  match c with FWrite _ _ _ len => len <> 3 | FInit _ _ _ _ => False | _ => True end.

Record agrees (s : fl) (m : mem) (L : N -> list N) : Prop := mkAg {
  ag_t : exists L1, tinv g (fl_t s) L1 /\ forall i, L1 i = L i;
  ag_m : eqm p (fbytes (offw p) (fl_mem s)) m
}.

Lemma call_agree : forall s c s' x m L, agrees s m L -> no_double c -> wf_req p (fst x) ->
  fl_call nb na 0 p s c = Some (s', x) ->
  agrees s' (fst (flat_exec p m (fst x))) (fst (lru_step p L (fst x))) /\
  cr_data (snd x) = snd (flat_exec p m (fst x)) /\ cr_test (snd x) = snd (lru_step p L (fst x)) /\
  cr_type (snd x) = cq_type (fst x) /\ cr_opq (snd x) = cq_opq (fst x) /\ cr_len (snd x) = cq_len (fst x).
Proof.
  intros s c s' x m L AG ND WF H. destruct AG as [(L1 & TI & EL) EM].
  assert (LB := clw_bytes p W).
  assert (O32 : offw p <= 32) by (pose proof (wf_abw p W); lia).
  assert (AX : fcall_addr c < 2 ^ 32).
  { destruct WF as (HA & _). destruct c; cbn [fcall_addr]; try (change (2 ^ 32) with 4294967296; lia); apply addr32;
    cbn [fl_call] in H; try (destruct (access _ _ _)); try (destruct (fl_mem s _); [|discriminate]);
    (destruct (_ && _) in H; [|discriminate]); injection H as _ <-; exact HA. }
  destruct (fl_call_flat p nb na 0 (offw p) LB O32 s c s' x AX H) as [CD CM].
  (* the flat memory effect *)
  assert (FE : (forall z, z < 2 ^ p_abw p -> trunc 8 (fst (call_exec p (fbytes (offw p) (fl_mem s)) c) z) = trunc 8 (fst (flat_exec p (fbytes (offw p) (fl_mem s)) (fst x)) z)) /\
               snd (call_exec p (fbytes (offw p) (fl_mem s)) c) = snd (flat_exec p (fbytes (offw p) (fl_mem s)) (fst x))).
  { destruct c as [a opq len|a v opq len|a v opq len|a v opq len f|opq|opq]; cbn [fl_call] in H.
    - destruct (access _ _ _). destruct (_ && _) in H; [|discriminate]. injection H as _ <-. split; reflexivity.
    - destruct (access _ _ _). destruct (fits p (fl_off p a) (fl_n p len)) eqn:F; cbn [andb] in H; [|discriminate].
      destruct (fl_n p len <=? p_dbw p / 8) eqn:D in H; [|discriminate]. injection H as _ <-.
      cbn [call_exec fst snd]. unfold flat_exec. cbn [cq_type cq_addr cq_data fst].
      change (T_WRITE =? T_READ) with false. change (T_WRITE =? T_WRITE) with true. cbv iota. cbn [fst snd]. split; auto.
      assert (RB : req_bytes p (mkCReq T_WRITE opq a len (trunc (p_dbw p) v)) = fl_n p len).
      { unfold req_bytes. cbn [cq_type cq_len]. change (T_WRITE =? T_WRITE) with true. cbn [no_double] in ND.
        destruct (N.eqb_spec len 3); [congruence|]. reflexivity. }
      rewrite RB. unfold nbytes_of. change (if len =? 0 then p_dbw p / 8 else len) with (fl_n p len).
      intros z Z. unfold wr_bytes. rewrite N2Nat.id. destruct ((a <=? z) && (z <? a + fl_n p len)) eqn:B; auto. f_equal.
      apply andb_prop in B. destruct B as [B1 B2]. apply N.leb_le in B1. apply N.ltb_lt in B2. apply N.leb_le in D.
      apply gb_ext. intros i I. rewrite !testbit_trunc.
      assert (D8 : 8 * (p_dbw p / 8) <= p_dbw p) by (apply N.mul_div_le; lia). set (q := p_dbw p / 8) in *. clearbody q.
      rewrite (proj2 (N.ltb_lt (8 * (z - a) + i) (p_dbw p))) by lia. auto.
    - destruct ND.
    - destruct (fl_mem s (fl_line p a)); [|discriminate].
      destruct (fits p (fl_off p a) 4); cbn [andb] in H; [|discriminate].
      destruct (N.leb_spec T_AMO_ADD f); cbn [andb] in H; [|discriminate].
      destruct (N.leb_spec f T_AMO_XOR); cbn [andb] in H; [|discriminate].
      destruct (negb _) in H; [|discriminate]. injection H as _ <-.
      cbn [call_exec fst snd]. unfold flat_exec. cbn [cq_type cq_addr cq_data fst].
      assert (T1 : (f =? T_READ) = false /\ (f =? T_WRITE) = false /\ is_amo f = true).
      { unfold is_amo, T_INV, T_READ, T_WRITE, T_AMO_ADD, T_AMO_XOR in *.
        destruct (N.leb_spec 3 f), (N.ltb_spec f 14), (N.eqb_spec f 0), (N.eqb_spec f 1); cbn [andb]; repeat split; auto; lia. }
      destruct T1 as (T1 & T2 & T3). rewrite T1, T2, T3. cbn [fst snd]. rewrite trunc_trunc. split; auto.
    - injection H as _ <-. split; reflexivity.
    - injection H as _ <-. split; reflexivity. }
  destruct FE as [FE1 FE2]. destruct (flat_ext p W _ _ _ EM WF) as [X1 X2].
  assert (AM : eqm p (fbytes (offw p) (fl_mem s')) (fst (flat_exec p m (fst x)))).
  { intros z Z. rewrite CM, FE1 by auto. apply X1; auto. }
  assert (DD : cr_data (snd x) = snd (flat_exec p m (fst x))) by congruence.
  clear CD CM FE1 FE2 X1 X2 WF EM.
  (* the tracker *)
  assert (GG : fl_geom nb na 0 p = g) by reflexivity.
  destruct c as [a opq len|a v opq len|a v opq len|a v opq len f|opq|opq]; cbn [fl_call fcall_addr] in H, AX.
  - rewrite GG in H. pose proof (lru_agree L1 L (fl_t s) (mkCReq T_READ opq a len 0) (CAcc a) TI EL AX (or_introl (conj eq_refl eq_refl))) as LA.
    cbn [tcall_step] in LA. destruct (access g (fl_t s) a) as [t hit]. destruct LA as (LA1 & LA2 & LA3). cbn [fst snd] in LA1, LA3.
    destruct (_ && _) in H; [|discriminate]. injection H as <- <-. cbn [fst snd cr_test cr_type cr_opq cr_len cq_type cq_opq cq_len] in *.
    split; [constructor; auto; exists (fst (nlru_step g L1 (CAcc a))); auto | repeat split; auto].
  - rewrite GG in H. pose proof (lru_agree L1 L (fl_t s) (mkCReq T_WRITE opq a len (trunc (p_dbw p) v)) (CAcc a) TI EL AX (or_introl (conj eq_refl eq_refl))) as LA.
    cbn [tcall_step] in LA. destruct (access g (fl_t s) a) as [t hit]. destruct LA as (LA1 & LA2 & LA3). cbn [fst snd] in LA1, LA3.
    destruct (_ && _) in H; [|discriminate]. injection H as <- <-. cbn [fst snd cr_test cr_type cr_opq cr_len cq_type cq_opq cq_len] in *.
    split; [constructor; auto; exists (fst (nlru_step g L1 (CAcc a))); auto | repeat split; auto].
  - destruct ND.
  - rewrite GG in H. destruct (fl_mem s (fl_line p a)); [|discriminate].
    destruct (fits p (fl_off p a) 4); cbn [andb] in H; [|discriminate].
    destruct (N.leb_spec T_AMO_ADD f); cbn [andb] in H; [|discriminate].
    destruct (N.leb_spec f T_AMO_XOR); cbn [andb] in H; [|discriminate].
    destruct (negb _) in H; [|discriminate]. injection H as <- <-.
    assert (T1 : rw_req (mkCReq f opq a len (trunc 32 v)) = false /\ is_amo f = true).
    { unfold rw_req. cbn [cq_type]. unfold is_amo, T_INV, T_READ, T_WRITE, T_AMO_ADD, T_AMO_XOR in *.
      destruct (N.leb_spec 3 f), (N.ltb_spec f 14), (N.eqb_spec f 0), (N.eqb_spec f 1); cbn [andb orb]; repeat split; auto; lia. }
    destruct T1 as [T1 T2].
    pose proof (lru_agree L1 L (fl_t s) (mkCReq f opq a len (trunc 32 v)) (CAmo a) TI EL AX (or_intror (or_introl (conj T1 (conj T2 eq_refl))))) as LA.
    cbn [tcall_step] in LA. destruct LA as (LA1 & LA2 & LA3). cbn [fst snd] in LA1, LA3.
    cbn [fst snd cr_test cr_type cr_opq cr_len cq_type cq_opq cq_len] in *.
    split; [constructor; auto; exists (fst (nlru_step g L1 (CAmo a))); auto | repeat split; auto].
  - injection H as <- <-.
    pose proof (lru_agree L1 L (fl_t s) (mkCReq T_INV opq 0 0 0) CInv TI EL AX (or_intror (or_intror (conj eq_refl (conj eq_refl (conj eq_refl eq_refl)))))) as LA.
    destruct LA as (LA1 & LA2 & LA3). split; [constructor; auto; exists (fst (nlru_step g L1 CInv)); auto | repeat split; auto].
  - injection H as <- <-. split; [constructor; auto; exists L1; auto | repeat split; auto].
Qed.

Lemma calls_agree : forall cs s s' xs m L, agrees s m L -> Forall no_double cs ->
  fl_calls nb na 0 p s cs = Some (s', xs) -> forall A B, map fst xs = A ++ B -> Forall (wf_req p) A ->
  firstn (length A) (map (fun x => cr_data (snd x)) xs) = flat_data p m A /\
  firstn (length A) (map (fun x => cr_test (snd x)) xs) = lru_tests p L A /\
  map (fun x => (cr_type (snd x), cr_opq (snd x), cr_len (snd x))) xs = map (fun x => (cq_type (fst x), cq_opq (fst x), cq_len (fst x))) xs.
Proof.
  assert (EC : forall s c s' x, fl_call nb na 0 p s c = Some (s', x) ->
    (cr_type (snd x), cr_opq (snd x), cr_len (snd x)) = (cq_type (fst x), cq_opq (fst x), cq_len (fst x))).
  { intros s c s' x H. destruct c; cbn [fl_call] in H; try (destruct (access _ _ _)); try (destruct (fl_mem s _); [|discriminate]);
    try (destruct (_ && _) in H; [|discriminate]); injection H as _ <-; reflexivity. }
  assert (EX : forall cs s s' xs, fl_calls nb na 0 p s cs = Some (s', xs) ->
    map (fun x => (cr_type (snd x), cr_opq (snd x), cr_len (snd x))) xs = map (fun x => (cq_type (fst x), cq_opq (fst x), cq_len (fst x))) xs).
  { induction cs as [|c cs IH]; intros s s' xs H; cbn [fl_calls] in H; [injection H as <- <-; auto|].
    destruct (fl_call nb na 0 p s c) as [[s1 x]|] eqn:C; [|discriminate].
    destruct (fl_calls nb na 0 p s1 cs) as [[s2 xs1]|] eqn:R; [|discriminate]. injection H as <- <-. cbn [map]. f_equal; eauto. }
  induction cs as [|c cs IH]; intros s s' xs m L AG ND H A B EA WA.
  - cbn in H. injection H as <- <-. destruct A; [|discriminate]. cbn. auto.
  - pose proof (EX _ _ _ _ H) as EE. inversion ND; subst. cbn [fl_calls] in H.
    destruct (fl_call nb na 0 p s c) as [[s1 x]|] eqn:C; [|discriminate].
    destruct (fl_calls nb na 0 p s1 cs) as [[s2 xs1]|] eqn:R; [|discriminate]. injection H as <- <-.
    destruct A as [|r A]; [cbn; auto|]. cbn [map app] in EA. injection EA as E1 E2. inversion WA; subst.
    destruct (call_agree s c s1 x m L AG H2 H1 C) as (AG' & D1 & D2 & _).
    destruct (IH s1 s2 xs1 _ _ AG' H3 R A B E2 H4) as (Q1 & Q2 & _).
    cbn [length firstn map flat_data lru_tests]. rewrite D1, D2, Q1, Q2. auto.
Qed.

Lemma resp_ext : forall l l', map cr_data l = map cr_data l' -> map cr_test l = map cr_test l' ->
  map (fun y => (cr_type y, cr_opq y, cr_len y)) l = map (fun y => (cr_type y, cr_opq y, cr_len y)) l' -> l = l'.
Proof.
  induction l as [|y l IH]; intros [|z l'] P1 P2 P3; cbn [map] in *; try discriminate; auto.
  injection P1 as D P1. injection P2 as T P2. injection P3 as A1 A2 A3 P3. f_equal; auto.
  destruct y, z. cbn in *. congruence.
Qed.
Theorem rtl_model : forall s0 is m0 m rq rs init cs s' xs, sys_run p s0 is m0 m rq rs ->
  let tr := trace_of p s0 is in
  Forall (fun av => fst av < 2 ^ 32 /\ fst av mod 4 = 0) init ->
  (forall a, a < 2 ^ p_abw p -> trunc 8 (m0 a) = trunc 8 (load_words init a)) ->
  fl_calls nb na 0 p (fl0 nb na 0 p init) cs = Some (s', xs) -> Forall no_double cs ->
  (exists rest, map fst xs = accepted tr ++ rest) -> exists rest, map snd xs = responses tr ++ rest.
Proof.
  intros s0 is m0 m rq rs init cs s' xs R tr FI M0 H ND [B EA].
  assert (WA : Forall (wf_req p) (accepted tr)).
  { destruct R as (_ & CO & _). unfold client_ok in CO. fold tr in CO. unfold accepted. clear - CO.
    induction CO as [|io l H CO IH]; cbn [flat_map]; auto. apply Forall_app. split; auto.
    destruct (i_req_en (fst io)) eqn:E; auto. constructor; auto. apply H; auto. }
  assert (AG : agrees (fl0 nb na 0 p init) m0 lru_empty).
  { constructor.
    - exists (fun _ => []). split; auto. unfold fl0. cbn [fl_t]. destruct g32. apply tinv0; auto.
    - intros a A. rewrite (fl_init p nb na 0 (offw p) (clw_bytes p W)); auto.
      + symmetry. auto.
      + pose proof (wf_abw p W). lia.
      + pose proof (offw_ge3 p W). lia. }
  destruct (calls_agree cs _ s' xs m0 lru_empty AG ND H (accepted tr) B EA WA) as (Q1 & Q2 & Q3).
  destruct (sys_flat p W _ _ _ _ _ _ R) as (r1 & F1). destruct (sys_echo p W _ _ _ _ _ _ R) as (r2 & F2).
  destruct (sys_tests p W _ _ _ _ _ _ R) as (r3 & F3). fold tr in F1, F2, F3.
  rewrite F1 in Q1. rewrite F3 in Q2.
  assert (LE : (length (responses tr) <= length (accepted tr))%nat).
  { apply (f_equal (@length _)) in F2. rewrite app_length, !map_length in F2. lia. }
  assert (LX : (length (accepted tr) <= length xs)%nat).
  { apply (f_equal (@length _)) in EA. rewrite app_length, map_length in EA. lia. }
  exists (skipn (length (responses tr)) (map snd xs)).
  rewrite <- (firstn_skipn (length (responses tr)) (map snd xs)) at 1. f_equal.
  assert (PF : forall T (f : cresp -> T) (l : list T) k r, firstn k (map (fun x : creq * cresp => f (snd x)) xs) = map f (responses tr) ++ r ->
     (length (responses tr) <= k)%nat -> map f (firstn (length (responses tr)) (map snd xs)) = map f (responses tr)).
  { intros T f l k r E K. rewrite firstn_map, map_map. rewrite <- (map_map (fun x => x) (fun x : creq * cresp => f (snd x))), map_id.
    rewrite <- firstn_map. apply (f_equal (firstn (length (responses tr)))) in E. rewrite firstn_firstn, Nat.min_l in E by auto.
    rewrite E. rewrite firstn_app, map_length, Nat.sub_diag, firstn_O, app_nil_r. apply firstn_all2. rewrite map_length; auto. }
  pose proof (PF _ cr_data [] _ _ Q1 LE) as P1. pose proof (PF _ cr_test [] _ _ Q2 LE) as P2.
  assert (P3 : map (fun y => (cr_type y, cr_opq y, cr_len y)) (firstn (length (responses tr)) (map snd xs)) =
               map (fun y => (cr_type y, cr_opq y, cr_len y)) (responses tr)).
  { apply (PF _ (fun y => (cr_type y, cr_opq y, cr_len y)) [] (length (accepted tr)) r2); auto.
    rewrite Q3. rewrite <- (map_map fst (fun r => (cq_type r, cq_opq r, cq_len r))), EA, map_app.
    rewrite firstn_app, map_length, Nat.sub_diag, firstn_O, app_nil_r. rewrite firstn_all2 by (rewrite map_length; auto). auto. }
  exact (resp_ext _ _ P1 P2 P3).
Qed.
End Agree.
