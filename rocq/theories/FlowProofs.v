(** Proofs about Flow.v. *)
From Coq Require Import NArith List Bool Lia String Ascii Decimal DecimalString DecimalN.
From Verif Require Import Bits Params Msg Units Units2 Rtl SramJunk ParamsProofs Units2Proofs Flow.
Import ListNotations.
Open Scope N_scope.
Local Open Scope string_scope.

(** ** strings *)
Local Notation "x =? y" := (N.eqb x y) : string_scope.
Local Notation "x <? y" := (N.ltb x y) : string_scope.
Lemma app_assoc_s : forall a b c : string, (a ++ b) ++ c = a ++ b ++ c.
Proof. induction a; intros; cbn; f_equal; auto. Qed.
Lemma app_nil_s : forall a : string, a ++ "" = a.
Proof. induction a; cbn; f_equal; auto. Qed.

Lemma prefix_iff : forall a s, String.prefix a s = true <-> exists r, s = a ++ r.
Proof.
  induction a as [|c a IH]; intros s.
  - split; [intros; exists s; auto | destruct s; auto].
  - destruct s as [|d s]; cbn.
    + split; [discriminate | intros [r H]; discriminate H].
    + destruct (ascii_dec c d) as [->|N].
      * rewrite IH. split; intros [r H]; exists r; congruence.
      * split; [discriminate | intros [r H]; congruence].
Qed.

Lemma all_c_app : forall P a b, all_c P (a ++ b) = all_c P a && all_c P b.
Proof. induction a; intros; cbn; auto. rewrite IHa. apply andb_assoc. Qed.

Definition digit (c : ascii) : bool := let n := nat_of_ascii c in (Nat.leb 48 n && Nat.leb n 57)%nat.
Lemma ne_digits : forall u, all_c digit (NilEmpty.string_of_uint u) = true.
Proof. induction u; cbn; auto. Qed.
Lemma dec_digits : forall n, all_c digit (dec n) = true.
Proof.
  intros n. unfold dec, NilZero.string_of_uint. destruct (N.to_uint n) as [| d | d | d | d | d | d | d | d | d | d];
    try reflexivity; apply (ne_digits (_ d)).
Qed.
Lemma dec_inj : forall a b, dec a = dec b -> a = b.
Proof.
  intros a b H. assert (U : forall n, N.to_uint n <> Nil).
  { intros n. destruct n; cbn; [discriminate|]. apply DecimalPos.Unsigned.to_uint_nonnil. }
  apply DecimalN.Unsigned.to_uint_inj.
  pose proof (NilZero.usu (N.to_uint a) (U a)) as A. pose proof (NilZero.usu (N.to_uint b) (U b)) as B.
  unfold dec in H. rewrite H in A. congruence.
Qed.

(** digits followed by a non-digit can be parsed *)
Lemma split_digits : forall a b c r c' r', all_c digit a = true -> all_c digit b = true ->
  digit c = false -> digit c' = false -> a ++ String c r = b ++ String c' r' -> a = b /\ String c r = String c' r'.
Proof.
  induction a as [|x a IH]; intros [|y b] c r c' r' A B C C' E; cbn in *.
  - auto.
  - exfalso. injection E as E1 E2. subst. apply andb_prop in B. destruct B; congruence.
  - exfalso. injection E as E1 E2. subst. apply andb_prop in A. destruct A; congruence.
  - injection E as E1 E2. subst. apply andb_prop in A. apply andb_prop in B.
    destruct (IH b c r c' r') as [-> H]; tauto.
Qed.
Lemma app_cancel : forall a b c : string, a ++ b = a ++ c -> b = c.
Proof. induction a; intros b c H; cbn in *; auto. injection H; auto. Qed.

Lemma instance_prefix : forall b w b' w' suf, String.prefix (instance b' w') (instance b w ++ suf) = true ->
  b = b' /\ w = w'.
Proof.
  intros b w b' w' suf H. apply prefix_iff in H. destruct H as [r H]. unfold instance, module_name in H.
  rewrite !app_assoc_s in H. apply app_cancel in H.
  apply (split_digits (dec b) (dec b') "_" _ "_" _ (dec_digits b) (dec_digits b') eq_refl eq_refl) in H.
  destruct H as [B H]. apply dec_inj in B. change (String "_" ?x) with ("_" ++ x) in H.
  apply (app_cancel "__num_words_") in H.
  apply (split_digits (dec w) (dec w') " " _ " " _ (dec_digits w) (dec_digits w') eq_refl eq_refl) in H.
  destruct H as [W _]. apply dec_inj in W. auto.
Qed.
Lemma instance_self : forall b w suf, String.prefix (instance b w) (instance b w ++ suf) = true.
Proof. intros. apply prefix_iff. eauto. Qed.

Lemma prefix_S : forall x c s, not_S c = true -> String.prefix (String "S" x) (String c s) = false.
Proof.
  intros x c s H. destruct (String.prefix (String "S" x) (String c s)) eqn:E; auto.
  apply prefix_iff in E. destruct E as [r E]. cbn [append] in E. injection E as E1 E2. subst c. discriminate H.
Qed.
Lemma contains_noS : forall x s, all_c not_S s = true -> contains (String "S" x) s = false.
Proof.
  intros x s. induction s as [|c s IH]; intros H; [reflexivity|]. cbn in H. apply andb_prop in H. destruct H as [A B].
  cbn [contains]. rewrite prefix_S, IH by auto. auto.
Qed.
Lemma contains_pre : forall x pre s, all_c not_S pre = true ->
  contains (String "S" x) (pre ++ s) = contains (String "S" x) s.
Proof.
  intros x pre s. induction pre as [|c pre IH]; intros H; [reflexivity|]. cbn in H. apply andb_prop in H. destruct H as [A B].
  cbn [append contains]. rewrite prefix_S, IH by auto. auto.
Qed.
Lemma replace_noS : forall x n s, all_c not_S s = true -> replace_go (String "S" x) n O s = s.
Proof.
  intros x n s. induction s as [|c s IH]; intros H; [reflexivity|]. cbn in H. apply andb_prop in H. destruct H as [A B].
  cbn [replace_go]. rewrite prefix_S, IH by auto. auto.
Qed.
Lemma replace_pre : forall x n pre s, all_c not_S pre = true ->
  replace_go (String "S" x) n O (pre ++ s) = pre ++ replace_go (String "S" x) n O s.
Proof.
  intros x n pre s. induction pre as [|c pre IH]; intros H; [reflexivity|]. cbn in H. apply andb_prop in H. destruct H as [A B].
  cbn [append replace_go]. rewrite prefix_S, IH by auto. auto.
Qed.
Lemma replace_skip : forall old new a s, replace_go old new (String.length a) (a ++ s) = replace_go old new O s.
Proof. induction a; intros; cbn [append String.length replace_go]; auto. Qed.

Lemma digit_notS : forall s, all_c digit s = true -> all_c not_S s = true.
Proof.
  induction s as [|c s IH]; intros H; auto. cbn in H. apply andb_prop in H. cbn. rewrite IH by tauto.
  rewrite andb_true_r. unfold not_S. destruct (Ascii.eqb_spec c "S") as [->|]; auto. destruct H; discriminate.
Qed.
Definition instance_tl (b w : N) : string :=
  "ramGenericPRTL__num_bits_" ++ dec b ++ "__num_words_" ++ dec w ++ " sram".
Lemma instance_cons : forall b w, instance b w = String "S" (instance_tl b w).
Proof. intros. unfold instance, module_name, instance_tl. rewrite !app_assoc_s. auto. Qed.
Lemma instance_tl_noS : forall b w, all_c not_S (instance_tl b w) = true.
Proof.
  intros. unfold instance_tl. rewrite !all_c_app. rewrite (digit_notS _ (dec_digits b)), (digit_notS _ (dec_digits w)). reflexivity.
Qed.

Lemma contains_instance : forall b w b' w' pre suf, all_c not_S pre = true -> all_c not_S suf = true ->
  contains (instance b' w') (pre ++ instance b w ++ suf) = (b' =? b) && (w' =? w).
Proof.
  intros b w b' w' pre suf P Q.
  assert (E : contains (instance b' w') (pre ++ instance b w ++ suf) = String.prefix (instance b' w') (instance b w ++ suf)).
  { rewrite (instance_cons b' w'), (instance_cons b w). rewrite contains_pre by auto. cbn [append].
    change (contains ?x (String ?c ?r)) with (String.prefix x (String c r) || contains x r).
    rewrite (contains_noS (instance_tl b' w') (instance_tl b w ++ suf)).
    - apply orb_false_r.
    - rewrite all_c_app, instance_tl_noS, Q. auto. }
  rewrite E. clear E.
  destruct (String.prefix (instance b' w') (instance b w ++ suf)) eqn:E.
  - apply instance_prefix in E. destruct E as [-> ->]. rewrite !N.eqb_refl. auto.
  - destruct (N.eqb_spec b' b) as [->|]; auto. destruct (N.eqb_spec w' w) as [->|]; auto.
    rewrite instance_self in E. discriminate E.
Qed.

(** rstrip does not matter to patterns without line ends *)
Definition not_nl (c : ascii) : bool := negb (is_nl c).
Lemma rstrip_spec : forall s, exists t, s = rstrip s ++ t /\ all_c is_nl t = true.
Proof.
  induction s as [|c s (t & E & T)].
  - exists "". auto.
  - cbn [rstrip]. destruct (rstrip s) as [|d r].
    + destruct (is_nl c) eqn:C.
      * exists (String c t). cbn in *. subst. rewrite C. auto.
      * exists t. cbn in *. subst. auto.
    + exists t. cbn in *. rewrite <- E. auto.
Qed.
Lemma prefix_nl : forall x s t, all_c not_nl x = true -> all_c is_nl t = true ->
  String.prefix x (s ++ t) = String.prefix x s.
Proof.
  induction x as [|c x IH]; intros s t X T.
  - destruct s, t; auto.
  - cbn in X. apply andb_prop in X. destruct X as [C X]. destruct s as [|d s].
    + destruct t as [|e t]; auto. cbn in T. apply andb_prop in T. destruct T as [E T].
      cbn. destruct (ascii_dec c e) as [->|]; auto. unfold not_nl in C. rewrite E in C. discriminate C.
    + cbn. destruct (ascii_dec c d); auto.
Qed.
Lemma contains_nl : forall x s t, x <> "" -> all_c not_nl x = true -> all_c is_nl t = true ->
  contains x (s ++ t) = contains x s.
Proof.
  intros x s t X0 X T. induction s as [|c s IH].
  - cbn [append]. change (contains x "") with (String.prefix x "" || false). rewrite orb_false_r.
    induction t as [|d t IHt]; [cbn; apply orb_false_r|]. cbn in T. apply andb_prop in T. destruct T as [D T].
    cbn [contains]. rewrite (IHt T). pose proof (prefix_nl x "" (String d t) X) as E.
    cbn [append] in E. rewrite E; [|cbn; rewrite D; auto]. apply orb_diag.
  - cbn [append contains]. rewrite IH.
    change (String c (s ++ t)) with (String c s ++ t). rewrite prefix_nl by auto. auto.
Qed.
Lemma contains_rstrip : forall x s, x <> "" -> all_c not_nl x = true -> contains x (rstrip s) = contains x s.
Proof.
  intros x s X0 X. destruct (rstrip_spec s) as (t & E & T). rewrite E at 2. rewrite contains_nl; auto.
Qed.

Lemma replace_S : forall x new pre suf, all_c not_S pre = true -> all_c not_S suf = true ->
  replace_all (String "S" x) new (pre ++ String "S" x ++ suf) = pre ++ new ++ suf.
Proof.
  intros x new pre suf P Q. unfold replace_all. rewrite replace_pre by auto. f_equal.
  assert (E : String.prefix (String "S" x) (String "S" (x ++ suf)) = true)
    by (apply prefix_iff; exists suf; reflexivity).
  cbn [append]. cbn [replace_go]. rewrite E. f_equal.
  replace (String.length (String "S" x) - 1)%nat with (String.length x) by (cbn [String.length]; lia).
  rewrite replace_skip. apply replace_noS; auto.
Qed.
Lemma replace_instance : forall b w new pre suf, all_c not_S pre = true -> all_c not_S suf = true ->
  replace_all (instance b w) new (pre ++ instance b w ++ suf) = pre ++ new ++ suf.
Proof. intros b w new pre suf P Q. rewrite (instance_cons b w). apply replace_S; auto. Qed.

Lemma line_unfold : forall line, replace_line line =
  if contains (instance 128 256) line then replace_all (instance 128 256) (wrapper_instance 128 256) line
  else if contains (instance 26 128) line then replace_all (instance 26 128) (wrapper_instance 26 128) line
  else if contains (instance 25 256) line then replace_all (instance 25 256) (wrapper_instance 25 256) line
  else if contains (instance 128 512) line then replace_all (instance 128 512) (wrapper_instance 128 512) line
  else line.
Proof.
  intros. unfold replace_line.
  assert (I128_256 : instance 128 256 = "SramGenericPRTL__num_bits_128__num_words_256 sram") by (vm_compute; reflexivity).
  assert (W128_256 : wrapper_instance 128 256 = "SramGenericPRTL #(.num_bits(128) , .num_words(256)) sram") by (vm_compute; reflexivity).
  assert (N128_256 : all_c not_nl (instance 128 256) = true) by (vm_compute; reflexivity).
  assert (Z128_256 : instance 128 256 <> "") by (rewrite instance_cons; discriminate).
  assert (I26_128 : instance 26 128 = "SramGenericPRTL__num_bits_26__num_words_128 sram") by (vm_compute; reflexivity).
  assert (W26_128 : wrapper_instance 26 128 = "SramGenericPRTL #(.num_bits(26) , .num_words(128)) sram") by (vm_compute; reflexivity).
  assert (N26_128 : all_c not_nl (instance 26 128) = true) by (vm_compute; reflexivity).
  assert (Z26_128 : instance 26 128 <> "") by (rewrite instance_cons; discriminate).
  assert (I25_256 : instance 25 256 = "SramGenericPRTL__num_bits_25__num_words_256 sram") by (vm_compute; reflexivity).
  assert (W25_256 : wrapper_instance 25 256 = "SramGenericPRTL #(.num_bits(25) , .num_words(256)) sram") by (vm_compute; reflexivity).
  assert (N25_256 : all_c not_nl (instance 25 256) = true) by (vm_compute; reflexivity).
  assert (Z25_256 : instance 25 256 <> "") by (rewrite instance_cons; discriminate).
  assert (I128_512 : instance 128 512 = "SramGenericPRTL__num_bits_128__num_words_512 sram") by (vm_compute; reflexivity).
  assert (W128_512 : wrapper_instance 128 512 = "SramGenericPRTL #(.num_bits(128) , .num_words(512)) sram") by (vm_compute; reflexivity).
  assert (N128_512 : all_c not_nl (instance 128 512) = true) by (vm_compute; reflexivity).
  assert (Z128_512 : instance 128 512 <> "") by (rewrite instance_cons; discriminate).
  rewrite <- I128_256, <- W128_256, (contains_rstrip _ _ Z128_256 N128_256). clear I128_256 W128_256.
  rewrite <- I26_128, <- W26_128, (contains_rstrip _ _ Z26_128 N26_128). clear I26_128 W26_128.
  rewrite <- I25_256, <- W25_256, (contains_rstrip _ _ Z25_256 N25_256). clear I25_256 W25_256.
  rewrite <- I128_512, <- W128_512, (contains_rstrip _ _ Z128_512 N128_512). clear I128_512 W128_512.
  reflexivity.
Qed.

Lemma replace_line_instance : forall b w pre suf, all_c not_S pre = true -> all_c not_S suf = true ->
  replace_line (pre ++ instance b w ++ suf) =
  pre ++ (if macro b w then wrapper_instance b w else instance b w) ++ suf.
Proof.
  intros b w pre suf P Q. rewrite line_unfold, !contains_instance by auto. unfold macro.
  rewrite (N.eqb_sym b 128), (N.eqb_sym b 26), (N.eqb_sym b 25), (N.eqb_sym w 256), (N.eqb_sym w 128), (N.eqb_sym w 512).
  destruct ((128 =? b) && (256 =? w)) eqn:E1; cbn [orb].
  { apply andb_prop in E1. destruct E1 as [A B]. apply N.eqb_eq in A, B. rewrite <- A, <- B. apply replace_instance; auto. }
  destruct ((26 =? b) && (128 =? w)) eqn:E2; cbn [orb].
  { apply andb_prop in E2. destruct E2 as [A B]. apply N.eqb_eq in A, B. rewrite <- A, <- B. apply replace_instance; auto. }
  destruct ((25 =? b) && (256 =? w)) eqn:E3; cbn [orb].
  { apply andb_prop in E3. destruct E3 as [A B]. apply N.eqb_eq in A, B. rewrite <- A, <- B. apply replace_instance; auto. }
  destruct ((128 =? b) && (512 =? w)) eqn:E4; cbn [orb].
  { apply andb_prop in E4. destruct E4 as [A B]. apply N.eqb_eq in A, B. rewrite <- A, <- B. apply replace_instance; auto. }
  auto.
Qed.

Lemma contains_app_r : forall y x s, contains (x ++ y) s = true -> contains y s = true.
Proof.
  intros y x. induction x as [|c x IH]; intros s; cbn [append]; auto.
  induction s as [|d s IHs]; [cbn; discriminate|]. intros H. cbn [contains] in *.
  apply orb_prop in H. destruct H as [H | H].
  - cbn in H. destruct (ascii_dec c d); [|discriminate H].
    rewrite (IH s), orb_true_r; auto. clear - H. destruct s; cbn [contains]; rewrite H; auto.
  - rewrite IHs, orb_true_r; auto.
Qed.
Lemma contains_app_l : forall y x s, contains (x ++ y) s = true -> contains x s = true.
Proof.
  intros y x s. induction s as [|d s IHs]; intros H; cbn [contains] in *; apply orb_prop in H; destruct H as [H | H].
  - apply prefix_iff in H. destruct H as [r H]. rewrite (proj2 (prefix_iff x "")); auto. exists (y ++ r). rewrite <- app_assoc_s. auto.
  - discriminate H.
  - apply prefix_iff in H. destruct H as [r H]. rewrite (proj2 (prefix_iff x (String d s))); auto. exists (y ++ r). rewrite <- app_assoc_s. auto.
  - rewrite IHs, orb_true_r; auto.
Qed.
Lemma replace_line_other : forall line,
  contains " sram" line = false \/ contains "SramGenericPRTL__num_bits_" line = false -> replace_line line = line.
Proof.
  intros line H. assert (Q : forall b w, contains (instance b w) line = false).
  { intros b w. destruct (contains (instance b w) line) eqn:E; auto. exfalso.
    destruct H as [H | H].
    - apply contains_app_r in E. congruence.
    - unfold instance, module_name in E. rewrite app_assoc_s in E. apply contains_app_l in E. congruence. }
  rewrite line_unfold, !Q. auto.
Qed.

(** ** the wrapper *)
Lemma wr_loop_other : forall a d bw en l ram i, i <> a ->
  fold_left (fun ram j => if en && N.testbit bw j then upd ram a (put_bit (ram a) j (N.testbit d j)) else ram) l ram i = ram i.
Proof.
  intros a d bw en l. induction l as [|j l IH]; intros ram i N; cbn [fold_left]; auto.
  rewrite IH by auto. destruct (en && N.testbit bw j); auto. unfold upd. destruct (N.eqb_spec i a); congruence.
Qed.
Lemma cell_generic : forall nb nw aw csb web a d bw s, nw = 2 ^ aw -> a < nw ->
  (forall i, sr_ram (cell_step nb nw aw csb web a d bw s) i = sr_ram (vgeneric_step nb csb web a d bw s) i) /\
  sr_dout (cell_step nb nw aw csb web a d bw s) = sr_dout (vgeneric_step nb csb web a d bw s).
Proof.
  intros nb nw aw csb web a d bw s E L. unfold cell_step, vgeneric_step. cbn [sr_ram sr_dout].
  assert (T : trunc aw a = a) by (apply trunc_small; subst; auto). rewrite T. split; auto.
  intros i. destruct (negb csb && negb web); auto. destruct (N.ltb_spec i nw); auto. symmetry.
  apply wr_loop_other. lia.
Qed.
Lemma fold_upd_ext : forall a d bw en l f g, (forall i, f i = g i) -> forall i : N,
  fold_left (fun ram j => if en && N.testbit bw j then upd ram a (put_bit (ram a) j (N.testbit d j)) else ram) l f i =
  fold_left (fun ram j => if en && N.testbit bw j then upd ram a (put_bit (ram a) j (N.testbit d j)) else ram) l g i.
Proof.
  intros a d bw en l. induction l as [|j l IH]; intros f g H i; cbn [fold_left]; auto.
  apply IH. intros k. destruct (en && N.testbit bw j); auto. unfold upd. rewrite !H. auto.
Qed.
Lemma vgeneric_ext : forall nb csb web a d bw s t, (forall i, sr_ram s i = sr_ram t i) ->
  (forall i, sr_ram (vgeneric_step nb csb web a d bw s) i = sr_ram (vgeneric_step nb csb web a d bw t) i) /\
  sr_dout (vgeneric_step nb csb web a d bw s) = sr_dout (vgeneric_step nb csb web a d bw t).
Proof.
  intros. unfold vgeneric_step. cbn [sr_ram sr_dout]. split.
  - intros i. destruct (negb csb && negb web); auto. apply fold_upd_ext; auto.
  - destruct (negb csb && web); auto.
Qed.
Lemma wrapper_generic : forall b w csb web a d bw s, a < w ->
  (forall i, sr_ram (wrapper_step b w csb web a d bw s) i = sr_ram (vgeneric_step b csb web a d bw s) i) /\
  sr_dout (wrapper_step b w csb web a d bw s) = sr_dout (vgeneric_step b csb web a d bw s).
Proof.
  intros b w csb web a d bw s L. unfold wrapper_step.
  destruct ((b =? 128) && (w =? 256)) eqn:E1.
  { apply andb_prop in E1. rewrite !N.eqb_eq in E1. destruct E1; subst. apply cell_generic; auto. }
  destruct ((b =? 26) && (w =? 128)) eqn:E2.
  { apply andb_prop in E2. rewrite !N.eqb_eq in E2. destruct E2; subst. apply cell_generic; auto. }
  destruct ((b =? 128) && (w =? 512)) eqn:E3.
  { apply andb_prop in E3. rewrite !N.eqb_eq in E3. destruct E3; subst. apply cell_generic; auto. }
  destruct ((b =? 25) && (w =? 256)) eqn:E4.
  { apply andb_prop in E4. rewrite !N.eqb_eq in E4. destruct E4; subst. apply cell_generic; auto. }
  auto.
Qed.
Lemma wsram_vsram : forall b w ops s, forallb (fun o => so_idx o <? w) ops = true ->
  (forall i, sr_ram (wsram_run b w s ops) i = sr_ram (vsram_run b s ops) i) /\
  (ops <> [] -> sr_dout (wsram_run b w s ops) = sr_dout (vsram_run b s ops)).
Proof.
  intros b w ops s. induction ops as [|o ops IH] using rev_ind; intros H.
  - split; auto.
  - rewrite forallb_app in H. apply andb_prop in H. destruct H as [H1 H2]. destruct (IH H1) as [R _]. cbn in H2.
    apply andb_prop in H2. destruct H2 as [H2 _]. apply N.ltb_lt in H2.
    unfold wsram_run, vsram_run in *. rewrite !fold_left_app. cbn [fold_left].
    destruct (wrapper_generic b w (negb (so_val o)) (negb (so_type o)) (so_idx o) (so_wdata o) (so_wben o)
      (fold_left (wsram_step b w) ops s) H2) as [A B].
    destruct (vgeneric_ext b (negb (so_val o)) (negb (so_type o)) (so_idx o) (so_wdata o) (so_wben o) _ _ R) as [C D].
    split.
    + intros i. etransitivity; [apply A | apply C].
    + intros _. etransitivity; [apply B | apply D].
Qed.
Lemma wsram_sram : forall b w s ops o, forallb (fun o => so_idx o <? w) (ops ++ [o])%list = true ->
  (forall k, sr_ram (wsram_run b w s (ops ++ [o])%list) k = sr_ram (sram_run b s (ops ++ [o])%list) k) /\
  (rd_op o = true -> sram_out (wsram_run b w s (ops ++ [o])%list) = sram_out (sram_run b s (ops ++ [o])%list)).
Proof.
  intros b w s ops o H. destruct (wsram_vsram b w (ops ++ [o])%list s H) as [A B]. split.
  - intros k. rewrite A. apply vsram_ram.
  - intros R. unfold sram_out at 1. rewrite B by (destruct ops; discriminate).
    change (sr_dout ?x) with (sram_out x). rewrite vsram_out, R. auto.
Qed.

(** ** the cache *)
Lemma run_f_j : forall p l s, exists l', map fst l' = map fst l /\ run_f p s l = run_j p s l'.
Proof.
  intros p l. induction l as [|[i j] l IH]; intros s.
  - exists []. auto.
  - destruct (IH (next_f p s i j)) as (l' & F & E). exists ((i, flow_junk p s j) :: l'). split.
    + cbn. f_equal; auto.
    + cbn [run_f run_j]. rewrite E. reflexivity.
Qed.
Lemma flow_same : forall p s l, wf_params p -> reset_state p s ->
  snd (run_f p s l) = snd (run p s (map fst l)).
Proof.
  intros p s l W R. destruct (run_f_j p l s) as (l' & F & E). rewrite E, <- F. apply sram_junk; auto.
Qed.

(** ** which arrays are replaced *)
Lemma macro_iff : forall b w, macro b w = true <->
  (b = 128 /\ w = 256) \/ (b = 26 /\ w = 128) \/ (b = 25 /\ w = 256) \/ (b = 128 /\ w = 512).
Proof.
  intros. unfold macro. rewrite !orb_true_iff, !andb_true_iff, !N.eqb_eq. tauto.
Qed.

Section Which.
Variable p : params.
Hypothesis W : wf_params p.

Lemma pow_eq : forall a b, 2 ^ a = 2 ^ b -> a = b.
Proof. intros a b H. apply (N.pow_inj_r 2); auto; lia. Qed.
Lemma flow_geo : exists k, 6 <= k /\ p_clw p = 2 ^ k /\ offw p = k - 3 /\ dtyw p = 2 ^ (k - 5).
Proof.
  destruct (wf_clw p W) as (k & E & L). exists k. repeat split; auto.
  - unfold offw. rewrite E. change 8 with (2 ^ 3). rewrite pow2_div, clog2_pow2 by lia. auto.
  - unfold dtyw. rewrite E. change 32 with (2 ^ 5). rewrite pow2_div by lia. auto.
Qed.
Lemma flow_bytes : p_num_bytes p * 8 = p_clw p * total_lines p.
Proof.
  destruct (wf_size p W) as (b & L & E). rewrite E. unfold total_lines. rewrite E.
  rewrite (N.mul_comm (p_clw p)), N.div_mul; [apply N.mul_comm|].
  destruct (wf_clw p W) as (k & K & _). rewrite K. apply N.pow_nonzero. lia.
Qed.
Lemma tagarr_eq : forall k, p_clw p = 2 ^ k -> 6 <= k -> tagarrw p + (k - 3) + idxw p = p_abw p + 1 + 2 ^ (k - 5).
Proof.
  intros k E L. pose proof (abw_sum p W). destruct flow_geo as (k' & L' & E' & O & D).
  assert (k' = k) by (apply pow_eq; congruence). subst k'. unfold tagarrw. lia.
Qed.

(** all arrays replaced *)
Lemma all_macro : p_abw p <= 64 -> data_macro p && tag_macro p = true <->
  p_clw p = 128 /\ p_abw p = 32 /\
  ((p_num_bytes p = 4096 /\ p_assoc p = 1) \/ (p_num_bytes p = 4096 /\ p_assoc p = 2) \/
   (p_num_bytes p = 8192 /\ p_assoc p = 2)).
Proof.
  intros A64. rewrite andb_true_iff. unfold data_macro, tag_macro. rewrite !macro_iff.
  pose proof flow_bytes as FB. pose proof (total_eq p W) as TE. pose proof (nblocks_pow p W) as NP.
  destruct flow_geo as (k & L & E & O & D). pose proof (tagarr_eq k E L) as TA.
  assert (K7 : p_clw p = 128 -> k = 7).
  { intros H. apply pow_eq. rewrite <- E, H. reflexivity. }
  assert (I7 : nblocks p = 128 -> idxw p = 7).
  { intros H. apply pow_eq. rewrite <- NP, H. reflexivity. }
  assert (I8 : nblocks p = 256 -> idxw p = 8).
  { intros H. apply pow_eq. rewrite <- NP, H. reflexivity. }
  split.
  - intros [DM TM]. assert (C : p_clw p = 128).
    { destruct DM as [[? _] | [[H _] | [[H _] | [? _]]]]; auto; exfalso.
      - rewrite E in H. assert (2 ^ 6 <= 2 ^ k) by (apply N.pow_le_mono_r; lia). change (2 ^ 6) with 64 in *. lia.
      - rewrite E in H. assert (2 ^ 6 <= 2 ^ k) by (apply N.pow_le_mono_r; lia). change (2 ^ 6) with 64 in *. lia. }
    specialize (K7 C). subst k. change (2 ^ (7 - 5)) with 4 in TA. change (7 - 3) with 4 in TA. rewrite C in *.
    assert (N1 : (tagarrw p = 26 /\ idxw p = 7 /\ nblocks p = 128) \/ (tagarrw p = 25 /\ idxw p = 8 /\ nblocks p = 256)
       \/ (tagarrw p = 128 /\ idxw p = 8 /\ nblocks p = 256) \/ (tagarrw p = 128 /\ nblocks p = 512)) by tauto.
    clear I7 I8. destruct (wf_assoc p W) as [A | A]; rewrite A in *; lia.
  - intros (C & AB & SA). rewrite C in *. specialize (K7 eq_refl). subst k.
    change (2 ^ (7 - 5)) with 4 in TA. change (7 - 3) with 4 in TA.
    destruct SA as [[S A] | [[S A] | [S A]]]; rewrite S, A in *.
    + assert (nblocks p = 256) by lia. specialize (I8 H). split; [lia|]. lia.
    + assert (nblocks p = 128) by lia. specialize (I7 H). split; [lia|]. lia.
    + assert (nblocks p = 256) by lia. specialize (I8 H). split; [lia|]. lia.
Qed.
Lemma needs_foundry : p_clw p = 128 -> p_abw p = 32 ->
  (foundry (p_clw p) (total_lines p) || foundry (tagarrw p) (nblocks p) = true <->
   p_num_bytes p = 8192 \/ (p_num_bytes p = 4096 /\ p_assoc p = 1)).
Proof.
  intros C AB. unfold foundry. rewrite !orb_true_iff, !andb_true_iff, !N.eqb_eq.
  pose proof flow_bytes as FB. pose proof (total_eq p W) as TE. pose proof (nblocks_pow p W) as NP.
  destruct flow_geo as (k & L & E & O & D). pose proof (tagarr_eq k E L) as TA.
  assert (K7 : k = 7) by (apply pow_eq; rewrite <- E, C; reflexivity). subst k.
  change (2 ^ (7 - 5)) with 4 in TA. change (7 - 3) with 4 in TA.
  assert (I8 : nblocks p = 256 -> idxw p = 8).
  { intros H. apply pow_eq. rewrite <- NP, H. reflexivity. }
  clear NP E D O. destruct (wf_assoc p W) as [A | A]; rewrite A, C in *; split.
  - lia.
  - intros [H | [H _]]; [lia|]. assert (nblocks p = 256) by lia. specialize (I8 H0). lia.
  - intros [[H|H]|[H|H]]; lia.
  - intros [H | H]; [|lia]. assert (nblocks p = 256) by lia. specialize (I8 H0). lia.
Qed.
End Which.
