(** C70: the directed tests with WRITE_INIT. *)
From Coq Require Import NArith List Bool Lia.
From Verif Require Import Bits Params Msg Rtl Mem Spec System Traffic Hide Harness InitSpec Init3 ConformData Conform Directed.
Import ListNotations.
Open Scope N_scope.

Section I4.
Variable p : params.

(** The promise leaves no response but [y]. *)
Definition fore1 (k : know) (r : creq) (y : cresp) : bool :=
  (cr_type y =? cq_type r) && (cr_opq y =? cq_opq r) && (cr_len y =? cq_len r) &&
  (cr_test y =? if ((cq_type r =? T_READ) || (cq_type r =? T_WRITE)) && there p k r then 1 else 0) &&
  (if cq_type r =? T_READ then
     (cr_data y <? 2 ^ (8 * size p r)) &&
     forallb (fun j => match k_byte k (cq_addr r + j) with Some v => v =? slice (cr_data y) (8 * j) (8 * j + 8) | None => false end) (range (size p r))
   else negb (is_amo (cq_type r)) && (cr_data y =? 0)).
Fixpoint fore (k : know) (A : list creq) (Y : list cresp) : bool :=
  match A, Y with
  | [], [] => true
  | r :: A, y :: Y => fore1 k r y && fore (know_next p k r y) A Y
  | _, _ => false
  end.

Lemma in_range : forall n j, j < n -> In j (range n).
Proof. intros n j H. unfold range. apply in_map_iff. exists (N.to_nat j). rewrite N2Nat.id. split; auto. apply in_seq. lia. Qed.

Lemma fore1_ok : forall k r y y', fore1 k r y = true -> resp_ok p k r y' -> y' = y.
Proof.
  intros k r y y' F [R1 R2 R3 R4 R5 R6 R7]. unfold fore1 in F.
  apply andb_prop in F. destruct F as [F F5]. apply andb_prop in F. destruct F as [F F4]. apply andb_prop in F. destruct F as [F F3].
  apply andb_prop in F. destruct F as [F1 F2]. apply N.eqb_eq in F1, F2, F3, F4.
  assert (D : cr_data y' = cr_data y).
  { destruct (N.eqb_spec (cq_type r) T_READ) as [T|T].
    - apply andb_prop in F5. destruct F5 as [F5 F6]. apply N.ltb_lt in F5. rewrite forallb_forall in F6.
      specialize (R5 T). specialize (R6 T). rewrite (bytes_eq (size p r) (cr_data y') (cr_data y) R6).
      + apply trunc_small. auto.
      + intros j J. specialize (F6 j (in_range _ _ J)). destruct (k_byte k (cq_addr r + j)) as [v|] eqn:KB; [|discriminate].
        apply N.eqb_eq in F6. rewrite <- F6. apply (R5 _ _ KB). unfold byte_of.
        assert (IN : (cq_addr r <=? cq_addr r + j) && (cq_addr r + j <? cq_addr r + size p r) = true).
        { apply andb_true_intro. split; [apply N.leb_le | apply N.ltb_lt]; lia. }
        rewrite IN. replace (cq_addr r + j - cq_addr r) with j by lia. auto.
    - apply andb_prop in F5. destruct F5 as [F5 F6]. apply negb_true_iff in F5. apply N.eqb_eq in F6. rewrite F6. apply R7; auto. }
  destruct y, y'. cbn in *. congruence.
Qed.
Lemma fore_ok : forall T E k A B Y, T = A ++ B -> fore k T E = true -> explained p k A Y -> exists rest, E = Y ++ rest.
Proof.
  induction T as [|r T IH]; intros E k A B Y ET F X.
  - destruct A; [|discriminate]. destruct Y; [|destruct X]. exists E. auto.
  - destruct E as [|y E]; [discriminate|]. cbn [fore] in F. apply andb_prop in F. destruct F as [F1 F2].
    destruct A as [|r' A]; [destruct Y; [exists (y :: E); auto | destruct X]|].
    injection ET as <- ET. destruct Y as [|y' Y]; [exists (y :: E); auto|].
    destruct X as [X1 X2]. pose proof (fore1_ok _ _ _ _ F1 X1) as ->.
    destruct (IH E _ A B Y ET F2 X2) as (rest & ->). exists rest. auto.
Qed.
End I4.

Definition has_init (t : dtest) : bool := existsb (fun x => cq_type (fst x) =? T_INIT) (t_msgs t).
Lemma init_tests_good : forallb (fun t => implb ((p_assoc (t_p t) =? 1) && has_init t)
  (wf_paramsb (t_p t) && fore (t_p t) know0 (map fst (t_msgs t)) (map snd (t_msgs t)))) all_tests = true.
Proof. vm_compute. reflexivity. Qed.

Theorem init_tests_pass : forall t, In t all_tests -> p_assoc (t_p t) = 1 -> In T_INIT (map (fun x => cq_type (fst x)) (t_msgs t)) ->
  let p := t_p t in forall s0 is, init_run p s0 is ->
  (exists rest, map fst (t_msgs t) = accepted (trace_of p s0 is) ++ rest) ->
  exists rest, map snd (t_msgs t) = responses (trace_of p s0 is) ++ rest.
Proof.
  intros t I A1 H p s0 is R [B EA]. pose proof init_tests_good as F. rewrite forallb_forall in F. specialize (F t I).
  assert (HI : has_init t = true).
  { unfold has_init. apply existsb_exists. apply in_map_iff in H. destruct H as (x & X & IX). exists x. split; auto. apply N.eqb_eq. auto. }
  rewrite A1, HI in F. cbn [N.eqb Pos.eqb andb implb] in F. apply andb_prop in F. destruct F as [WF F]. apply wf_paramsb_ok in WF.
  eapply fore_ok; [exact EA | exact F | exact (init_explained p WF A1 s0 is R)].
Qed.
