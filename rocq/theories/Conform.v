(** Validation of the model, not a property: the repository's directed tests
    (tables in ConformData.v, extracted from the test sources), replayed on the RTL
    model and on the reference-model model.  Every expected response is met. *)
From Coq Require Import NArith List Bool.
From Verif Require Import Bits Params Msg Rtl Mem Spec System Harness Fl FlModel ConformData.
Import ListNotations.
Open Scope N_scope.

Definition resp_eqb (a b : cresp) : bool :=
  (cr_type a =? cr_type b) && (cr_opq a =? cr_opq b) && (cr_test a =? cr_test b) && (cr_len a =? cr_len b) && (cr_data a =? cr_data b).
Fixpoint resps_eqb (a b : list cresp) : bool :=
  match a, b with [], [] => true | x :: a, y :: b => resp_eqb x y && resps_eqb a b | _, _ => false end.

(** BlockingCacheRTL_test.py 21-34: cache and memory out of reset, all the requests *)
Definition cycles (t : dtest) : nat :=
  N.to_nat (total_lines (t_p t)) * (1 + 6 * length (filter (fun x => 14 <=? cq_type (fst x)) (t_msgs t))) + 12 * length (t_msgs t) + 10.
Definition rtl_out (cs : nat -> list choice) (t : dtest) : list cresp :=
  let p := t_p t in let s0 := mk_reset p junk_t junk_d in
  responses (trace_of p s0 (fst (drive p s0 (load_words (t_mem t)) [] (map fst (t_msgs t)) (cs (cycles t))))).
Definition rtl_pass (cs : nat -> list choice) (t : dtest) : bool := resps_eqb (rtl_out cs t) (map snd (t_msgs t)).

(** BlockingCacheFL_test.py 19-45 *)
Definition fl_test_call (r : creq) : fcall :=
  if cq_type r =? T_READ then FRead (cq_addr r) (cq_opq r) (cq_len r)
  else if cq_type r =? T_WRITE then FWrite (cq_addr r) (cq_data r) (cq_opq r) (cq_len r)
  else if cq_type r =? T_INIT then FInit (cq_addr r) (cq_data r) (cq_opq r) (cq_len r)
  else if cq_type r =? T_INV then FInv (cq_opq r)
  else if cq_type r =? T_FLUSH then FFlush (cq_opq r)
  else FAmo (cq_addr r) (cq_data r) (cq_opq r) (cq_len r) (cq_type r).
Definition fl_pass (t : dtest) : bool :=
  let p := t_p t in
  match fl_calls (p_num_bytes p) (p_assoc p) 0 p (fl0 (p_num_bytes p) (p_assoc p) 0 p (t_mem t)) (map (fun x => fl_test_call (fst x)) (t_msgs t)) with
  | Some (_, xs) => resps_eqb (map snd xs) (map snd (t_msgs t))
  | None => false
  end.

Example fl_directed : map (forallb fl_pass) [tests_GenericTestCases; tests_AmoTests; tests_InvFlushTests] = [true; true; true].
Proof. vm_compute. reflexivity. Qed.
Example rtl_amo : forallb (rtl_pass eager) tests_AmoTests = true.
Proof. vm_compute. reflexivity. Qed.
Example rtl_inv_flush : forallb (rtl_pass eager) tests_InvFlushTests = true.
Proof. vm_compute. reflexivity. Qed.
Example rtl_other : forallb (rtl_pass eager) tests_OtherCiferTests = true.
Proof. vm_compute. reflexivity. Qed.
Example rtl_unused : forallb (rtl_pass eager) tests_unused = true.
Proof. vm_compute. reflexivity. Qed.
Example rtl_generic : forallb (rtl_pass eager) tests_GenericTestCases = true.
Proof. vm_compute. reflexivity. Qed.
(** with a slower environment *)
Example rtl_amo_slow : forallb (rtl_pass (fun n => lively (3 * n) 0)) tests_AmoTests = true.
Proof. vm_compute. reflexivity. Qed.
