(** Validation of the model, not a property: the repository's unit-test vectors for
    the datapath units (UnitsConformData.v, extracted from the test sources),
    replayed on the unit models.  Every expected output is met, except in the two rows
    with len = 3 of the replicator: they expect what DataReplicator did before the
    "len==3 means zero-extending" branch was added (arithmetics.py 41-48, 77-78), and
    the files, named *_tests.py, are not collected by pytest. *)
From Coq Require Import Bool NArith List.
From Verif Require Import Bits Params Units Units2 UnitsConformData.
Import ListNotations.
Open Scope N_scope.

(** arithmetics_tests.py 19-22, muxes_tests.py 18-21: obw 8, abw 32, 32 bytes, 1 way *)
Definition u32 := mkParams 32 1 128 32 8 32.
Definition u128 := mkParams 32 1 128 32 8 128.

Definition replicator_ok p (r : bool * N * N * N) : bool :=
  let '(amo, len, x, out) := r in replicator p amo len x =? out.
Definition cmd_of (n : N) : wben_cmd := if n =? 1 then WB_REQ else if n =? 2 then WB_DIRTY else WB_NONE.
Definition wben_ok p (r : N * N * N * N * N) : bool :=
  let '(cmd, dty, off, len, out) := r in wben p (cmd_of cmd) dty off len =? out.
Definition mux_ok (sel : bool -> bool -> N -> N -> N -> N) (r : bool * bool * N * N * N * N) : bool :=
  let '(en, amo, len, off, x, out) := r in sel en amo len off x =? out.

Example replicator_32 : map (replicator_ok u32) v_test_replicator_dbw32_clw128 = [true; true; true; false; true].
Proof. vm_compute. reflexivity. Qed.
Example replicator_128 : map (replicator_ok u128) v_test_replicator_dbw128_clw128 = [true; true; true; false; true; true; true].
Proof. vm_compute. reflexivity. Qed.
(** what the source gives for these two rows *)
Example replicator_32_len3 : replicator u32 false 3 0xabcd1234 = 0x00000000abcd123400000000abcd1234.
Proof. vm_compute. reflexivity. Qed.
Example replicator_128_len3 : replicator u128 false 3 0x0123456789abcdeffedcba9876543210 = 0.
Proof. vm_compute. reflexivity. Qed.
Example wben_128 : map (wben_ok u128) v_test_WriteBitEnGen = repeat true 21.
Proof. vm_compute. reflexivity. Qed.
Example chain_32 : map (mux_ok (chain_select u32)) v_clw128_dbw32 = repeat true 11.
Proof. vm_compute. reflexivity. Qed.
Example fast_32 : map (mux_ok (fast_select u32)) v_clw128_dbw32 = repeat true 11.
Proof. vm_compute. reflexivity. Qed.
Example chain_128 : map (mux_ok (chain_select u128)) v_clw128_dbw128 = repeat true 34.
Proof. vm_compute. reflexivity. Qed.
Example fast_128 : map (mux_ok (fast_select u128)) v_clw128_dbw128 = repeat true 34.
Proof. vm_compute. reflexivity. Qed.
