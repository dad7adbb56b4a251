(** Sequential byte memory: the request semantics of test/MemoryCL.py 62-104 on
    top of pymtl3's MagicMemoryFL (a byte array), and the AMO functions
    (BlockingCacheFL.py 64-73, the same table as pymtl3's). *)
From Coq Require Import NArith ZArith List Bool Lia.
From Verif Require Import Bits Params Msg.
Import ListNotations.
Open Scope N_scope.

(** Byte address to byte.  MagicMemoryFL is a bytearray of [mem_nbytes]; here
    the address space is unbounded. *)
Definition mem := N -> N.

(** Little-endian value of [n] bytes at [a]. *)
Fixpoint rd_bytes (m : mem) (a : N) (n : nat) : N :=
  match n with
  | O => 0
  | S n' => trunc 8 (m a) + 256 * rd_bytes m (a + 1) n'
  end.
(** Store the low [n] bytes of [d] at [a]. *)
Definition wr_bytes (m : mem) (a : N) (n : nat) (d : N) : mem :=
  fun x => if (a <=? x) && (x <? a + N.of_nat n) then slice d (8 * (x - a)) (8 * (x - a) + 8)
           else m x.

(** two's complement value of a 32-bit word: [m.int()] in BlockingCacheFL.py 68 *)
Definition sint32 (x : N) : Z :=
  if N.testbit x 31 then (Z.of_N x - 2 ^ 32)%Z else Z.of_N x.

(** BlockingCacheFL.py 64-73 on 32-bit operands.  LR and SC have no entry in
    the table; they are given the identity here and excluded by every theorem
    that talks about AMO results. *)
Definition amo_fun (t m a : N) : N :=
  if t =? T_AMO_ADD then trunc 32 (m + a)
  else if t =? T_AMO_AND then N.land m a
  else if t =? T_AMO_OR then N.lor m a
  else if t =? T_AMO_SWAP then a
  else if t =? T_AMO_MIN then (if (sint32 m <? sint32 a)%Z then m else a)
  else if t =? T_AMO_MINU then N.min m a
  else if t =? T_AMO_MAX then (if (sint32 a <? sint32 m)%Z then m else a)
  else if t =? T_AMO_MAXU then N.max m a
  else if t =? T_AMO_XOR then N.lxor m a
  else m.

(** MemoryCL.py 87-89: masked write, one 32-bit word per mask bit *)
Definition wr_masked (m : mem) (a mask d : N) (nw : N) : mem :=
  fold_left (fun m j => if N.testbit mask j
                        then wr_bytes m (a + 4 * j) 4 (slice d (32 * j) (32 * (j + 1))) else m)
            (range nw) m.

(** MemoryCL.py 71-104: execute one request *)
Definition mem_exec (p : params) (m : mem) (q : mreq) : mem * mresp :=
  let len := if mq_len q =? 0 then p_clw p / 8 else mq_len q in
  if mq_type q =? T_READ then
    (m, mkMResp (mq_type q) (mq_opq q) (mq_len q) (rd_bytes m (mq_addr q) (N.to_nat len)))
  else if mq_type q =? T_WRITE then
    (wr_masked m (mq_addr q) (mq_mask q) (mq_data q) (p_clw p / 32),
     mkMResp (mq_type q) (mq_opq q) 0 0)
  else
    let old := rd_bytes m (mq_addr q) 4 in
    (wr_bytes m (mq_addr q) 4 (amo_fun (mq_type q) old (slice (mq_data q) 0 32)),
     mkMResp (mq_type q) (mq_opq q) (mq_len q) old).

Section MemRun.
Variable p : params.
Fixpoint mem_run (m : mem) (qs : list mreq) : mem * list mresp :=
  match qs with
  | [] => (m, [])
  | q :: r => let '(m1, x) := mem_exec p m q in
              let '(m2, xs) := mem_run m1 r in (m2, x :: xs)
  end.
End MemRun.
