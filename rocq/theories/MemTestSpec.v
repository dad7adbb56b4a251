(** C75: MemoryCL with messages that have no write mask, any number of ports, and the tests of
    test/MemoryCL_test.py.  Specification vocabulary only. *)
From Coq Require Import Arith NArith List Bool.
From Verif Require Import Bits Params Msg Mem MultiSys.
Import ListNotations.
Open Scope N_scope.

Section Plain.
(** data width of a message *)
Variable dw : N.
(** MemoryCL.py 71-104 for request classes without [wr_mask] (lines 76-82 and 91-96); AMOs are on
    4 bytes. [mq_mask] is not used. *)
Definition plain_exec (m : mem) (q : mreq) : mem * mresp :=
  let len := if mq_len q =? 0 then dw / 8 else mq_len q in
  if mq_type q =? T_READ then
    (m, mkMResp (mq_type q) (mq_opq q) (mq_len q) (rd_bytes m (mq_addr q) (N.to_nat len)))
  else if mq_type q =? T_WRITE then
    (wr_bytes m (mq_addr q) (N.to_nat len) (mq_data q), mkMResp (mq_type q) (mq_opq q) 0 0)
  else
    let old := rd_bytes m (mq_addr q) 4 in
    (wr_bytes m (mq_addr q) 4 (amo_fun (mq_type q) old (slice (mq_data q) 0 32)),
     mkMResp (mq_type q) (mq_opq q) (mq_len q) old).
(** One request after the other: the responses, and the memory at the end. *)
Fixpoint plain_run (m : mem) (qs : list mreq) : list mresp :=
  match qs with [] => [] | q :: qs => snd (plain_exec m q) :: plain_run (fst (plain_exec m q)) qs end.
Definition plain_end (m : mem) (qs : list mreq) : mem := fold_left (fun m q => fst (plain_exec m q)) qs m.

(** What happens: a request arrives at a port (from TestSrcCL), the oldest of a port's requests is
    executed, a response leaves (to TestSinkCL).  MemoryCL.py 44-58 and 63-104: the queues and the
    stalls delay arbitrarily and keep the order of a port; nothing relates the ports. *)
Inductive pev := Arrive (i : nat) (q : mreq) | Execute (i : nat) | Deliver (i : nat) (y : mresp).
Inductive pmem (m0 : mem) : list pev -> mem -> (nat -> list mreq) -> (nat -> list mresp) -> Prop :=
| pm_start : pmem m0 [] m0 no_reqs no_resps
| pm_arrive : forall h m rq rs i q, pmem m0 h m rq rs -> pmem m0 (h ++ [Arrive i q]) m (setq rq i (rq i ++ [q])) rs
| pm_execute : forall h m rq rs i q l, pmem m0 h m rq rs -> rq i = q :: l ->
    pmem m0 (h ++ [Execute i]) (fst (plain_exec m q)) (setq rq i l) (setq rs i (rs i ++ [snd (plain_exec m q)]))
| pm_deliver : forall h m rq rs i y l, pmem m0 h m rq rs -> rs i = y :: l -> pmem m0 (h ++ [Deliver i y]) m rq (setq rs i l).
Definition arrived (i : nat) (h : list pev) : list mreq :=
  flat_map (fun e => match e with Arrive j q => if Nat.eqb j i then [q] else [] | _ => [] end) h.
Definition delivered (i : nat) (h : list pev) : list mresp :=
  flat_map (fun e => match e with Deliver j y => if Nat.eqb j i then [y] else [] | _ => [] end) h.

(** The request accesses bytes in [Z] only. *)
Definition within (Z : N -> Prop) (q : mreq) : Prop :=
  forall k, k < (if (mq_type q =? T_READ) || (mq_type q =? T_WRITE) then (if mq_len q =? 0 then dw / 8 else mq_len q) else 4) -> Z (mq_addr q + k).
End Plain.

(** MemoryCL_test.py 73-79, with mk_mem_msg(8,32,32) *)
Definition mrq (t o a l d : N) : mreq := mkMReq t o a l 0 d.
Definition msg := (mreq * mresp)%type.
Definition tw (o a l d : N) : msg := (mrq T_WRITE o a l d, mkMResp T_WRITE o 0 0).
Definition tr_ (o a l d : N) : msg := (mrq T_READ o a l 0, mkMResp T_READ o l d).
Definition ta (t o a d r : N) : msg := (mrq t o a 0 d, mkMResp t o 0 r).
(** 85-89 *)
Definition basic_msgs (b : N) : list msg := [ tw 0 (b + 0) 0 0xdeadbeef; tr_ 1 (b + 0) 0 0xdeadbeef ].
(** 95-104 *)
Definition stream_msgs (b : N) : list msg :=
  flat_map (fun i => [ tw i (b + 4 * i) 0 i; tr_ i (b + 4 * i) 0 i ]) (map N.of_nat (seq 0 20)).
(** 110-129 *)
Definition subword_rd_msgs (b : N) : list msg :=
  [ tw 0 (b + 0) 0 0xdeadbeef;
    tr_ 1 (b + 0) 1 0xef; tr_ 2 (b + 1) 1 0xbe; tr_ 3 (b + 2) 1 0xad; tr_ 4 (b + 3) 1 0xde;
    tr_ 5 (b + 0) 2 0xbeef; tr_ 6 (b + 1) 2 0xadbe; tr_ 7 (b + 2) 2 0xdead;
    tr_ 8 (b + 0) 3 0xadbeef; tr_ 9 (b + 1) 3 0xdeadbe; tr_ 0xa (b + 0) 0 0xdeadbeef ].
(** 135-154 *)
Definition subword_wr_msgs (b : N) : list msg :=
  [ tw 0 (b + 0) 1 0xef; tw 1 (b + 1) 1 0xbe; tw 2 (b + 2) 1 0xad; tw 3 (b + 3) 1 0xde; tr_ 4 (b + 0) 0 0xdeadbeef;
    tw 5 (b + 0) 2 0xabcd; tw 6 (b + 2) 2 0xef01; tr_ 7 (b + 0) 0 0xef01abcd;
    tw 8 (b + 1) 2 0x2345; tr_ 0xa (b + 0) 0 0xef2345cd;
    tw 0xb (b + 0) 3 0xcafe02; tr_ 0xc (b + 0) 0 0xefcafe02 ].
(** 160-187 *)
Definition amo_msgs (b : N) : list msg :=
  [ tw 0 (b + 0) 0 0x01234567; tw 0 (b + 4) 0 0x98765432; tw 0 (b + 8) 0 0x22002200;
    tw 0 (b + 12) 0 0x00112233; tw 0 (b + 16) 0 0x44556677; tw 0 (b + 20) 0 0x01230123;
    ta T_AMO_ADD 1 (b + 0) 0x12345678 0x01234567; tr_ 2 (b + 0) 0 0x13579bdf;
    ta T_AMO_AND 3 (b + 4) 0x23456789 0x98765432; tr_ 4 (b + 4) 0 0x00444400;
    ta T_AMO_OR 5 (b + 8) 0x01230123 0x22002200; tr_ 6 (b + 8) 0 0x23232323;
    ta T_AMO_SWAP 5 (b + 12) 0xdeadbeef 0x00112233; tr_ 6 (b + 12) 0 0xdeadbeef;
    ta T_AMO_MIN 7 (b + 16) 0xcafebabe 0x44556677; tr_ 8 (b + 16) 0 0xcafebabe;
    ta T_AMO_MIN 9 (b + 20) 0x01201234 0x01230123; tr_ 0xa (b + 20) 0 0x01201234 ].
(** 193-224, for any values [vmem] drawn, any index and either outcome of the coin: a read
    ([op] is [None]) or a write of [op] *)
Definition random_msgs (b : N) (vmem : list N) (idx : nat) (op : option N) : list msg :=
  map (fun x => tw (N.of_nat (fst x)) (b + 4 * N.of_nat (fst x)) 0 (snd x)) (combine (seq 0 20) vmem) ++
  [ match op with
    | None => tr_ 0 (b + 4 * N.of_nat idx) 0 (nth idx vmem 0)
    | Some d => tw 0 (b + 4 * N.of_nat idx) 0 d
    end ].

(** The test cases (230-243), for a port with base address [b] *)
Inductive test_msgs (b : N) : list msg -> Prop :=
| tm_basic : test_msgs b (basic_msgs b)
| tm_stream : test_msgs b (stream_msgs b)
| tm_subword_rd : test_msgs b (subword_rd_msgs b)
| tm_subword_wr : test_msgs b (subword_wr_msgs b)
| tm_amo : test_msgs b (amo_msgs b)
| tm_random : forall vmem idx op, length vmem = 20%nat -> Forall (fun v => v < 2 ^ 32) vmem -> (idx < 20)%nat ->
    test_msgs b (random_msgs b vmem idx op).

(** MemoryCL.py 24-28: bytes moved directly (MagicMemoryFL's bytearray) *)
Definition read_mem (m : mem) (a : N) (size : nat) : list N := map (fun k => m (a + N.of_nat k)) (seq 0 size).
Definition write_mem (m : mem) (a : N) (data : list N) : mem :=
  fun x => if (a <=? x) && (x <? a + N.of_nat (length data)) then nth (N.to_nat (x - a)) data 0 else m x.
(** MemoryCL_test.py 296 and 326, struct.pack with "<...i": little-endian words *)
Definition pack (data : list N) : list N := flat_map (fun v => map (fun k => slice v (8 * k) (8 * k + 8)) [0; 1; 2; 3]) data.
(** MemoryCL_test.py 300-304 *)
Definition check_msgs (b : N) (data : list N) : list msg :=
  map (fun x => tr_ 1 (b + 4 * N.of_nat (fst x)) 0 (snd x)) (combine (seq 0 (length data)) data).
