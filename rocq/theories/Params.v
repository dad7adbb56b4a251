(** Cache parameters: blocking_cache/CacheDerivedParams.py. *)
From Coq Require Import NArith List Bool Lia.
From Verif Require Import Bits.
Open Scope N_scope.

(** Primary parameters (CacheDerivedParams.py 24-47): cache size in bytes,
    associativity and the widths taken from the message types
    ([mk_mem_msg], mem_ifcs/MemMsg.py 83-137). *)
Record params := mkParams {
  p_num_bytes : N;   (* num_bytes *)
  p_assoc : N;       (* associativity *)
  p_clw : N;         (* bitwidth_cacheline = MemReqType.data.nbits, line 44 *)
  p_abw : N;         (* bitwidth_addr, line 45 *)
  p_obw : N;         (* bitwidth_opaque, line 46 *)
  p_dbw : N          (* bitwidth_data = CacheReqType.data.nbits, line 47 *)
}.

Section Derived.
Variable p : params.
(** CacheDerivedParams.py 49 *)
Definition total_lines : N := (p_num_bytes p * 8) / p_clw p.
(** CacheDerivedParams.py 50 *)
Definition nblocks : N := total_lines / p_assoc p.
(** CacheDerivedParams.py 51 *)
Definition bw_lines : N := clog2 total_lines.
(** CacheDerivedParams.py 52 *)
Definition idxw : N := clog2 nblocks.
(** CacheDerivedParams.py 53 *)
Definition offw : N := clog2 (p_clw p / 8).
(** CacheDerivedParams.py 54 *)
Definition tagw : N := p_abw p - offw - idxw.
(** CacheDerivedParams.py 55: data array write-enable width *)
Definition wbenw : N := (p_clw p + 7) / 8 * 8.
(** CacheDerivedParams.py 59 *)
Definition lenw : N := clog2 (p_dbw p / 8).
(** CacheDerivedParams.py 60-63 *)
Definition assw : N := if p_assoc p =? 1 then 1 else clog2 (p_assoc p).
(** CacheDerivedParams.py 64 *)
Definition memlenw : N := clog2 (p_clw p / 8).
(** CacheDerivedParams.py 66 *)
Definition dtyw : N := p_clw p / 32.
(** CacheDerivedParams.py 67-70: tag array word = valid bit, dirty bits, tag *)
Definition tagarrw : N := tagw + 1 + dtyw.
(** BlockingCacheCtrlRTL.py 403: [clog2(associativity)], 0 when direct mapped *)
Definition clog_asso : N := clog2 (p_assoc p).
End Derived.

(** Supported configurations.  Everything is a power of two; associativity 1
    or 2 (ReplacementPolicy.py 35-49 implements no more); lines of at least
    64 bits; data port of 32, 64 or 128 bits (WriteBitEnGen "hardcoded to work
    for up to 128 bit", arithmetics.py 174) not wider than a line; at least two
    sets (a 0-bit index is not a legal PyMTL width) and at least one tag bit. *)
Record wf_params (p : params) : Prop := mkWfP {
  wf_assoc : p_assoc p = 1 \/ p_assoc p = 2;
  wf_clw : exists a, p_clw p = 2 ^ a /\ 6 <= a;
  wf_dbw : p_dbw p = 32 \/ p_dbw p = 64 \/ p_dbw p = 128;
  wf_dc : p_dbw p <= p_clw p;
  wf_size : exists b, 1 <= b /\ p_num_bytes p * 8 = p_clw p * (p_assoc p * 2 ^ b);
  wf_abw : offw p + idxw p < p_abw p
}.
