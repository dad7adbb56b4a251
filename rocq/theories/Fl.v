(** The function-level reference model, blocking_cache/BlockingCacheFL.py: the
    hit/miss tracker and the model cache that generates the expected responses
    of the random tests. *)
From Coq Require Import NArith List Bool Lia.
From Verif Require Import Bits Params Msg Mem.
Import ListNotations.
Open Scope N_scope.

(** ** HitMissTracker (BlockingCacheFL.py 84-184) *)

(** Number of ways and widths of the address fields (lines 85-104); sizes are
    in bits.  [int(math.log(x, 2))] is taken to be the integer logarithm. *)
Record geom := mkGeom { g_ways : nat; g_off : N; g_bank : N; g_idx : N }.
Definition mk_geom (size nways nbanks linesize : N) : geom :=
  mkGeom (N.to_nat nways) (N.log2 (linesize / 8))
         (if nbanks =? 0 then 0 else N.log2 nbanks)
         (N.log2 (size / linesize / nways)).

(** Lines 106-121: [line[idx][way]], [valid[idx][way]] and the LRU list of each set. *)
Record trk := mkTrk { t_line : N -> nat -> N; t_valid : N -> nat -> bool; t_lru : N -> list nat }.

Section Tracker.
Variable g : geom.
Definition trk0 : trk := mkTrk (fun _ _ => 0) (fun _ _ => false) (fun _ => seq 0 (g_ways g)).

(** split_address (126-131); [tag_end] is 32 (line 104) *)
Definition f_idx (a : N) : N := slice a (g_off g + g_bank g) (g_off g + g_bank g + g_idx g).
Definition f_tag (a : N) : N := slice a (g_off g + g_bank g + g_idx g) 32.

(** Python's [list.remove] (135, 169): removes the first occurrence *)
Fixpoint rem1 (w : nat) (l : list nat) : list nat :=
  match l with [] => [] | x :: l => if Nat.eqb w x then l else x :: rem1 w l end.
Definition set2 {A} (f : N -> nat -> A) (i : N) (w : nat) (v : A) : N -> nat -> A :=
  fun i' w' => if (i' =? i) && Nat.eqb w' w then v else f i' w'.

(** lru_hit (134-136), lru_set (168-170), lru_get (140-141) *)
Definition lru_hit (t : trk) (i : N) (w : nat) : trk :=
  mkTrk (t_line t) (t_valid t) (upd (t_lru t) i (w :: rem1 w (t_lru t i))).
Definition lru_set (t : trk) (i : N) (w : nat) : trk :=
  mkTrk (t_line t) (t_valid t) (upd (t_lru t) i (rem1 w (t_lru t i) ++ [w])).
Definition lru_get (t : trk) (i : N) : nat := last (t_lru t i) 0%nat.

(** the loop of tag_check (145-146) and amo_req (174-175): first matching way *)
Definition match_way (t : trk) (tag i : N) : option nat :=
  find (fun w => t_valid t i w && (t_line t i w =? tag)) (seq 0 (g_ways g)).
(** tag_check (144-150) *)
Definition tag_check (t : trk) (tag i : N) : trk * bool :=
  match match_way t tag i with Some w => (lru_hit t i w, true) | None => (t, false) end.
(** refill (153-157) *)
Definition refill (t : trk) (tag i : N) : trk :=
  let v := lru_get t i in
  lru_hit (mkTrk (set2 (t_line t) i v tag) (set2 (t_valid t) i v true) (t_lru t)) i v.
(** access_address (161-166) *)
Definition access (t : trk) (a : N) : trk * bool :=
  let (t1, hit) := tag_check t (f_tag a) (f_idx a) in
  ((if hit then t1 else refill t1 (f_tag a) (f_idx a)), hit).
(** amo_req (172-178) *)
Definition amo_acc (t : trk) (a : N) : trk :=
  match match_way t (f_tag a) (f_idx a) with
  | Some w => lru_set (mkTrk (t_line t) (set2 (t_valid t) (f_idx a) w false) (t_lru t)) (f_idx a) w
  | None => t
  end.
(** invalidate (180-184) *)
Definition inv_acc (t : trk) : trk := mkTrk (t_line t) (fun _ _ => false) (t_lru t).

(** Calls of the tracker, and the hit flags they return (0 for the calls that
    return nothing). *)
Inductive tcall := CAcc (a : N) | CAmo (a : N) | CInv.
Definition tcall_step (t : trk) (c : tcall) : trk * bool :=
  match c with CAcc a => access t a | CAmo a => (amo_acc t a, false) | CInv => (inv_acc t, false) end.
Fixpoint tcalls (t : trk) (cs : list tcall) : trk * list bool :=
  match cs with
  | [] => (t, [])
  | c :: cs => let '(t1, b) := tcall_step t c in let '(t2, bs) := tcalls t1 cs in (t2, b :: bs)
  end.
End Tracker.

(** ** ModelCache (BlockingCacheFL.py 186-314) *)

(** [mem]: dictionary from line number to line.  The transaction list is
    returned call by call. *)
Record fl := mkFl { fl_t : trk; fl_mem : N -> option N }.

Section Model.
Variable nbytes nways nbanks : N.   (* constructor arguments (187); size in bytes *)
Variable p : params.                (* bit widths of the message types (189-190) *)
Definition fl_geom : geom := mk_geom (nbytes * 8) nways nbanks (p_clw p).   (* 192-193 *)

(** 206-207: width of the offset; the line number is the rest of the 32 bits *)
Definition fl_offw : N := N.log2 (p_clw p / 8).
Definition fl_line (a : N) : N := slice a fl_offw 32.
Definition fl_off (a : N) : N := slice a 0 fl_offw.
Definition get_line (m : N -> option N) (k : N) : N := match m k with Some v => v | None => 0 end.

(** Bits slices: [x[8*o : 8*(o+n)]] and the slice assignment *)
Definition get_b (x o n : N) : N := slice x (8 * o) (8 * (o + n)).
Definition set_b (x o n v : N) : N := mwrite x (N.shiftl v (8 * o)) (N.shiftl (N.ones (8 * n)) (8 * o)).
(** ... raise an exception unless the slice is non-empty and inside the line *)
Definition fits (o n : N) : bool := (0 <? n) && (o + n <=? p_clw p / 8).
(** number of bytes: 0 means the whole data width (242-245, 259-262, 275-278) *)
Definition fl_n (len : N) : N := if len =? 0 then p_dbw p / 8 else len.

(** constructor (218-226): initial contents as (address, word) pairs *)
Definition fl_load (m : N -> option N) (av : N * N) : N -> option N :=
  let (a, v) := av in
  upd m (fl_line a) (Some (set_b (get_line m (fl_line a)) (fl_off a) 4 (trunc 32 v))).
Definition fl0 (init : list (N * N)) : fl := mkFl (trk0 fl_geom) (fold_left fl_load init (fun _ => None)).

(** Calls of the model (tests call these once per transaction). *)
Inductive fcall :=
| FRead (a opq len : N) | FWrite (a v opq len : N) | FInit (a v opq len : N)
| FAmo (a v opq len func : N) | FInv (opq : N) | FFlush (opq : N).

(** read (236-250), write (252-266), init (268-281), amo (283-300), invalidate
    (302-306), flush (308-311): the new state and the transaction appended, or
    [None] if Python raises.  amo looks the line up under its signed number, in
    a dictionary filled under unsigned ones (286-290): it raises unless the line
    has been touched before and its number has a clear top bit (here taken to be
    so; the entry added under a Bits key in 289 is never found again). *)
Definition fl_call (s : fl) (c : fcall) : option (fl * (creq * cresp)) :=
  match c with
  | FRead a opq len =>
      let (t, hit) := access fl_geom (fl_t s) a in
      let L := get_line (fl_mem s) (fl_line a) in
      if fits (fl_off a) (fl_n len) && (fl_n len <=? p_dbw p / 8) then
        Some (mkFl t (upd (fl_mem s) (fl_line a) (Some L)),
              (mkCReq T_READ opq a len 0, mkCResp T_READ opq (b2n hit) len (get_b L (fl_off a) (fl_n len))))
      else None
  | FWrite a v opq len =>
      let (t, hit) := access fl_geom (fl_t s) a in
      let v := trunc (p_dbw p) v in
      let L := get_line (fl_mem s) (fl_line a) in
      if fits (fl_off a) (fl_n len) && (fl_n len <=? p_dbw p / 8) then
        Some (mkFl t (upd (fl_mem s) (fl_line a) (Some (set_b L (fl_off a) (fl_n len) (slice v 0 (8 * fl_n len))))),
              (mkCReq T_WRITE opq a len v, mkCResp T_WRITE opq (b2n hit) len 0))
      else None
  | FInit a v opq len =>
      let (t, hit) := access fl_geom (fl_t s) a in
      let v := trunc (p_dbw p) v in
      let L := get_line (fl_mem s) (fl_line a) in
      (* the assigned value has the full data width, so the slice must too (275-278) *)
      if fits (fl_off a) (fl_n len) && (fl_n len =? p_dbw p / 8) then
        Some (mkFl t (upd (fl_mem s) (fl_line a) (Some (set_b L (fl_off a) (fl_n len) v))),
              (mkCReq T_INIT opq a len v, mkCResp T_INIT opq 0 len 0))
      else None
  | FAmo a v opq len func =>
      let t := amo_acc fl_geom (fl_t s) a in
      match fl_mem s (fl_line a) with
      | Some L =>
          if fits (fl_off a) 4 && (T_AMO_ADD <=? func) && (func <=? T_AMO_XOR) && negb (N.testbit a 31) then
            let old := get_b L (fl_off a) 4 in
            let v := trunc 32 v in
            Some (mkFl t (upd (fl_mem s) (fl_line a) (Some (set_b L (fl_off a) 4 (amo_fun func old v)))),
                  (mkCReq func opq a len v, mkCResp func opq 0 len old))
          else None
      | None => None
      end
  | FInv opq => Some (mkFl (inv_acc (fl_t s)) (fl_mem s), (mkCReq T_INV opq 0 0 0, mkCResp T_INV opq 0 0 0))
  | FFlush opq => Some (s, (mkCReq T_FLUSH opq 0 0 0, mkCResp T_FLUSH opq 0 0 0))
  end.
Fixpoint fl_calls (s : fl) (cs : list fcall) : option (fl * list (creq * cresp)) :=
  match cs with
  | [] => Some (s, [])
  | c :: cs => match fl_call s c with
               | None => None
               | Some (s1, x) => match fl_calls s1 cs with None => None | Some (s2, xs) => Some (s2, x :: xs) end
               end
  end.
End Model.
