(** The line trace of the control unit: one line of text per cycle
    (BlockingCacheCtrlRTL.line_trace, Ctrl 762-857; what BlockingCacheRTL.line_trace
    returns at level 1, BlockingCacheRTL.py 76-77).  Model only.
    Simplification: colorama's constants are their ANSI sequences (Back.BLACK = ESC[40m,
    Fore.GREEN = ESC[32m, Fore.RED = ESC[31m, Style.RESET_ALL = ESC[0m). *)
From Coq Require Import NArith List Bool String Ascii.
From Verif Require Import Bits Params Msg Units Rtl.
Import ListNotations.
Open Scope string_scope.

Definition esc (s : string) : string := String "027"%char ("[" ++ s ++ "m").

(** Ctrl 764-778; the state register can hold nothing else ([fsm_t]), so the final
    [assert False] has no counterpart. *)
Definition msg_fsm (f : fsm_t) : string :=
  match f with
  | F_INIT => "(init)" | F_READY => "(rdy )" | F_REPLAY => "(rpy )"
  | F_INV => "(inv )" | F_FLUSH => "(flsh)" | F_FLUSH_WAIT => "(fls#)"
  end.

(** Ctrl 781-800: transaction in M0 *)
Definition msg_t0 (t : trans) : string :=
  match t with
  | TR_INVALID => "xxx" | TR_REFILL => " rf" | TR_CLEAN_HIT => " wc"
  | TR_REPLAY_READ => "rpr" | TR_REPLAY_WRITE => "rpw" | TR_READ_REQ => " rd" | TR_WRITE_REQ => " wr"
  | TR_INIT_REQ => " in" | TR_CACHE_INIT => "ini" | TR_AMO_REQ => "amo" | TR_REPLAY_AMO => "rpa"
  | TR_INV_WRITE => "ivw" | TR_INV_START => "iv0" | TR_REPLAY_INV => "ivp"
  | TR_FLUSH_START => "fl0" | TR_FLUSH_READ => "flr" | TR_FLUSH_WAIT => "fl#" | TR_FLUSH_WRITE => "flw"
  | TR_REPLAY_FLUSH => "flp"
  end.

(** Ctrl 802-803 *)
Definition msg_M0 (p : params) (s : st) (i : inp) : string :=
  (if negb (req_rdy p s i) then "#" else " ") ++ msg_fsm (fsm s) ++ msg_t0 (trans0 p s i).

(** Ctrl 805-825; note "frw" in line 824 where M0 and M2 print "flw". *)
Definition msg_M1 (p : params) (s : st) : string :=
  let color := if hit1 p s then esc "40" ++ esc "32" else esc "40" ++ esc "31" in
  match t1 s with
  | TR_REFILL => " rf" | TR_CLEAN_HIT => " wc" | TR_REPLAY_READ => "rpr" | TR_REPLAY_WRITE => "rpw"
  | TR_READ_REQ => color ++ " rd" ++ esc "0" | TR_WRITE_REQ => color ++ " wr" ++ esc "0"
  | TR_INIT_REQ => " in" | TR_CACHE_INIT => "ini" | TR_AMO_REQ => "amo" | TR_REPLAY_AMO => "rpa"
  | TR_INV_WRITE => "ivw" | TR_INV_START => "iv0" | TR_REPLAY_INV => "ivp"
  | TR_FLUSH_START => "fl0" | TR_FLUSH_READ => "flr" | TR_FLUSH_WAIT => "fl#" | TR_FLUSH_WRITE => "frw"
  | TR_REPLAY_FLUSH => "flp" | TR_INVALID => "   "
  end.

(** Ctrl 827-846 *)
Definition msg_M2 (s : st) : string :=
  match t2 s with
  | TR_REFILL => " rf" | TR_CLEAN_HIT => " wc" | TR_REPLAY_READ => "rpr" | TR_REPLAY_WRITE => "rpw"
  | t => if ev2 s then " ev" else
    match t with
    | TR_READ_REQ => " rd" | TR_WRITE_REQ => " wr"
    | TR_INIT_REQ => " in" | TR_CACHE_INIT => "ini" | TR_AMO_REQ => "amo" | TR_REPLAY_AMO => "rpa"
    | TR_INV_WRITE => "ivw" | TR_INV_START => "iv0" | TR_REPLAY_INV => "ivp"
    | TR_FLUSH_START => "fl0" | TR_FLUSH_READ => "flr" | TR_FLUSH_WAIT => "fl#" | TR_FLUSH_WRITE => "flw"
    | TR_REPLAY_FLUSH => "flp" | _ => "   "
    end
  end.

(** Ctrl 848-857 *)
Definition line_trace (p : params) (s : st) (i : inp) : string :=
  let msg_memresp := if i_mresp_en i then ">" else " " in
  let msg_memreq := if memreq_en s i then ">" else " " in
  let stage1 := if i_mresp_en i then msg_memresp ++ "|" ++ msg_M0 p s i else " |" ++ msg_M0 p s i in
  let stage2 := "|" ++ msg_M1 p s in
  let stage3 := "|" ++ msg_M2 s ++ "|" ++ msg_memreq in
  stage1 ++ stage2 ++ stage3.

(** The line printed in the cycle after the inputs [is]. *)
Definition line_at (p : params) (s0 : st) (is : list inp) (i : inp) : string :=
  line_trace p (fst (run p s0 is)) i.
