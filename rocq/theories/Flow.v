(** The synthesis flow: blocking_cache/translate.py with --replace-sram, and the
    SRAM wrapper sram/brg_gf14_sram_generic_synopsys.v that it appends to the
    generated file. *)
From Coq Require Import NArith List Bool Lia String Ascii Decimal DecimalString DecimalN.
From Verif Require Import Bits Params Msg Units Units2 Rtl SramJunk.
Import ListNotations.
Open Scope N_scope.
Local Open Scope string_scope.

(** ** Python string operations used by translate.py 55-76 *)
(** [sub in s] *)
Fixpoint contains (sub s : string) : bool :=
  String.prefix sub s || match s with EmptyString => false | String _ r => contains sub r end.
(** [s.replace(old, new)] for a non-empty [old]: all occurrences, left to right,
    not overlapping; [skip] characters still belong to the last occurrence. *)
Fixpoint replace_go (old new : string) (skip : nat) (s : string) : string :=
  match s with
  | EmptyString => EmptyString
  | String c r =>
      match skip with
      | S k => replace_go old new k r
      | O => if String.prefix old s then new ++ replace_go old new (String.length old - 1) r
             else String c (replace_go old new O r)
      end
  end.
Definition replace_all (old new s : string) : string := replace_go old new O s.
(** [s.rstrip('\r\n')] *)
Definition is_nl (c : ascii) : bool := (Ascii.eqb c "010" || Ascii.eqb c "013")%char.
Fixpoint rstrip (s : string) : string :=
  match s with
  | EmptyString => EmptyString
  | String c r => match rstrip r with
                  | EmptyString => if is_nl c then EmptyString else String c EmptyString
                  | r' => String c r'
                  end
  end.

(** translate.py 55-76, one line of the file *)
Definition replace_line (line : string) : string :=
  if contains "SramGenericPRTL__num_bits_128__num_words_256 sram" (rstrip line) then
    replace_all "SramGenericPRTL__num_bits_128__num_words_256 sram"
                "SramGenericPRTL #(.num_bits(128) , .num_words(256)) sram" line
  else if contains "SramGenericPRTL__num_bits_26__num_words_128 sram" (rstrip line) then
    replace_all "SramGenericPRTL__num_bits_26__num_words_128 sram"
                "SramGenericPRTL #(.num_bits(26) , .num_words(128)) sram" line
  else if contains "SramGenericPRTL__num_bits_25__num_words_256 sram" (rstrip line) then
    replace_all "SramGenericPRTL__num_bits_25__num_words_256 sram"
                "SramGenericPRTL #(.num_bits(25) , .num_words(256)) sram" line
  else if contains "SramGenericPRTL__num_bits_128__num_words_512 sram" (rstrip line) then
    replace_all "SramGenericPRTL__num_bits_128__num_words_512 sram"
                "SramGenericPRTL #(.num_bits(128) , .num_words(512)) sram" line
  else line.
(** translate.py 57-58: every line of the file *)
Definition replace_sram (file : list string) : list string := map replace_line file.

(** Specification vocabulary: every character satisfies [P]; not a capital S. *)
Fixpoint all_c (P : ascii -> bool) (s : string) : bool :=
  match s with EmptyString => true | String c r => P c && all_c P r end.
Definition not_S (c : ascii) : bool := negb (Ascii.eqb c "S").

(** ** The text PyMTL3 generates: an SRAM of [b] bits by [w] words (SramPRTL.py 49)
    is instantiated by a line made of this name and an instance name; [dec] is the
    decimal representation. *)
Definition dec (n : N) : string := NilZero.string_of_uint (N.to_uint n).
Definition module_name (b w : N) : string :=
  "SramGenericPRTL__num_bits_" ++ dec b ++ "__num_words_" ++ dec w.
Definition instance (b w : N) : string := module_name b w ++ " sram".
(** the wrapper with its parameters *)
Definition wrapper_instance (b w : N) : string :=
  "SramGenericPRTL #(.num_bits(" ++ dec b ++ ") , .num_words(" ++ dec w ++ ")) sram".

(** ** The wrapper (brg_gf14_sram_generic_synopsys.v 7-89) *)
(** A behaviour model sram_WxB (231-281, 283-330): [nb] bits, [nw] words, an
    address port of [aw] bits. *)
Definition cell_step (nb nw aw : N) (cen rdwen : bool) (a d bw : N) (s : sram_st) : sram_st :=
  let a := trunc aw a in
  let next := fold_left (fun ram i => if negb cen && negb rdwen && N.testbit bw i
                                      then upd ram a (put_bit (ram a) i (N.testbit d i)) else ram)
                        (range nb) (sr_ram s) in
  mkSr (if negb cen && negb rdwen then (fun i => if (i <? nw)%N then next i else sr_ram s i) else sr_ram s)
       (if negb cen && rdwen then sr_ram s a else 0).
(** Lines 40-79: the hard cell for four shapes, the behavioural branch otherwise.
    For sram_512x128 and sram_256x25 the file has no behaviour model (they come
    from the foundry); [cell_step] stands for them here. *)
Definition wrapper_step (b w : N) (csb web : bool) (a1 i1 wbm : N) (s : sram_st) : sram_st :=
  if (b =? 128)%N && (w =? 256)%N then cell_step 128 256 8 csb web a1 i1 wbm s
  else if (b =? 26)%N && (w =? 128)%N then cell_step 26 128 7 csb web a1 i1 wbm s
  else if (b =? 128)%N && (w =? 512)%N then cell_step 128 512 9 csb web a1 i1 wbm s
  else if (b =? 25)%N && (w =? 256)%N then cell_step 25 256 8 csb web a1 i1 wbm s
  else vgeneric_step b csb web a1 i1 wbm s.
(** SramPRTL.py 42-59 around the wrapper: inverters, OEB1 tied low *)
Definition wsram_step (b w : N) (s : sram_st) (o : sram_op) : sram_st :=
  wrapper_step b w (negb (so_val o)) (negb (so_type o)) (so_idx o) (so_wdata o) (so_wben o) s.
Definition wsram_run (b w : N) (s : sram_st) (ops : list sram_op) : sram_st := fold_left (wsram_step b w) ops s.

(** ** The cache after the replacement *)
(** Shapes for which the script inserts the wrapper. *)
Definition macro (b w : N) : bool :=
  ((b =? 128)%N && (w =? 256)%N) || ((b =? 26)%N && (w =? 128)%N) || ((b =? 25)%N && (w =? 256)%N) || ((b =? 128)%N && (w =? 512)%N).
(** BlockingCacheDpathRTL.py 182: tag arrays SramPRTL(bitwidth_tag_array, nblocks_per_way) *)
Definition tag_macro (p : params) : bool := macro (tagarrw p) (nblocks p).
(** BlockingCacheDpathRTL.py 317: data array SramPRTL(bitwidth_cacheline, total_num_cachelines) *)
Definition data_macro (p : params) : bool := macro (p_clw p) (total_lines p).
(** One clock edge: a replaced array that is not read shows [j] afterwards (zero
    for the behaviour models in the file, anything for a foundry cell), an array
    that is not replaced keeps its output. *)
Definition flow_junk (p : params) (s : st) (j : junk) : junk :=
  mkJunk (fun w => if tag_macro p then j_tag j w else tdout s w)
         (if data_macro p then j_data j else ddout s).
Definition next_f (p : params) (s : st) (i : inp) (j : junk) : st := next_j p s i (flow_junk p s j).
Fixpoint run_f (p : params) (s : st) (l : list (inp * junk)) : st * list outp :=
  match l with
  | [] => (s, [])
  | (i, j) :: r => let '(s2, os) := run_f p (next_f p s i j) r in (s2, output p s i :: os)
  end.

(** Shapes whose cell has no behaviour model in the wrapper file (231-330 define
    sram_128x26 and sram_256x128 only). *)
Definition foundry (b w : N) : bool := ((b =? 25)%N && (w =? 256)%N) || ((b =? 128)%N && (w =? 512)%N).
