(** Generated by tools/units_conform.py from the unit-test vectors of the repository
    (blocking_cache/units/tests).  Do not edit. *)
From Coq Require Import NArith List.
Import ListNotations.
Open Scope N_scope.

(** blocking_cache/units/tests/arithmetics_tests.py 23-36; columns amo, len_, in_, out* *)
Definition v_test_replicator_dbw32_clw128 : list (bool * N * N * N) :=
  [ (false, 0, 2882343476, 228362777391627422848890905157641769524);
    (false, 1, 2882343476, 69390914038779608235668547397850772532);
    (false, 2, 2882343476, 24196472569643293503308547655940182580);
    (false, 3, 2882343476, 2882343476);
    (true, 0, 2882343476, 2882343476) ].
(** blocking_cache/units/tests/arithmetics_tests.py 38-53; columns amo, len_, in_, out* *)
Definition v_test_replicator_dbw128_clw128 : list (bool * N * N * N) :=
  [ (false, 0, 1512366075204170947332355369683137040, 1512366075204170947332355369683137040);
    (false, 1, 1512366075204170947332355369683137040, 21351050473470648687898014583954083856);
    (false, 2, 1512366075204170947332355369683137040, 66545491942606963420258014325864673808);
    (false, 3, 1512366075204170947332355369683137040, 1512366075204170947332355369683137040);
    (false, 4, 1512366075204170947332355369683137040, 157286071863488798684961284326620934672);
    (false, 8, 1512366075204170947332355369683137040, 338770000845734292534325025077361652240);
    (true, 8, 1512366075204170947332355369683137040, 1512366075204170947332355369683137040) ].
(** blocking_cache/units/tests/arithmetics_tests.py 55-84; columns cmd, dty_mask, offset, len_, out* *)
Definition v_test_WriteBitEnGen : list (N * N * N * N * N) :=
  [ (0, 0, 1, 0, 0);
    (1, 0, 1, 1, 65280);
    (1, 15, 2, 1, 16711680);
    (1, 15, 3, 1, 4278190080);
    (1, 0, 0, 2, 65535);
    (1, 0, 2, 2, 4294901760);
    (1, 0, 4, 2, 281470681743360);
    (1, 0, 6, 2, 18446462598732840960);
    (1, 0, 8, 2, 1208907372870555465154560);
    (1, 0, 0, 4, 4294967295);
    (1, 0, 4, 4, 18446744069414584320);
    (1, 0, 8, 4, 79228162495817593519834398720);
    (1, 0, 12, 4, 340282366841710300949110269838224261120);
    (1, 0, 0, 8, 18446744073709551615);
    (1, 0, 8, 8, 340282366920938463444927863358058659840);
    (1, 0, 0, 0, 340282366920938463463374607431768211455);
    (2, 1, 0, 0, 340282366920938463463374607427473244160);
    (2, 2, 0, 0, 340282366920938463444927863362353627135);
    (2, 4, 0, 0, 340282366841710300967557013911933812735);
    (2, 8, 0, 0, 79228162514264337593543950335);
    (2, 10, 0, 0, 79228162495817593524129366015) ].
(** blocking_cache/units/tests/muxes_tests.py 24-38; columns en, amo, len_, offset, in_, out* *)
Definition v_clw128_dbw32 : list (bool * bool * N * N * N * N) :=
  [ (true, false, 0, 0, 1512366075204170947332355369683137040, 1985229328);
    (true, false, 0, 4, 1512366075204170947332355369683137040, 4275878552);
    (true, false, 0, 8, 1512366075204170947332355369683137040, 2309737967);
    (true, false, 0, 12, 1512366075204170947332355369683137040, 19088743);
    (true, false, 2, 8, 1512366075204170947332355369683137040, 52719);
    (true, false, 2, 10, 1512366075204170947332355369683137040, 35243);
    (true, false, 1, 12, 1512366075204170947332355369683137040, 103);
    (true, false, 1, 13, 1512366075204170947332355369683137040, 69);
    (true, false, 1, 14, 1512366075204170947332355369683137040, 35);
    (true, false, 1, 15, 1512366075204170947332355369683137040, 1);
    (true, true, 1, 15, 1512366075204170947332355369683137040, 1985229328) ].
(** blocking_cache/units/tests/muxes_tests.py 40-77; columns en, amo, len_, offset, in_, out* *)
Definition v_clw128_dbw128 : list (bool * bool * N * N * N * N) :=
  [ (false, false, 0, 0, 1, 0);
    (false, true, 4, 0, 1985229328, 1985229328);
    (true, false, 0, 0, 1512366075204170947332355369683137040, 1512366075204170947332355369683137040);
    (true, false, 0, 4, 1512366075204170947332355369683137040, 1512366075204170947332355369683137040);
    (true, false, 8, 0, 1512366075204170947332355369683137040, 18364758544493064720);
    (true, false, 8, 8, 1512366075204170947332355369683137040, 81985529216486895);
    (true, false, 4, 0, 1512366075204170947332355369683137040, 1985229328);
    (true, false, 4, 4, 1512366075204170947332355369683137040, 4275878552);
    (true, false, 4, 8, 1512366075204170947332355369683137040, 2309737967);
    (true, false, 4, 12, 1512366075204170947332355369683137040, 19088743);
    (true, false, 2, 0, 1512366075204170947332355369683137040, 12816);
    (true, false, 2, 2, 1512366075204170947332355369683137040, 30292);
    (true, false, 2, 4, 1512366075204170947332355369683137040, 47768);
    (true, false, 2, 6, 1512366075204170947332355369683137040, 65244);
    (true, false, 2, 8, 1512366075204170947332355369683137040, 52719);
    (true, false, 2, 10, 1512366075204170947332355369683137040, 35243);
    (true, false, 2, 12, 1512366075204170947332355369683137040, 17767);
    (true, false, 2, 14, 1512366075204170947332355369683137040, 291);
    (true, false, 1, 0, 1512366075204170947332355369683137040, 16);
    (true, false, 1, 1, 1512366075204170947332355369683137040, 50);
    (true, false, 1, 2, 1512366075204170947332355369683137040, 84);
    (true, false, 1, 3, 1512366075204170947332355369683137040, 118);
    (true, false, 1, 4, 1512366075204170947332355369683137040, 152);
    (true, false, 1, 5, 1512366075204170947332355369683137040, 186);
    (true, false, 1, 6, 1512366075204170947332355369683137040, 220);
    (true, false, 1, 7, 1512366075204170947332355369683137040, 254);
    (true, false, 1, 8, 1512366075204170947332355369683137040, 239);
    (true, false, 1, 9, 1512366075204170947332355369683137040, 205);
    (true, false, 1, 10, 1512366075204170947332355369683137040, 171);
    (true, false, 1, 11, 1512366075204170947332355369683137040, 137);
    (true, false, 1, 12, 1512366075204170947332355369683137040, 103);
    (true, false, 1, 13, 1512366075204170947332355369683137040, 69);
    (true, false, 1, 14, 1512366075204170947332355369683137040, 35);
    (true, false, 1, 15, 1512366075204170947332355369683137040, 1) ].
