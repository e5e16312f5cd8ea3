(** The vendored batched FFT routines, translated statement by statement from the
    C++ text into the language of FftLang.v (variables are numbered in order of
    appearance, i1 is number 0; X is array 0, Y array 1, the static arrays follow).
    One definition stands for the seven files with the same transform length. *)
From Coq Require Import ZArith List.
From Verif Require Import FftLang.
Import ListNotations.
Open Scope Z_scope.

(** Constant array written out in the expressions of the r2c routine below. *)
Definition tab_38 : list (Z * Z) := [(1, 1); (0, 1); (14142135623730951, 10000000000000000); (0, 1); (14142135623730951, 10000000000000000); (0, 1); (14142135623730951, 10000000000000000); (0, 1); (14142135623730951, 10000000000000000); (0, 1); (14142135623730951, 10000000000000000); (0, 1); (14142135623730951, 10000000000000000); (0, 1); (14142135623730951, 10000000000000000); (0, 1); (14142135623730951, 10000000000000000); (0, 1); (14142135623730951, 10000000000000000); (0, 1); (14142135623730951, 10000000000000000); (0, 1); (14142135623730951, 10000000000000000); (0, 1); (14142135623730951, 10000000000000000); (0, 1); (14142135623730951, 10000000000000000); (0, 1); (14142135623730951, 10000000000000000); (0, 1); (14142135623730951, 10000000000000000); (0, 1); (14142135623730951, 10000000000000000); (0, 1); (14142135623730951, 10000000000000000); (0, 1); (14142135623730951, 10000000000000000); (0, 1)].

(** Constant array written out in the expressions of the r2c routine below. *)
Definition tab_42 : list (Z * Z) := [(1, 1); (0, 1); (14142135623730951, 10000000000000000); (0, 1); (14142135623730951, 10000000000000000); (0, 1); (14142135623730951, 10000000000000000); (0, 1); (14142135623730951, 10000000000000000); (0, 1); (14142135623730951, 10000000000000000); (0, 1); (14142135623730951, 10000000000000000); (0, 1); (14142135623730951, 10000000000000000); (0, 1); (14142135623730951, 10000000000000000); (0, 1); (14142135623730951, 10000000000000000); (0, 1); (14142135623730951, 10000000000000000); (0, 1); (14142135623730951, 10000000000000000); (0, 1); (14142135623730951, 10000000000000000); (0, 1); (14142135623730951, 10000000000000000); (0, 1); (14142135623730951, 10000000000000000); (0, 1); (14142135623730951, 10000000000000000); (0, 1); (14142135623730951, 10000000000000000); (0, 1); (14142135623730951, 10000000000000000); (0, 1); (14142135623730951, 10000000000000000); (0, 1); (14142135623730951, 10000000000000000); (0, 1); (14142135623730951, 10000000000000000); (0, 1)].

(** third_party/fftx_codelets/lib_fftx_prdftbat_cpu_srcs/fftx_prdftbat_16_bat_72_APar_APar_CPU.cpp:8-106; the files for
    96, 120, 144, 168, 192, 216 transforms differ from it only in the names and in
    the bound of the loop over i1 (the transforms). *)
Definition r2c_16_init : stmt := block [].
Definition r2c_16_body : stmt := block [
    SUndefD [0; 1; 2; 3; 4; 5; 6; 7; 8; 9; 10; 11; 12; 13; 14; 15; 16; 17; 18; 19; 20; 21; 22; 23; 24; 25; 26; 27; 28; 29; 30; 31; 32; 33; 34; 35; 36; 37; 38; 39; 40; 41];
    SUndefI [1; 2; 3; 4; 5; 6; 7; 8; 9; 10; 11; 12; 13; 14; 15; 16; 17];
    SI 1 (IMul (IC 16) (IV 0));
    SI 2 (IAdd (IV 1) (IC 8));
    SD 4 (DAdd (DLd 0 (IV 1)) (DLd 0 (IV 2)));
    SD 5 (DSub (DLd 0 (IV 1)) (DLd 0 (IV 2)));
    SI 3 (IAdd (IV 1) (IC 4));
    SI 4 (IAdd (IV 1) (IC 12));
    SD 6 (DAdd (DLd 0 (IV 3)) (DLd 0 (IV 4)));
    SD 7 (DSub (DLd 0 (IV 3)) (DLd 0 (IV 4)));
    SD 8 (DAdd (DV 4) (DV 6));
    SD 9 (DSub (DV 4) (DV 6));
    SI 5 (IAdd (IV 1) (IC 1));
    SI 6 (IAdd (IV 1) (IC 9));
    SD 10 (DAdd (DLd 0 (IV 5)) (DLd 0 (IV 6)));
    SD 11 (DSub (DLd 0 (IV 5)) (DLd 0 (IV 6)));
    SI 7 (IAdd (IV 1) (IC 5));
    SI 8 (IAdd (IV 1) (IC 13));
    SD 12 (DAdd (DLd 0 (IV 7)) (DLd 0 (IV 8)));
    SD 13 (DSub (DLd 0 (IV 7)) (DLd 0 (IV 8)));
    SD 14 (DAdd (DV 10) (DV 12));
    SI 9 (IAdd (IV 1) (IC 2));
    SI 10 (IAdd (IV 1) (IC 10));
    SD 15 (DAdd (DLd 0 (IV 9)) (DLd 0 (IV 10)));
    SI 11 (IAdd (IV 1) (IC 6));
    SI 12 (IAdd (IV 1) (IC 14));
    SD 16 (DAdd (DLd 0 (IV 11)) (DLd 0 (IV 12)));
    SD 17 (DAdd (DV 15) (DV 16));
    SD 18 (DSub (DV 15) (DV 16));
    SI 13 (IAdd (IV 1) (IC 3));
    SI 14 (IAdd (IV 1) (IC 11));
    SD 19 (DAdd (DLd 0 (IV 13)) (DLd 0 (IV 14)));
    SD 20 (DSub (DLd 0 (IV 13)) (DLd 0 (IV 14)));
    SI 15 (IAdd (IV 1) (IC 7));
    SI 16 (IAdd (IV 1) (IC 15));
    SD 21 (DAdd (DLd 0 (IV 15)) (DLd 0 (IV 16)));
    SD 22 (DSub (DLd 0 (IV 15)) (DLd 0 (IV 16)));
    SD 23 (DAdd (DV 19) (DV 21));
    SD 24 (DAdd (DV 8) (DV 17));
    SD 25 (DAdd (DV 14) (DV 23));
    SI 17 (IMul (IC 18) (IV 0));
    ST 1 (IV 17) (DAdd (DV 24) (DV 25));
    ST 1 (IAdd (IC 1) (IV 17)) (DC 0 1);
    ST 1 (IAdd (IC 16) (IV 17)) (DMul (DC 14142135623730951 10000000000000000) (DSub (DV 24) (DV 25)));
    ST 1 (IAdd (IC 17) (IV 17)) (DC 0 1);
    ST 1 (IAdd (IC 8) (IV 17)) (DMul (DC 14142135623730951 10000000000000000) (DSub (DV 8) (DV 17)));
    ST 1 (IAdd (IC 9) (IV 17)) (DNeg (DMul (DC 14142135623730951 10000000000000000) (DSub (DV 14) (DV 23))));
    SD 0 (DMul (DC 70710678118654757 100000000000000000) (DSub (DLd 0 (IV 9)) (DLd 0 (IV 10))));
    SD 1 (DMul (DC 70710678118654757 100000000000000000) (DSub (DLd 0 (IV 11)) (DLd 0 (IV 12))));
    SD 26 (DSub (DV 0) (DV 1));
    SD 27 (DAdd (DV 0) (DV 1));
    SD 34 (DAdd (DV 5) (DV 26));
    SD 35 (DAdd (DV 7) (DV 27));
    SD 36 (DSub (DV 5) (DV 26));
    SD 37 (DSub (DV 27) (DV 7));
    SD 28 (DSub (DMul (DC 92387953251128674 100000000000000000) (DV 11)) (DMul (DC 38268343236508978 100000000000000000) (DV 13)));
    SD 29 (DAdd (DMul (DC 38268343236508978 100000000000000000) (DV 11)) (DMul (DC 92387953251128674 100000000000000000) (DV 13)));
    SD 30 (DSub (DMul (DC 38268343236508978 100000000000000000) (DV 20)) (DMul (DC 92387953251128674 100000000000000000) (DV 22)));
    SD 31 (DAdd (DMul (DC 92387953251128674 100000000000000000) (DV 20)) (DMul (DC 38268343236508978 100000000000000000) (DV 22)));
    SD 38 (DAdd (DV 28) (DV 30));
    SD 39 (DAdd (DV 29) (DV 31));
    SD 40 (DSub (DV 28) (DV 30));
    SD 41 (DSub (DV 31) (DV 29));
    ST 1 (IAdd (IC 2) (IV 17)) (DMul (DC 14142135623730951 10000000000000000) (DAdd (DV 34) (DV 38)));
    ST 1 (IAdd (IC 3) (IV 17)) (DNeg (DMul (DC 14142135623730951 10000000000000000) (DAdd (DV 35) (DV 39))));
    ST 1 (IAdd (IC 14) (IV 17)) (DMul (DC 14142135623730951 10000000000000000) (DSub (DV 34) (DV 38)));
    ST 1 (IAdd (IC 15) (IV 17)) (DNeg (DMul (DC 14142135623730951 10000000000000000) (DSub (DV 39) (DV 35))));
    ST 1 (IAdd (IC 10) (IV 17)) (DMul (DC 14142135623730951 10000000000000000) (DAdd (DV 36) (DV 41)));
    ST 1 (IAdd (IC 11) (IV 17)) (DMul (DC 14142135623730951 10000000000000000) (DSub (DV 37) (DV 40)));
    ST 1 (IAdd (IC 6) (IV 17)) (DMul (DC 14142135623730951 10000000000000000) (DSub (DV 36) (DV 41)));
    ST 1 (IAdd (IC 7) (IV 17)) (DNeg (DMul (DC 14142135623730951 10000000000000000) (DAdd (DV 37) (DV 40))));
    SD 2 (DMul (DC 70710678118654757 100000000000000000) (DSub (DV 10) (DV 12)));
    SD 3 (DMul (DC 70710678118654757 100000000000000000) (DSub (DV 19) (DV 21)));
    SD 32 (DSub (DV 2) (DV 3));
    SD 33 (DAdd (DV 2) (DV 3));
    ST 1 (IAdd (IC 4) (IV 17)) (DMul (DC 14142135623730951 10000000000000000) (DAdd (DV 9) (DV 32)));
    ST 1 (IAdd (IC 5) (IV 17)) (DNeg (DMul (DC 14142135623730951 10000000000000000) (DAdd (DV 18) (DV 33))));
    ST 1 (IAdd (IC 12) (IV 17)) (DMul (DC 14142135623730951 10000000000000000) (DSub (DV 9) (DV 32)));
    ST 1 (IAdd (IC 13) (IV 17)) (DNeg (DMul (DC 14142135623730951 10000000000000000) (DSub (DV 33) (DV 18))))].
Definition r2c_16 : codelet := {| cd_n := 16; cd_lens := []; cd_local := []; cd_init := r2c_16_init; cd_body := r2c_16_body |}.

(** third_party/fftx_codelets/lib_fftx_prdftbat_cpu_srcs/fftx_prdftbat_20_bat_72_APar_APar_CPU.cpp:8-148; the files for
    96, 120, 144, 168, 192, 216 transforms differ from it only in the names and in
    the bound of the loop over i1 (the transforms). *)
Definition r2c_20_init : stmt := block [].
Definition r2c_20_body : stmt := block [
    SUndefD [0; 1; 2; 3; 4; 5; 6; 7; 8; 9; 10; 11; 12; 13; 14; 15; 16; 17; 18; 19; 20; 21; 22; 23; 24; 25; 26; 27; 28; 29; 30; 31; 32; 33; 34; 35; 36; 37; 38; 39; 40; 41; 42; 43; 44; 45; 46; 47; 48; 49; 50; 51; 52; 53; 54; 55; 56; 57; 58; 59; 60; 61; 62; 63; 64; 65];
    SUndefI [1; 2; 3; 4; 5; 6; 7; 8; 9; 10; 11; 12; 13; 14; 15; 16; 17; 18; 19; 20; 21];
    SI 1 (IMul (IC 20) (IV 0));
    SI 2 (IAdd (IV 1) (IC 4));
    SI 3 (IAdd (IV 1) (IC 16));
    SD 34 (DAdd (DLd 0 (IV 2)) (DLd 0 (IV 3)));
    SD 35 (DSub (DLd 0 (IV 2)) (DLd 0 (IV 3)));
    SI 4 (IAdd (IV 1) (IC 12));
    SI 5 (IAdd (IV 1) (IC 8));
    SD 36 (DAdd (DLd 0 (IV 4)) (DLd 0 (IV 5)));
    SD 37 (DSub (DLd 0 (IV 4)) (DLd 0 (IV 5)));
    SD 0 (DAdd (DAdd (DV 34) (DV 36)) (DLd 0 (IV 1)));
    SD 1 (DAdd (DSub (DMul (DC 3090169943749474 10000000000000000) (DV 34)) (DMul (DC 80901699437494745 100000000000000000) (DV 36))) (DLd 0 (IV 1)));
    SD 2 (DAdd (DSub (DMul (DC 3090169943749474 10000000000000000) (DV 36)) (DMul (DC 80901699437494745 100000000000000000) (DV 34))) (DLd 0 (IV 1)));
    SD 3 (DSub (DMul (DC 58778525229247314 100000000000000000) (DV 37)) (DMul (DC 95105651629515353 100000000000000000) (DV 35)));
    SD 4 (DAdd (DMul (DC 58778525229247314 100000000000000000) (DV 35)) (DMul (DC 95105651629515353 100000000000000000) (DV 37)));
    SI 6 (IAdd (IV 1) (IC 1));
    SI 7 (IAdd (IV 1) (IC 5));
    SI 8 (IAdd (IV 1) (IC 17));
    SD 38 (DAdd (DLd 0 (IV 7)) (DLd 0 (IV 8)));
    SD 39 (DSub (DLd 0 (IV 7)) (DLd 0 (IV 8)));
    SI 9 (IAdd (IV 1) (IC 13));
    SI 10 (IAdd (IV 1) (IC 9));
    SD 40 (DAdd (DLd 0 (IV 9)) (DLd 0 (IV 10)));
    SD 41 (DSub (DLd 0 (IV 9)) (DLd 0 (IV 10)));
    SD 5 (DAdd (DAdd (DV 38) (DV 40)) (DLd 0 (IV 6)));
    SD 6 (DAdd (DSub (DMul (DC 3090169943749474 10000000000000000) (DV 38)) (DMul (DC 80901699437494745 100000000000000000) (DV 40))) (DLd 0 (IV 6)));
    SD 7 (DAdd (DSub (DMul (DC 3090169943749474 10000000000000000) (DV 40)) (DMul (DC 80901699437494745 100000000000000000) (DV 38))) (DLd 0 (IV 6)));
    SD 8 (DSub (DMul (DC 58778525229247314 100000000000000000) (DV 41)) (DMul (DC 95105651629515353 100000000000000000) (DV 39)));
    SD 9 (DAdd (DMul (DC 58778525229247314 100000000000000000) (DV 39)) (DMul (DC 95105651629515353 100000000000000000) (DV 41)));
    SI 11 (IAdd (IV 1) (IC 2));
    SI 12 (IAdd (IV 1) (IC 6));
    SI 13 (IAdd (IV 1) (IC 18));
    SD 42 (DAdd (DLd 0 (IV 12)) (DLd 0 (IV 13)));
    SD 43 (DSub (DLd 0 (IV 12)) (DLd 0 (IV 13)));
    SI 14 (IAdd (IV 1) (IC 14));
    SI 15 (IAdd (IV 1) (IC 10));
    SD 44 (DAdd (DLd 0 (IV 14)) (DLd 0 (IV 15)));
    SD 45 (DSub (DLd 0 (IV 14)) (DLd 0 (IV 15)));
    SD 10 (DAdd (DAdd (DV 42) (DV 44)) (DLd 0 (IV 11)));
    SD 11 (DAdd (DSub (DMul (DC 3090169943749474 10000000000000000) (DV 42)) (DMul (DC 80901699437494745 100000000000000000) (DV 44))) (DLd 0 (IV 11)));
    SD 12 (DAdd (DSub (DMul (DC 3090169943749474 10000000000000000) (DV 44)) (DMul (DC 80901699437494745 100000000000000000) (DV 42))) (DLd 0 (IV 11)));
    SD 13 (DSub (DMul (DC 58778525229247314 100000000000000000) (DV 45)) (DMul (DC 95105651629515353 100000000000000000) (DV 43)));
    SD 14 (DAdd (DMul (DC 58778525229247314 100000000000000000) (DV 43)) (DMul (DC 95105651629515353 100000000000000000) (DV 45)));
    SI 16 (IAdd (IV 1) (IC 3));
    SI 17 (IAdd (IV 1) (IC 7));
    SI 18 (IAdd (IV 1) (IC 19));
    SD 46 (DAdd (DLd 0 (IV 17)) (DLd 0 (IV 18)));
    SD 47 (DSub (DLd 0 (IV 17)) (DLd 0 (IV 18)));
    SI 19 (IAdd (IV 1) (IC 15));
    SI 20 (IAdd (IV 1) (IC 11));
    SD 48 (DAdd (DLd 0 (IV 19)) (DLd 0 (IV 20)));
    SD 49 (DSub (DLd 0 (IV 19)) (DLd 0 (IV 20)));
    SD 15 (DAdd (DAdd (DV 46) (DV 48)) (DLd 0 (IV 16)));
    SD 16 (DAdd (DSub (DMul (DC 3090169943749474 10000000000000000) (DV 46)) (DMul (DC 80901699437494745 100000000000000000) (DV 48))) (DLd 0 (IV 16)));
    SD 17 (DAdd (DSub (DMul (DC 3090169943749474 10000000000000000) (DV 48)) (DMul (DC 80901699437494745 100000000000000000) (DV 46))) (DLd 0 (IV 16)));
    SD 18 (DSub (DMul (DC 58778525229247314 100000000000000000) (DV 49)) (DMul (DC 95105651629515353 100000000000000000) (DV 47)));
    SD 19 (DAdd (DMul (DC 58778525229247314 100000000000000000) (DV 47)) (DMul (DC 95105651629515353 100000000000000000) (DV 49)));
    SD 20 (DAdd (DV 0) (DV 10));
    SD 21 (DAdd (DV 5) (DV 15));
    SI 21 (IMul (IC 22) (IV 0));
    ST 1 (IV 21) (DAdd (DV 20) (DV 21));
    ST 1 (IAdd (IC 1) (IV 21)) (DC 0 1);
    ST 1 (IAdd (IC 20) (IV 21)) (DMul (DC 14142135623730951 10000000000000000) (DSub (DV 20) (DV 21)));
    ST 1 (IAdd (IC 21) (IV 21)) (DC 0 1);
    ST 1 (IAdd (IC 10) (IV 21)) (DMul (DC 14142135623730951 10000000000000000) (DSub (DV 0) (DV 10)));
    ST 1 (IAdd (IC 11) (IV 21)) (DNeg (DMul (DC 14142135623730951 10000000000000000) (DSub (DV 5) (DV 15))));
    SD 22 (DAdd (DMul (DC 80901699437494745 100000000000000000) (DV 11)) (DMul (DC 58778525229247314 100000000000000000) (DV 13)));
    SD 23 (DSub (DMul (DC 80901699437494745 100000000000000000) (DV 13)) (DMul (DC 58778525229247314 100000000000000000) (DV 11)));
    SD 50 (DAdd (DV 1) (DV 22));
    SD 51 (DAdd (DV 3) (DV 23));
    SD 52 (DSub (DV 1) (DV 22));
    SD 53 (DSub (DV 3) (DV 23));
    SD 24 (DAdd (DMul (DC 95105651629515353 100000000000000000) (DV 6)) (DMul (DC 3090169943749474 10000000000000000) (DV 8)));
    SD 25 (DSub (DMul (DC 95105651629515353 100000000000000000) (DV 8)) (DMul (DC 3090169943749474 10000000000000000) (DV 6)));
    SD 26 (DAdd (DMul (DC 58778525229247314 100000000000000000) (DV 16)) (DMul (DC 80901699437494745 100000000000000000) (DV 18)));
    SD 27 (DSub (DMul (DC 58778525229247314 100000000000000000) (DV 18)) (DMul (DC 80901699437494745 100000000000000000) (DV 16)));
    SD 54 (DAdd (DV 24) (DV 26));
    SD 55 (DAdd (DV 25) (DV 27));
    SD 56 (DSub (DV 24) (DV 26));
    SD 57 (DSub (DV 25) (DV 27));
    ST 1 (IAdd (IC 2) (IV 21)) (DMul (DC 14142135623730951 10000000000000000) (DAdd (DV 50) (DV 54)));
    ST 1 (IAdd (IC 3) (IV 21)) (DMul (DC 14142135623730951 10000000000000000) (DAdd (DV 51) (DV 55)));
    ST 1 (IAdd (IC 18) (IV 21)) (DMul (DC 14142135623730951 10000000000000000) (DSub (DV 50) (DV 54)));
    ST 1 (IAdd (IC 19) (IV 21)) (DNeg (DMul (DC 14142135623730951 10000000000000000) (DSub (DV 51) (DV 55))));
    ST 1 (IAdd (IC 12) (IV 21)) (DMul (DC 14142135623730951 10000000000000000) (DAdd (DV 52) (DV 57)));
    ST 1 (IAdd (IC 13) (IV 21)) (DMul (DC 14142135623730951 10000000000000000) (DSub (DV 53) (DV 56)));
    ST 1 (IAdd (IC 8) (IV 21)) (DMul (DC 14142135623730951 10000000000000000) (DSub (DV 52) (DV 57)));
    ST 1 (IAdd (IC 9) (IV 21)) (DNeg (DMul (DC 14142135623730951 10000000000000000) (DAdd (DV 53) (DV 56))));
    SD 28 (DSub (DMul (DC 3090169943749474 10000000000000000) (DV 12)) (DMul (DC 95105651629515353 100000000000000000) (DV 14)));
    SD 29 (DAdd (DMul (DC 95105651629515353 100000000000000000) (DV 12)) (DMul (DC 3090169943749474 10000000000000000) (DV 14)));
    SD 58 (DAdd (DV 2) (DV 28));
    SD 59 (DAdd (DV 4) (DV 29));
    SD 60 (DSub (DV 2) (DV 28));
    SD 61 (DSub (DV 29) (DV 4));
    SD 30 (DSub (DMul (DC 80901699437494745 100000000000000000) (DV 7)) (DMul (DC 58778525229247314 100000000000000000) (DV 9)));
    SD 31 (DAdd (DMul (DC 58778525229247314 100000000000000000) (DV 7)) (DMul (DC 80901699437494745 100000000000000000) (DV 9)));
    SD 32 (DAdd (DMul (DC 3090169943749474 10000000000000000) (DV 17)) (DMul (DC 95105651629515353 100000000000000000) (DV 19)));
    SD 33 (DSub (DMul (DC 3090169943749474 10000000000000000) (DV 19)) (DMul (DC 95105651629515353 100000000000000000) (DV 17)));
    SD 62 (DSub (DV 30) (DV 32));
    SD 63 (DSub (DV 33) (DV 31));
    SD 64 (DAdd (DV 30) (DV 32));
    SD 65 (DAdd (DV 31) (DV 33));
    ST 1 (IAdd (IC 4) (IV 21)) (DMul (DC 14142135623730951 10000000000000000) (DAdd (DV 58) (DV 62)));
    ST 1 (IAdd (IC 5) (IV 21)) (DMul (DC 14142135623730951 10000000000000000) (DSub (DV 63) (DV 59)));
    ST 1 (IAdd (IC 16) (IV 21)) (DMul (DC 14142135623730951 10000000000000000) (DSub (DV 58) (DV 62)));
    ST 1 (IAdd (IC 17) (IV 21)) (DMul (DC 14142135623730951 10000000000000000) (DAdd (DV 59) (DV 63)));
    ST 1 (IAdd (IC 14) (IV 21)) (DMul (DC 14142135623730951 10000000000000000) (DSub (DV 60) (DV 65)));
    ST 1 (IAdd (IC 15) (IV 21)) (DMul (DC 14142135623730951 10000000000000000) (DSub (DV 61) (DV 64)));
    ST 1 (IAdd (IC 6) (IV 21)) (DMul (DC 14142135623730951 10000000000000000) (DAdd (DV 60) (DV 65)));
    ST 1 (IAdd (IC 7) (IV 21)) (DNeg (DMul (DC 14142135623730951 10000000000000000) (DAdd (DV 61) (DV 64))))].
Definition r2c_20 : codelet := {| cd_n := 20; cd_lens := []; cd_local := []; cd_init := r2c_20_init; cd_body := r2c_20_body |}.

(** third_party/fftx_codelets/lib_fftx_prdftbat_cpu_srcs/fftx_prdftbat_24_bat_72_APar_APar_CPU.cpp:8-143; the files for
    96, 120, 144, 168, 192, 216 transforms differ from it only in the names and in
    the bound of the loop over i1 (the transforms). *)
Definition r2c_24_init : stmt := block [
    SFor 1 2 (block [
      ST 2 (IMul (IC 4) (IV 1)) (DCospi (IMul (IC 46) (IV 1)) 24);
      ST 2 (IAdd (IC 1) (IMul (IC 4) (IV 1))) (DSinpi (IMul (IC 46) (IV 1)) 24);
      ST 2 (IAdd (IC 2) (IMul (IC 4) (IV 1))) (DCospi (IMul (IC 46) (IAdd (IC 3) (IV 1))) 24);
      ST 2 (IAdd (IC 3) (IMul (IC 4) (IV 1))) (DSinpi (IMul (IC 46) (IAdd (IC 3) (IV 1))) 24)])].
Definition r2c_24_body : stmt := block [
    SFor 7 5 (block [
      SUndefD [0; 1];
      SUndefI [2; 3; 4; 5; 6];
      SI 2 (IAdd (IMul (IC 24) (IV 0)) (IV 7));
      SI 3 (IAdd (IV 2) (IC 12));
      SD 0 (DAdd (DLd 0 (IV 2)) (DLd 0 (IV 3)));
      SI 4 (IAdd (IV 2) (IC 6));
      SI 5 (IAdd (IV 2) (IC 18));
      SD 1 (DAdd (DLd 0 (IV 4)) (DLd 0 (IV 5)));
      SI 6 (IMul (IC 6) (IV 7));
      ST 3 (IV 6) (DAdd (DV 0) (DV 1));
      ST 3 (IAdd (IC 1) (IV 6)) (DC 0 1);
      ST 3 (IAdd (IC 4) (IV 6)) (DSub (DV 0) (DV 1));
      ST 3 (IAdd (IC 5) (IV 6)) (DC 0 1);
      ST 3 (IAdd (IC 2) (IV 6)) (DSub (DLd 0 (IV 2)) (DLd 0 (IV 3)));
      ST 3 (IAdd (IC 3) (IV 6)) (DSub (DLd 0 (IV 5)) (DLd 0 (IV 4)))]);
    SUndefD [2; 3; 4; 5; 6; 7; 8; 9; 10; 11; 12; 13; 14; 15; 16; 17; 18; 19; 20; 21; 22; 23; 24; 25; 26; 27; 28; 29; 30; 31; 32; 33; 34; 35; 36; 37; 38; 39; 40; 41; 42; 43; 44; 45; 46; 47; 48; 49; 50; 51; 52; 53; 54; 55; 56; 57; 58; 59; 60; 61];
    SUndefI [8];
    SD 42 (DAdd (DLd 3 (IC 12)) (DLd 3 (IC 24)));
    SD 2 (DAdd (DLd 3 (IC 0)) (DV 42));
    SD 3 (DSub (DLd 3 (IC 0)) (DMul (DC 5 10) (DV 42)));
    SD 4 (DMul (DC 8660254037844386 10000000000000000) (DSub (DLd 3 (IC 12)) (DLd 3 (IC 24))));
    SD 43 (DAdd (DLd 3 (IC 18)) (DLd 3 (IC 30)));
    SD 5 (DAdd (DLd 3 (IC 6)) (DV 43));
    SD 6 (DSub (DLd 3 (IC 6)) (DMul (DC 5 10) (DV 43)));
    SD 7 (DMul (DC 8660254037844386 10000000000000000) (DSub (DLd 3 (IC 18)) (DLd 3 (IC 30))));
    SI 8 (IMul (IC 26) (IV 0));
    ST 1 (IV 8) (DAdd (DV 2) (DV 5));
    ST 1 (IAdd (IC 1) (IV 8)) (DC 0 1);
    ST 1 (IAdd (IC 24) (IV 8)) (DMul (DC 14142135623730951 10000000000000000) (DSub (DV 2) (DV 5)));
    ST 1 (IAdd (IC 25) (IV 8)) (DC 0 1);
    SD 8 (DSub (DMul (DC 5 10) (DV 6)) (DMul (DC 8660254037844386 10000000000000000) (DV 7)));
    SD 9 (DAdd (DMul (DC 8660254037844386 10000000000000000) (DV 6)) (DMul (DC 5 10) (DV 7)));
    ST 1 (IAdd (IC 8) (IV 8)) (DMul (DC 14142135623730951 10000000000000000) (DAdd (DV 3) (DV 8)));
    ST 1 (IAdd (IC 9) (IV 8)) (DNeg (DMul (DC 14142135623730951 10000000000000000) (DAdd (DV 4) (DV 9))));
    ST 1 (IAdd (IC 16) (IV 8)) (DMul (DC 14142135623730951 10000000000000000) (DSub (DV 3) (DV 8)));
    ST 1 (IAdd (IC 17) (IV 8)) (DNeg (DMul (DC 14142135623730951 10000000000000000) (DSub (DV 9) (DV 4))));
    SD 10 (DSub (DMul (DLd 2 (IC 0)) (DLd 3 (IC 2))) (DMul (DLd 2 (IC 1)) (DLd 3 (IC 3))));
    SD 11 (DAdd (DMul (DLd 2 (IC 1)) (DLd 3 (IC 2))) (DMul (DLd 2 (IC 0)) (DLd 3 (IC 3))));
    SD 12 (DSub (DMul (DLd 2 (IC 2)) (DLd 3 (IC 20))) (DMul (DLd 2 (IC 3)) (DLd 3 (IC 21))));
    SD 13 (DAdd (DMul (DLd 2 (IC 3)) (DLd 3 (IC 20))) (DMul (DLd 2 (IC 2)) (DLd 3 (IC 21))));
    SD 44 (DAdd (DV 10) (DV 12));
    SD 45 (DAdd (DV 11) (DV 13));
    SD 46 (DSub (DV 10) (DV 12));
    SD 47 (DSub (DV 11) (DV 13));
    SD 14 (DSub (DMul (DLd 2 (IC 4)) (DLd 3 (IC 8))) (DMul (DLd 2 (IC 5)) (DLd 3 (IC 9))));
    SD 15 (DAdd (DMul (DLd 2 (IC 5)) (DLd 3 (IC 8))) (DMul (DLd 2 (IC 4)) (DLd 3 (IC 9))));
    SD 16 (DSub (DMul (DLd 2 (IC 6)) (DLd 3 (IC 26))) (DMul (DLd 2 (IC 7)) (DLd 3 (IC 27))));
    SD 17 (DAdd (DMul (DLd 2 (IC 7)) (DLd 3 (IC 26))) (DMul (DLd 2 (IC 6)) (DLd 3 (IC 27))));
    SD 48 (DAdd (DV 14) (DV 16));
    SD 49 (DAdd (DV 15) (DV 17));
    SD 50 (DSub (DV 14) (DV 16));
    SD 51 (DSub (DV 15) (DV 17));
    SD 18 (DAdd (DMul (DC 5 10) (DV 50)) (DMul (DC 8660254037844386 10000000000000000) (DV 51)));
    SD 19 (DSub (DMul (DC 5 10) (DV 51)) (DMul (DC 8660254037844386 10000000000000000) (DV 50)));
    SD 20 (DSub (DMul (DLd 2 (IC 8)) (DLd 3 (IC 14))) (DMul (DLd 2 (IC 9)) (DLd 3 (IC 15))));
    SD 21 (DAdd (DMul (DLd 2 (IC 9)) (DLd 3 (IC 14))) (DMul (DLd 2 (IC 8)) (DLd 3 (IC 15))));
    SD 22 (DSub (DMul (DLd 2 (IC 10)) (DLd 3 (IC 32))) (DMul (DLd 2 (IC 11)) (DLd 3 (IC 33))));
    SD 23 (DAdd (DMul (DLd 2 (IC 11)) (DLd 3 (IC 32))) (DMul (DLd 2 (IC 10)) (DLd 3 (IC 33))));
    SD 52 (DAdd (DV 20) (DV 22));
    SD 53 (DAdd (DV 21) (DV 23));
    SD 54 (DSub (DV 20) (DV 22));
    SD 55 (DSub (DV 21) (DV 23));
    SD 24 (DSub (DMul (DC 8660254037844386 10000000000000000) (DV 55)) (DMul (DC 5 10) (DV 54)));
    SD 25 (DAdd (DMul (DC 8660254037844386 10000000000000000) (DV 54)) (DMul (DC 5 10) (DV 55)));
    SD 56 (DAdd (DV 48) (DV 52));
    SD 57 (DAdd (DV 49) (DV 53));
    SD 26 (DSub (DV 44) (DMul (DC 5 10) (DV 56)));
    SD 27 (DSub (DV 45) (DMul (DC 5 10) (DV 57)));
    SD 28 (DMul (DC 8660254037844386 10000000000000000) (DSub (DV 49) (DV 53)));
    SD 29 (DMul (DC 8660254037844386 10000000000000000) (DSub (DV 48) (DV 52)));
    ST 1 (IAdd (IC 2) (IV 8)) (DMul (DC 14142135623730951 10000000000000000) (DAdd (DV 44) (DV 56)));
    ST 1 (IAdd (IC 3) (IV 8)) (DMul (DC 14142135623730951 10000000000000000) (DAdd (DV 45) (DV 57)));
    ST 1 (IAdd (IC 18) (IV 8)) (DMul (DC 14142135623730951 10000000000000000) (DAdd (DV 26) (DV 28)));
    ST 1 (IAdd (IC 19) (IV 8)) (DMul (DC 14142135623730951 10000000000000000) (DSub (DV 27) (DV 29)));
    ST 1 (IAdd (IC 14) (IV 8)) (DMul (DC 14142135623730951 10000000000000000) (DSub (DV 26) (DV 28)));
    ST 1 (IAdd (IC 15) (IV 8)) (DNeg (DMul (DC 14142135623730951 10000000000000000) (DAdd (DV 27) (DV 29))));
    SD 58 (DAdd (DV 18) (DV 24));
    SD 59 (DSub (DV 19) (DV 25));
    SD 30 (DSub (DV 46) (DMul (DC 5 10) (DV 58)));
    SD 31 (DSub (DV 47) (DMul (DC 5 10) (DV 59)));
    SD 32 (DMul (DC 8660254037844386 10000000000000000) (DAdd (DV 19) (DV 25)));
    SD 33 (DMul (DC 8660254037844386 10000000000000000) (DSub (DV 18) (DV 24)));
    ST 1 (IAdd (IC 10) (IV 8)) (DMul (DC 14142135623730951 10000000000000000) (DAdd (DV 46) (DV 58)));
    ST 1 (IAdd (IC 11) (IV 8)) (DMul (DC 14142135623730951 10000000000000000) (DAdd (DV 47) (DV 59)));
    ST 1 (IAdd (IC 22) (IV 8)) (DMul (DC 14142135623730951 10000000000000000) (DAdd (DV 30) (DV 32)));
    ST 1 (IAdd (IC 23) (IV 8)) (DNeg (DMul (DC 14142135623730951 10000000000000000) (DSub (DV 31) (DV 33))));
    ST 1 (IAdd (IC 6) (IV 8)) (DMul (DC 14142135623730951 10000000000000000) (DSub (DV 30) (DV 32)));
    ST 1 (IAdd (IC 7) (IV 8)) (DNeg (DMul (DC 14142135623730951 10000000000000000) (DAdd (DV 31) (DV 33))));
    SD 34 (DSub (DMul (DC 8660254037844386 10000000000000000) (DLd 3 (IC 10))) (DMul (DC 5 10) (DLd 3 (IC 28))));
    SD 35 (DAdd (DMul (DC 5 10) (DLd 3 (IC 10))) (DMul (DC 8660254037844386 10000000000000000) (DLd 3 (IC 28))));
    SD 36 (DSub (DMul (DC 5 10) (DLd 3 (IC 16))) (DMul (DC 8660254037844386 10000000000000000) (DLd 3 (IC 34))));
    SD 37 (DAdd (DMul (DC 8660254037844386 10000000000000000) (DLd 3 (IC 16))) (DMul (DC 5 10) (DLd 3 (IC 34))));
    SD 60 (DAdd (DV 34) (DV 36));
    SD 61 (DAdd (DV 35) (DV 37));
    SD 38 (DSub (DLd 3 (IC 4)) (DMul (DC 5 10) (DV 60)));
    SD 39 (DSub (DMul (DC 5 10) (DV 61)) (DLd 3 (IC 22)));
    SD 40 (DMul (DC 8660254037844386 10000000000000000) (DSub (DV 37) (DV 35)));
    SD 41 (DMul (DC 8660254037844386 10000000000000000) (DSub (DV 34) (DV 36)));
    ST 1 (IAdd (IC 4) (IV 8)) (DMul (DC 14142135623730951 10000000000000000) (DAdd (DLd 3 (IC 4)) (DV 60)));
    ST 1 (IAdd (IC 5) (IV 8)) (DNeg (DMul (DC 14142135623730951 10000000000000000) (DAdd (DLd 3 (IC 22)) (DV 61))));
    ST 1 (IAdd (IC 20) (IV 8)) (DMul (DC 14142135623730951 10000000000000000) (DAdd (DV 38) (DV 40)));
    ST 1 (IAdd (IC 21) (IV 8)) (DMul (DC 14142135623730951 10000000000000000) (DSub (DV 39) (DV 41)));
    ST 1 (IAdd (IC 12) (IV 8)) (DMul (DC 14142135623730951 10000000000000000) (DSub (DV 38) (DV 40)));
    ST 1 (IAdd (IC 13) (IV 8)) (DNeg (DMul (DC 14142135623730951 10000000000000000) (DAdd (DV 39) (DV 41))))].
Definition r2c_24 : codelet := {| cd_n := 24; cd_lens := [(2, 12); (3, 36)]; cd_local := [3]; cd_init := r2c_24_init; cd_body := r2c_24_body |}.

(** third_party/fftx_codelets/lib_fftx_prdftbat_cpu_srcs/fftx_prdftbat_28_bat_72_APar_APar_CPU.cpp:8-226; the files for
    96, 120, 144, 168, 192, 216 transforms differ from it only in the names and in
    the bound of the loop over i1 (the transforms). *)
Definition r2c_28_init : stmt := block [].
Definition r2c_28_body : stmt := block [
    SUndefD [0; 1; 2; 3; 4; 5; 6; 7; 8; 9; 10; 11; 12; 13; 14; 15; 16; 17; 18; 19; 20; 21; 22; 23; 24; 25; 26; 27; 28; 29; 30; 31; 32; 33; 34; 35; 36; 37; 38; 39; 40; 41; 42; 43; 44; 45; 46; 47; 48; 49; 50; 51; 52; 53; 54; 55; 56; 57; 58; 59; 60; 61; 62; 63; 64; 65; 66; 67; 68; 69; 70; 71; 72; 73; 74; 75; 76; 77; 78; 79; 80; 81; 82; 83; 84; 85; 86; 87; 88; 89; 90; 91; 92; 93; 94; 95];
    SUndefI [1; 2; 3; 4; 5; 6; 7; 8; 9; 10; 11; 12; 13; 14; 15; 16; 17; 18; 19; 20; 21; 22; 23; 24; 25; 26; 27; 28; 29];
    SI 1 (IMul (IC 28) (IV 0));
    SI 2 (IAdd (IV 1) (IC 4));
    SI 3 (IAdd (IV 1) (IC 24));
    SD 48 (DAdd (DLd 0 (IV 2)) (DLd 0 (IV 3)));
    SD 49 (DSub (DLd 0 (IV 2)) (DLd 0 (IV 3)));
    SI 4 (IAdd (IV 1) (IC 20));
    SI 5 (IAdd (IV 1) (IC 8));
    SD 50 (DAdd (DLd 0 (IV 4)) (DLd 0 (IV 5)));
    SD 51 (DSub (DLd 0 (IV 4)) (DLd 0 (IV 5)));
    SI 6 (IAdd (IV 1) (IC 16));
    SI 7 (IAdd (IV 1) (IC 12));
    SD 52 (DAdd (DLd 0 (IV 6)) (DLd 0 (IV 7)));
    SD 53 (DSub (DLd 0 (IV 6)) (DLd 0 (IV 7)));
    SD 0 (DAdd (DAdd (DAdd (DV 48) (DV 50)) (DV 52)) (DLd 0 (IV 1)));
    SD 1 (DAdd (DSub (DSub (DMul (DC 62348980185873348 100000000000000000) (DV 48)) (DMul (DC 22252093395631439 100000000000000000) (DV 50))) (DMul (DC 90096886790241915 100000000000000000) (DV 52))) (DLd 0 (IV 1)));
    SD 2 (DAdd (DSub (DSub (DMul (DC 62348980185873348 100000000000000000) (DV 50)) (DMul (DC 90096886790241915 100000000000000000) (DV 48))) (DMul (DC 22252093395631439 100000000000000000) (DV 52))) (DLd 0 (IV 1)));
    SD 3 (DAdd (DSub (DMul (DC 62348980185873348 100000000000000000) (DV 52)) (DAdd (DMul (DC 22252093395631439 100000000000000000) (DV 48)) (DMul (DC 90096886790241915 100000000000000000) (DV 50)))) (DLd 0 (IV 1)));
    SD 4 (DAdd (DSub (DMul (DC 97492791218182362 100000000000000000) (DV 51)) (DMul (DC 7818314824680298 10000000000000000) (DV 49))) (DMul (DC 43388373911755812 100000000000000000) (DV 53)));
    SD 5 (DSub (DMul (DC 97492791218182362 100000000000000000) (DV 53)) (DAdd (DMul (DC 43388373911755812 100000000000000000) (DV 49)) (DMul (DC 7818314824680298 10000000000000000) (DV 51))));
    SD 6 (DAdd (DAdd (DMul (DC 97492791218182362 100000000000000000) (DV 49)) (DMul (DC 43388373911755812 100000000000000000) (DV 51))) (DMul (DC 7818314824680298 10000000000000000) (DV 53)));
    SI 8 (IAdd (IV 1) (IC 1));
    SI 9 (IAdd (IV 1) (IC 5));
    SI 10 (IAdd (IV 1) (IC 25));
    SD 54 (DAdd (DLd 0 (IV 9)) (DLd 0 (IV 10)));
    SD 55 (DSub (DLd 0 (IV 9)) (DLd 0 (IV 10)));
    SI 11 (IAdd (IV 1) (IC 21));
    SI 12 (IAdd (IV 1) (IC 9));
    SD 56 (DAdd (DLd 0 (IV 11)) (DLd 0 (IV 12)));
    SD 57 (DSub (DLd 0 (IV 11)) (DLd 0 (IV 12)));
    SI 13 (IAdd (IV 1) (IC 17));
    SI 14 (IAdd (IV 1) (IC 13));
    SD 58 (DAdd (DLd 0 (IV 13)) (DLd 0 (IV 14)));
    SD 59 (DSub (DLd 0 (IV 13)) (DLd 0 (IV 14)));
    SD 7 (DAdd (DAdd (DAdd (DV 54) (DV 56)) (DV 58)) (DLd 0 (IV 8)));
    SD 8 (DAdd (DSub (DSub (DMul (DC 62348980185873348 100000000000000000) (DV 54)) (DMul (DC 22252093395631439 100000000000000000) (DV 56))) (DMul (DC 90096886790241915 100000000000000000) (DV 58))) (DLd 0 (IV 8)));
    SD 9 (DAdd (DSub (DSub (DMul (DC 62348980185873348 100000000000000000) (DV 56)) (DMul (DC 90096886790241915 100000000000000000) (DV 54))) (DMul (DC 22252093395631439 100000000000000000) (DV 58))) (DLd 0 (IV 8)));
    SD 10 (DAdd (DSub (DMul (DC 62348980185873348 100000000000000000) (DV 58)) (DAdd (DMul (DC 22252093395631439 100000000000000000) (DV 54)) (DMul (DC 90096886790241915 100000000000000000) (DV 56)))) (DLd 0 (IV 8)));
    SD 11 (DAdd (DSub (DMul (DC 97492791218182362 100000000000000000) (DV 57)) (DMul (DC 7818314824680298 10000000000000000) (DV 55))) (DMul (DC 43388373911755812 100000000000000000) (DV 59)));
    SD 12 (DSub (DMul (DC 97492791218182362 100000000000000000) (DV 59)) (DAdd (DMul (DC 43388373911755812 100000000000000000) (DV 55)) (DMul (DC 7818314824680298 10000000000000000) (DV 57))));
    SD 13 (DAdd (DAdd (DMul (DC 97492791218182362 100000000000000000) (DV 55)) (DMul (DC 43388373911755812 100000000000000000) (DV 57))) (DMul (DC 7818314824680298 10000000000000000) (DV 59)));
    SI 15 (IAdd (IV 1) (IC 2));
    SI 16 (IAdd (IV 1) (IC 6));
    SI 17 (IAdd (IV 1) (IC 26));
    SD 60 (DAdd (DLd 0 (IV 16)) (DLd 0 (IV 17)));
    SD 61 (DSub (DLd 0 (IV 16)) (DLd 0 (IV 17)));
    SI 18 (IAdd (IV 1) (IC 22));
    SI 19 (IAdd (IV 1) (IC 10));
    SD 62 (DAdd (DLd 0 (IV 18)) (DLd 0 (IV 19)));
    SD 63 (DSub (DLd 0 (IV 18)) (DLd 0 (IV 19)));
    SI 20 (IAdd (IV 1) (IC 18));
    SI 21 (IAdd (IV 1) (IC 14));
    SD 64 (DAdd (DLd 0 (IV 20)) (DLd 0 (IV 21)));
    SD 65 (DSub (DLd 0 (IV 20)) (DLd 0 (IV 21)));
    SD 14 (DAdd (DAdd (DAdd (DV 60) (DV 62)) (DV 64)) (DLd 0 (IV 15)));
    SD 15 (DAdd (DSub (DSub (DMul (DC 62348980185873348 100000000000000000) (DV 60)) (DMul (DC 22252093395631439 100000000000000000) (DV 62))) (DMul (DC 90096886790241915 100000000000000000) (DV 64))) (DLd 0 (IV 15)));
    SD 16 (DAdd (DSub (DSub (DMul (DC 62348980185873348 100000000000000000) (DV 62)) (DMul (DC 90096886790241915 100000000000000000) (DV 60))) (DMul (DC 22252093395631439 100000000000000000) (DV 64))) (DLd 0 (IV 15)));
    SD 17 (DAdd (DSub (DMul (DC 62348980185873348 100000000000000000) (DV 64)) (DAdd (DMul (DC 22252093395631439 100000000000000000) (DV 60)) (DMul (DC 90096886790241915 100000000000000000) (DV 62)))) (DLd 0 (IV 15)));
    SD 18 (DAdd (DSub (DMul (DC 97492791218182362 100000000000000000) (DV 63)) (DMul (DC 7818314824680298 10000000000000000) (DV 61))) (DMul (DC 43388373911755812 100000000000000000) (DV 65)));
    SD 19 (DSub (DMul (DC 97492791218182362 100000000000000000) (DV 65)) (DAdd (DMul (DC 43388373911755812 100000000000000000) (DV 61)) (DMul (DC 7818314824680298 10000000000000000) (DV 63))));
    SD 20 (DAdd (DAdd (DMul (DC 97492791218182362 100000000000000000) (DV 61)) (DMul (DC 43388373911755812 100000000000000000) (DV 63))) (DMul (DC 7818314824680298 10000000000000000) (DV 65)));
    SI 22 (IAdd (IV 1) (IC 3));
    SI 23 (IAdd (IV 1) (IC 7));
    SI 24 (IAdd (IV 1) (IC 27));
    SD 66 (DAdd (DLd 0 (IV 23)) (DLd 0 (IV 24)));
    SD 67 (DSub (DLd 0 (IV 23)) (DLd 0 (IV 24)));
    SI 25 (IAdd (IV 1) (IC 23));
    SI 26 (IAdd (IV 1) (IC 11));
    SD 68 (DAdd (DLd 0 (IV 25)) (DLd 0 (IV 26)));
    SD 69 (DSub (DLd 0 (IV 25)) (DLd 0 (IV 26)));
    SI 27 (IAdd (IV 1) (IC 19));
    SI 28 (IAdd (IV 1) (IC 15));
    SD 70 (DAdd (DLd 0 (IV 27)) (DLd 0 (IV 28)));
    SD 71 (DSub (DLd 0 (IV 27)) (DLd 0 (IV 28)));
    SD 21 (DAdd (DAdd (DAdd (DV 66) (DV 68)) (DV 70)) (DLd 0 (IV 22)));
    SD 22 (DAdd (DSub (DSub (DMul (DC 62348980185873348 100000000000000000) (DV 66)) (DMul (DC 22252093395631439 100000000000000000) (DV 68))) (DMul (DC 90096886790241915 100000000000000000) (DV 70))) (DLd 0 (IV 22)));
    SD 23 (DAdd (DSub (DSub (DMul (DC 62348980185873348 100000000000000000) (DV 68)) (DMul (DC 90096886790241915 100000000000000000) (DV 66))) (DMul (DC 22252093395631439 100000000000000000) (DV 70))) (DLd 0 (IV 22)));
    SD 24 (DAdd (DSub (DMul (DC 62348980185873348 100000000000000000) (DV 70)) (DAdd (DMul (DC 22252093395631439 100000000000000000) (DV 66)) (DMul (DC 90096886790241915 100000000000000000) (DV 68)))) (DLd 0 (IV 22)));
    SD 25 (DAdd (DSub (DMul (DC 97492791218182362 100000000000000000) (DV 69)) (DMul (DC 7818314824680298 10000000000000000) (DV 67))) (DMul (DC 43388373911755812 100000000000000000) (DV 71)));
    SD 26 (DSub (DMul (DC 97492791218182362 100000000000000000) (DV 71)) (DAdd (DMul (DC 43388373911755812 100000000000000000) (DV 67)) (DMul (DC 7818314824680298 10000000000000000) (DV 69))));
    SD 27 (DAdd (DAdd (DMul (DC 97492791218182362 100000000000000000) (DV 67)) (DMul (DC 43388373911755812 100000000000000000) (DV 69))) (DMul (DC 7818314824680298 10000000000000000) (DV 71)));
    SD 28 (DAdd (DV 0) (DV 14));
    SD 29 (DAdd (DV 7) (DV 21));
    SI 29 (IMul (IC 30) (IV 0));
    ST 1 (IV 29) (DAdd (DV 28) (DV 29));
    ST 1 (IAdd (IC 1) (IV 29)) (DC 0 1);
    ST 1 (IAdd (IC 28) (IV 29)) (DMul (DC 14142135623730951 10000000000000000) (DSub (DV 28) (DV 29)));
    ST 1 (IAdd (IC 29) (IV 29)) (DC 0 1);
    ST 1 (IAdd (IC 14) (IV 29)) (DMul (DC 14142135623730951 10000000000000000) (DSub (DV 0) (DV 14)));
    ST 1 (IAdd (IC 15) (IV 29)) (DNeg (DMul (DC 14142135623730951 10000000000000000) (DSub (DV 7) (DV 21))));
    SD 30 (DAdd (DMul (DC 90096886790241915 100000000000000000) (DV 15)) (DMul (DC 43388373911755812 100000000000000000) (DV 18)));
    SD 31 (DSub (DMul (DC 90096886790241915 100000000000000000) (DV 18)) (DMul (DC 43388373911755812 100000000000000000) (DV 15)));
    SD 72 (DAdd (DV 1) (DV 30));
    SD 73 (DAdd (DV 4) (DV 31));
    SD 74 (DSub (DV 1) (DV 30));
    SD 75 (DSub (DV 4) (DV 31));
    SD 32 (DAdd (DMul (DC 97492791218182362 100000000000000000) (DV 8)) (DMul (DC 22252093395631439 100000000000000000) (DV 11)));
    SD 33 (DSub (DMul (DC 97492791218182362 100000000000000000) (DV 11)) (DMul (DC 22252093395631439 100000000000000000) (DV 8)));
    SD 34 (DAdd (DMul (DC 7818314824680298 10000000000000000) (DV 22)) (DMul (DC 62348980185873348 100000000000000000) (DV 25)));
    SD 35 (DSub (DMul (DC 7818314824680298 10000000000000000) (DV 25)) (DMul (DC 62348980185873348 100000000000000000) (DV 22)));
    SD 76 (DAdd (DV 32) (DV 34));
    SD 77 (DAdd (DV 33) (DV 35));
    SD 78 (DSub (DV 32) (DV 34));
    SD 79 (DSub (DV 33) (DV 35));
    ST 1 (IAdd (IC 2) (IV 29)) (DMul (DC 14142135623730951 10000000000000000) (DAdd (DV 72) (DV 76)));
    ST 1 (IAdd (IC 3) (IV 29)) (DMul (DC 14142135623730951 10000000000000000) (DAdd (DV 73) (DV 77)));
    ST 1 (IAdd (IC 26) (IV 29)) (DMul (DC 14142135623730951 10000000000000000) (DSub (DV 72) (DV 76)));
    ST 1 (IAdd (IC 27) (IV 29)) (DNeg (DMul (DC 14142135623730951 10000000000000000) (DSub (DV 73) (DV 77))));
    ST 1 (IAdd (IC 16) (IV 29)) (DMul (DC 14142135623730951 10000000000000000) (DAdd (DV 74) (DV 79)));
    ST 1 (IAdd (IC 17) (IV 29)) (DMul (DC 14142135623730951 10000000000000000) (DSub (DV 75) (DV 78)));
    ST 1 (IAdd (IC 12) (IV 29)) (DMul (DC 14142135623730951 10000000000000000) (DSub (DV 74) (DV 79)));
    ST 1 (IAdd (IC 13) (IV 29)) (DNeg (DMul (DC 14142135623730951 10000000000000000) (DAdd (DV 75) (DV 78))));
    SD 36 (DSub (DMul (DC 62348980185873348 100000000000000000) (DV 17)) (DMul (DC 7818314824680298 10000000000000000) (DV 20)));
    SD 37 (DAdd (DMul (DC 62348980185873348 100000000000000000) (DV 20)) (DMul (DC 7818314824680298 10000000000000000) (DV 17)));
    SD 80 (DAdd (DV 3) (DV 36));
    SD 81 (DAdd (DV 6) (DV 37));
    SD 82 (DSub (DV 3) (DV 36));
    SD 83 (DSub (DV 37) (DV 6));
    SD 38 (DSub (DMul (DC 90096886790241915 100000000000000000) (DV 10)) (DMul (DC 43388373911755812 100000000000000000) (DV 13)));
    SD 39 (DAdd (DMul (DC 90096886790241915 100000000000000000) (DV 13)) (DMul (DC 43388373911755812 100000000000000000) (DV 10)));
    SD 40 (DSub (DMul (DC 22252093395631439 100000000000000000) (DV 24)) (DMul (DC 97492791218182362 100000000000000000) (DV 27)));
    SD 41 (DAdd (DMul (DC 22252093395631439 100000000000000000) (DV 27)) (DMul (DC 97492791218182362 100000000000000000) (DV 24)));
    SD 84 (DAdd (DV 38) (DV 40));
    SD 85 (DAdd (DV 39) (DV 41));
    SD 86 (DSub (DV 38) (DV 40));
    SD 87 (DSub (DV 41) (DV 39));
    ST 1 (IAdd (IC 4) (IV 29)) (DMul (DC 14142135623730951 10000000000000000) (DAdd (DV 80) (DV 84)));
    ST 1 (IAdd (IC 5) (IV 29)) (DNeg (DMul (DC 14142135623730951 10000000000000000) (DAdd (DV 81) (DV 85))));
    ST 1 (IAdd (IC 24) (IV 29)) (DMul (DC 14142135623730951 10000000000000000) (DSub (DV 80) (DV 84)));
    ST 1 (IAdd (IC 25) (IV 29)) (DNeg (DMul (DC 14142135623730951 10000000000000000) (DSub (DV 85) (DV 81))));
    ST 1 (IAdd (IC 18) (IV 29)) (DMul (DC 14142135623730951 10000000000000000) (DAdd (DV 82) (DV 87)));
    ST 1 (IAdd (IC 19) (IV 29)) (DMul (DC 14142135623730951 10000000000000000) (DSub (DV 83) (DV 86)));
    ST 1 (IAdd (IC 10) (IV 29)) (DMul (DC 14142135623730951 10000000000000000) (DSub (DV 82) (DV 87)));
    ST 1 (IAdd (IC 11) (IV 29)) (DNeg (DMul (DC 14142135623730951 10000000000000000) (DAdd (DV 83) (DV 86))));
    SD 42 (DAdd (DMul (DC 22252093395631439 100000000000000000) (DV 16)) (DMul (DC 97492791218182362 100000000000000000) (DV 19)));
    SD 43 (DSub (DMul (DC 22252093395631439 100000000000000000) (DV 19)) (DMul (DC 97492791218182362 100000000000000000) (DV 16)));
    SD 88 (DAdd (DV 2) (DV 42));
    SD 89 (DAdd (DV 5) (DV 43));
    SD 90 (DSub (DV 2) (DV 42));
    SD 91 (DSub (DV 5) (DV 43));
    SD 44 (DAdd (DMul (DC 7818314824680298 10000000000000000) (DV 9)) (DMul (DC 62348980185873348 100000000000000000) (DV 12)));
    SD 45 (DSub (DMul (DC 7818314824680298 10000000000000000) (DV 12)) (DMul (DC 62348980185873348 100000000000000000) (DV 9)));
    SD 46 (DSub (DMul (DC 90096886790241915 100000000000000000) (DV 26)) (DMul (DC 43388373911755812 100000000000000000) (DV 23)));
    SD 47 (DAdd (DMul (DC 90096886790241915 100000000000000000) (DV 23)) (DMul (DC 43388373911755812 100000000000000000) (DV 26)));
    SD 92 (DAdd (DV 44) (DV 46));
    SD 93 (DSub (DV 45) (DV 47));
    SD 94 (DSub (DV 44) (DV 46));
    SD 95 (DAdd (DV 45) (DV 47));
    ST 1 (IAdd (IC 6) (IV 29)) (DMul (DC 14142135623730951 10000000000000000) (DAdd (DV 88) (DV 92)));
    ST 1 (IAdd (IC 7) (IV 29)) (DMul (DC 14142135623730951 10000000000000000) (DAdd (DV 89) (DV 93)));
    ST 1 (IAdd (IC 22) (IV 29)) (DMul (DC 14142135623730951 10000000000000000) (DSub (DV 88) (DV 92)));
    ST 1 (IAdd (IC 23) (IV 29)) (DNeg (DMul (DC 14142135623730951 10000000000000000) (DSub (DV 89) (DV 93))));
    ST 1 (IAdd (IC 20) (IV 29)) (DMul (DC 14142135623730951 10000000000000000) (DAdd (DV 90) (DV 95)));
    ST 1 (IAdd (IC 21) (IV 29)) (DMul (DC 14142135623730951 10000000000000000) (DSub (DV 91) (DV 94)));
    ST 1 (IAdd (IC 8) (IV 29)) (DMul (DC 14142135623730951 10000000000000000) (DSub (DV 90) (DV 95)));
    ST 1 (IAdd (IC 9) (IV 29)) (DNeg (DMul (DC 14142135623730951 10000000000000000) (DAdd (DV 91) (DV 94))))].
Definition r2c_28 : codelet := {| cd_n := 28; cd_lens := []; cd_local := []; cd_init := r2c_28_init; cd_body := r2c_28_body |}.

(** third_party/fftx_codelets/lib_fftx_prdftbat_cpu_srcs/fftx_prdftbat_32_bat_72_APar_APar_CPU.cpp:8-176; the files for
    96, 120, 144, 168, 192, 216 transforms differ from it only in the names and in
    the bound of the loop over i1 (the transforms). *)
Definition r2c_32_init : stmt := block [
    SFor 1 3 (block [
      ST 2 (IMul (IC 4) (IV 1)) (DCospi (IMul (IC 62) (IV 1)) 32);
      ST 2 (IAdd (IC 1) (IMul (IC 4) (IV 1))) (DSinpi (IMul (IC 62) (IV 1)) 32);
      ST 2 (IAdd (IC 2) (IMul (IC 4) (IV 1))) (DCospi (IMul (IC 62) (IAdd (IC 4) (IV 1))) 32);
      ST 2 (IAdd (IC 3) (IMul (IC 4) (IV 1))) (DSinpi (IMul (IC 62) (IAdd (IC 4) (IV 1))) 32)])].
Definition r2c_32_body : stmt := block [
    SFor 7 7 (block [
      SUndefD [0; 1];
      SUndefI [2; 3; 4; 5; 6];
      SI 2 (IAdd (IMul (IC 32) (IV 0)) (IV 7));
      SI 3 (IAdd (IV 2) (IC 16));
      SD 0 (DAdd (DLd 0 (IV 2)) (DLd 0 (IV 3)));
      SI 4 (IAdd (IV 2) (IC 8));
      SI 5 (IAdd (IV 2) (IC 24));
      SD 1 (DAdd (DLd 0 (IV 4)) (DLd 0 (IV 5)));
      SI 6 (IMul (IC 6) (IV 7));
      ST 3 (IV 6) (DAdd (DV 0) (DV 1));
      ST 3 (IAdd (IC 1) (IV 6)) (DC 0 1);
      ST 3 (IAdd (IC 4) (IV 6)) (DSub (DV 0) (DV 1));
      ST 3 (IAdd (IC 5) (IV 6)) (DC 0 1);
      ST 3 (IAdd (IC 2) (IV 6)) (DSub (DLd 0 (IV 2)) (DLd 0 (IV 3)));
      ST 3 (IAdd (IC 3) (IV 6)) (DSub (DLd 0 (IV 5)) (DLd 0 (IV 4)))]);
    SUndefD [2; 3; 4; 5; 6; 7; 8; 9; 10; 11; 12; 13; 14; 15; 16; 17; 18; 19; 20; 21; 22; 23; 24; 25; 26; 27; 28; 29; 30; 31; 32; 33; 34; 35; 36; 37; 38; 39; 40; 41; 42; 43; 44; 45; 46; 47; 48; 49; 50; 51; 52; 53; 54; 55; 56; 57; 58; 59; 60; 61; 62; 63; 64; 65; 66; 67; 68; 69; 70; 71; 72; 73; 74; 75; 76; 77; 78; 79; 80; 81];
    SUndefI [8];
    SD 10 (DAdd (DLd 3 (IC 0)) (DLd 3 (IC 24)));
    SD 11 (DSub (DLd 3 (IC 0)) (DLd 3 (IC 24)));
    SD 12 (DAdd (DLd 3 (IC 6)) (DLd 3 (IC 30)));
    SD 13 (DAdd (DLd 3 (IC 12)) (DLd 3 (IC 36)));
    SD 14 (DSub (DLd 3 (IC 12)) (DLd 3 (IC 36)));
    SD 15 (DAdd (DLd 3 (IC 18)) (DLd 3 (IC 42)));
    SD 16 (DAdd (DV 10) (DV 13));
    SD 17 (DAdd (DV 12) (DV 15));
    SI 8 (IMul (IC 34) (IV 0));
    ST 1 (IV 8) (DAdd (DV 16) (DV 17));
    ST 1 (IAdd (IC 1) (IV 8)) (DC 0 1);
    ST 1 (IAdd (IC 32) (IV 8)) (DMul (DC 14142135623730951 10000000000000000) (DSub (DV 16) (DV 17)));
    ST 1 (IAdd (IC 33) (IV 8)) (DC 0 1);
    ST 1 (IAdd (IC 16) (IV 8)) (DMul (DC 14142135623730951 10000000000000000) (DSub (DV 10) (DV 13)));
    ST 1 (IAdd (IC 17) (IV 8)) (DNeg (DMul (DC 14142135623730951 10000000000000000) (DSub (DV 12) (DV 15))));
    SD 2 (DMul (DC 70710678118654757 100000000000000000) (DSub (DLd 3 (IC 6)) (DLd 3 (IC 30))));
    SD 3 (DMul (DC 70710678118654757 100000000000000000) (DSub (DLd 3 (IC 18)) (DLd 3 (IC 42))));
    SD 18 (DSub (DV 2) (DV 3));
    SD 19 (DAdd (DV 2) (DV 3));
    ST 1 (IAdd (IC 8) (IV 8)) (DMul (DC 14142135623730951 10000000000000000) (DAdd (DV 11) (DV 18)));
    ST 1 (IAdd (IC 9) (IV 8)) (DNeg (DMul (DC 14142135623730951 10000000000000000) (DAdd (DV 14) (DV 19))));
    ST 1 (IAdd (IC 24) (IV 8)) (DMul (DC 14142135623730951 10000000000000000) (DSub (DV 11) (DV 18)));
    ST 1 (IAdd (IC 25) (IV 8)) (DNeg (DMul (DC 14142135623730951 10000000000000000) (DSub (DV 19) (DV 14))));
    SD 20 (DSub (DMul (DLd 2 (IC 0)) (DLd 3 (IC 2))) (DMul (DLd 2 (IC 1)) (DLd 3 (IC 3))));
    SD 21 (DAdd (DMul (DLd 2 (IC 1)) (DLd 3 (IC 2))) (DMul (DLd 2 (IC 0)) (DLd 3 (IC 3))));
    SD 22 (DSub (DMul (DLd 2 (IC 2)) (DLd 3 (IC 26))) (DMul (DLd 2 (IC 3)) (DLd 3 (IC 27))));
    SD 23 (DAdd (DMul (DLd 2 (IC 3)) (DLd 3 (IC 26))) (DMul (DLd 2 (IC 2)) (DLd 3 (IC 27))));
    SD 46 (DAdd (DV 20) (DV 22));
    SD 47 (DAdd (DV 21) (DV 23));
    SD 48 (DSub (DV 20) (DV 22));
    SD 49 (DSub (DV 21) (DV 23));
    SD 24 (DSub (DMul (DLd 2 (IC 4)) (DLd 3 (IC 8))) (DMul (DLd 2 (IC 5)) (DLd 3 (IC 9))));
    SD 25 (DAdd (DMul (DLd 2 (IC 5)) (DLd 3 (IC 8))) (DMul (DLd 2 (IC 4)) (DLd 3 (IC 9))));
    SD 26 (DSub (DMul (DLd 2 (IC 6)) (DLd 3 (IC 32))) (DMul (DLd 2 (IC 7)) (DLd 3 (IC 33))));
    SD 27 (DAdd (DMul (DLd 2 (IC 7)) (DLd 3 (IC 32))) (DMul (DLd 2 (IC 6)) (DLd 3 (IC 33))));
    SD 50 (DAdd (DV 24) (DV 26));
    SD 51 (DAdd (DV 25) (DV 27));
    SD 4 (DMul (DC 70710678118654757 100000000000000000) (DSub (DV 24) (DV 26)));
    SD 5 (DMul (DC 70710678118654757 100000000000000000) (DSub (DV 25) (DV 27)));
    SD 28 (DAdd (DV 4) (DV 5));
    SD 29 (DSub (DV 5) (DV 4));
    SD 30 (DSub (DMul (DLd 2 (IC 8)) (DLd 3 (IC 14))) (DMul (DLd 2 (IC 9)) (DLd 3 (IC 15))));
    SD 31 (DAdd (DMul (DLd 2 (IC 9)) (DLd 3 (IC 14))) (DMul (DLd 2 (IC 8)) (DLd 3 (IC 15))));
    SD 32 (DSub (DMul (DLd 2 (IC 10)) (DLd 3 (IC 38))) (DMul (DLd 2 (IC 11)) (DLd 3 (IC 39))));
    SD 33 (DAdd (DMul (DLd 2 (IC 11)) (DLd 3 (IC 38))) (DMul (DLd 2 (IC 10)) (DLd 3 (IC 39))));
    SD 52 (DAdd (DV 30) (DV 32));
    SD 53 (DAdd (DV 31) (DV 33));
    SD 54 (DSub (DV 30) (DV 32));
    SD 55 (DSub (DV 31) (DV 33));
    SD 34 (DSub (DMul (DLd 2 (IC 12)) (DLd 3 (IC 20))) (DMul (DLd 2 (IC 13)) (DLd 3 (IC 21))));
    SD 35 (DAdd (DMul (DLd 2 (IC 13)) (DLd 3 (IC 20))) (DMul (DLd 2 (IC 12)) (DLd 3 (IC 21))));
    SD 36 (DSub (DMul (DLd 2 (IC 14)) (DLd 3 (IC 44))) (DMul (DLd 2 (IC 15)) (DLd 3 (IC 45))));
    SD 37 (DAdd (DMul (DLd 2 (IC 15)) (DLd 3 (IC 44))) (DMul (DLd 2 (IC 14)) (DLd 3 (IC 45))));
    SD 56 (DAdd (DV 34) (DV 36));
    SD 57 (DAdd (DV 35) (DV 37));
    SD 6 (DMul (DC 70710678118654757 100000000000000000) (DSub (DV 35) (DV 37)));
    SD 7 (DMul (DC 70710678118654757 100000000000000000) (DSub (DV 34) (DV 36)));
    SD 38 (DSub (DV 6) (DV 7));
    SD 39 (DAdd (DV 7) (DV 6));
    SD 58 (DAdd (DV 46) (DV 52));
    SD 59 (DAdd (DV 47) (DV 53));
    SD 60 (DSub (DV 46) (DV 52));
    SD 61 (DSub (DV 47) (DV 53));
    SD 62 (DAdd (DV 50) (DV 56));
    SD 63 (DAdd (DV 51) (DV 57));
    SD 64 (DSub (DV 50) (DV 56));
    SD 65 (DSub (DV 51) (DV 57));
    ST 1 (IAdd (IC 2) (IV 8)) (DMul (DC 14142135623730951 10000000000000000) (DAdd (DV 58) (DV 62)));
    ST 1 (IAdd (IC 3) (IV 8)) (DMul (DC 14142135623730951 10000000000000000) (DAdd (DV 59) (DV 63)));
    ST 1 (IAdd (IC 30) (IV 8)) (DMul (DC 14142135623730951 10000000000000000) (DSub (DV 58) (DV 62)));
    ST 1 (IAdd (IC 31) (IV 8)) (DNeg (DMul (DC 14142135623730951 10000000000000000) (DSub (DV 59) (DV 63))));
    ST 1 (IAdd (IC 18) (IV 8)) (DMul (DC 14142135623730951 10000000000000000) (DAdd (DV 60) (DV 65)));
    ST 1 (IAdd (IC 19) (IV 8)) (DMul (DC 14142135623730951 10000000000000000) (DSub (DV 61) (DV 64)));
    ST 1 (IAdd (IC 14) (IV 8)) (DMul (DC 14142135623730951 10000000000000000) (DSub (DV 60) (DV 65)));
    ST 1 (IAdd (IC 15) (IV 8)) (DNeg (DMul (DC 14142135623730951 10000000000000000) (DAdd (DV 61) (DV 64))));
    SD 66 (DAdd (DV 48) (DV 55));
    SD 67 (DSub (DV 49) (DV 54));
    SD 68 (DSub (DV 48) (DV 55));
    SD 69 (DAdd (DV 49) (DV 54));
    SD 70 (DAdd (DV 28) (DV 38));
    SD 71 (DSub (DV 29) (DV 39));
    SD 72 (DSub (DV 28) (DV 38));
    SD 73 (DAdd (DV 29) (DV 39));
    ST 1 (IAdd (IC 10) (IV 8)) (DMul (DC 14142135623730951 10000000000000000) (DAdd (DV 66) (DV 70)));
    ST 1 (IAdd (IC 11) (IV 8)) (DMul (DC 14142135623730951 10000000000000000) (DAdd (DV 67) (DV 71)));
    ST 1 (IAdd (IC 22) (IV 8)) (DMul (DC 14142135623730951 10000000000000000) (DSub (DV 66) (DV 70)));
    ST 1 (IAdd (IC 23) (IV 8)) (DNeg (DMul (DC 14142135623730951 10000000000000000) (DSub (DV 67) (DV 71))));
    ST 1 (IAdd (IC 26) (IV 8)) (DMul (DC 14142135623730951 10000000000000000) (DAdd (DV 68) (DV 73)));
    ST 1 (IAdd (IC 27) (IV 8)) (DMul (DC 14142135623730951 10000000000000000) (DSub (DV 69) (DV 72)));
    ST 1 (IAdd (IC 6) (IV 8)) (DMul (DC 14142135623730951 10000000000000000) (DSub (DV 68) (DV 73)));
    ST 1 (IAdd (IC 7) (IV 8)) (DNeg (DMul (DC 14142135623730951 10000000000000000) (DAdd (DV 69) (DV 72))));
    SD 8 (DMul (DC 70710678118654757 100000000000000000) (DLd 3 (IC 16)));
    SD 9 (DMul (DC 70710678118654757 100000000000000000) (DLd 3 (IC 40)));
    SD 40 (DSub (DV 8) (DV 9));
    SD 41 (DAdd (DV 8) (DV 9));
    SD 74 (DAdd (DLd 3 (IC 4)) (DV 40));
    SD 75 (DAdd (DLd 3 (IC 28)) (DV 41));
    SD 76 (DSub (DLd 3 (IC 4)) (DV 40));
    SD 77 (DSub (DV 41) (DLd 3 (IC 28)));
    SD 42 (DSub (DMul (DC 92387953251128674 100000000000000000) (DLd 3 (IC 10))) (DMul (DC 38268343236508978 100000000000000000) (DLd 3 (IC 34))));
    SD 43 (DAdd (DMul (DC 38268343236508978 100000000000000000) (DLd 3 (IC 10))) (DMul (DC 92387953251128674 100000000000000000) (DLd 3 (IC 34))));
    SD 44 (DSub (DMul (DC 38268343236508978 100000000000000000) (DLd 3 (IC 22))) (DMul (DC 92387953251128674 100000000000000000) (DLd 3 (IC 46))));
    SD 45 (DAdd (DMul (DC 92387953251128674 100000000000000000) (DLd 3 (IC 22))) (DMul (DC 38268343236508978 100000000000000000) (DLd 3 (IC 46))));
    SD 78 (DAdd (DV 42) (DV 44));
    SD 79 (DAdd (DV 43) (DV 45));
    SD 80 (DSub (DV 42) (DV 44));
    SD 81 (DSub (DV 45) (DV 43));
    ST 1 (IAdd (IC 4) (IV 8)) (DMul (DC 14142135623730951 10000000000000000) (DAdd (DV 74) (DV 78)));
    ST 1 (IAdd (IC 5) (IV 8)) (DNeg (DMul (DC 14142135623730951 10000000000000000) (DAdd (DV 75) (DV 79))));
    ST 1 (IAdd (IC 28) (IV 8)) (DMul (DC 14142135623730951 10000000000000000) (DSub (DV 74) (DV 78)));
    ST 1 (IAdd (IC 29) (IV 8)) (DNeg (DMul (DC 14142135623730951 10000000000000000) (DSub (DV 79) (DV 75))));
    ST 1 (IAdd (IC 20) (IV 8)) (DMul (DC 14142135623730951 10000000000000000) (DAdd (DV 76) (DV 81)));
    ST 1 (IAdd (IC 21) (IV 8)) (DMul (DC 14142135623730951 10000000000000000) (DSub (DV 77) (DV 80)));
    ST 1 (IAdd (IC 12) (IV 8)) (DMul (DC 14142135623730951 10000000000000000) (DSub (DV 76) (DV 81)));
    ST 1 (IAdd (IC 13) (IV 8)) (DNeg (DMul (DC 14142135623730951 10000000000000000) (DAdd (DV 77) (DV 80))))].
Definition r2c_32 : codelet := {| cd_n := 32; cd_lens := [(2, 16); (3, 48)]; cd_local := [3]; cd_init := r2c_32_init; cd_body := r2c_32_body |}.

(** third_party/fftx_codelets/lib_fftx_prdftbat_cpu_srcs/fftx_prdftbat_36_bat_72_APar_APar_CPU.cpp:8-1179; the files for
    96, 120, 144, 168, 192, 216 transforms differ from it only in the names and in
    the bound of the loop over i1 (the transforms). *)
Definition r2c_36_init : stmt := block [
    SFor 1 1 (block [
      SFor 2 2 (block [
        ST 2 (IAdd (IMul (IC 12) (IV 1)) (IMul (IC 4) (IV 2))) (DCospi (IMul (IC 2) (IMul (IMul (IC 35) (IAdd (IV 1) (IC 1))) (IV 2))) 36);
        ST 2 (IAdd (IAdd (IC 1) (IMul (IC 12) (IV 1))) (IMul (IC 4) (IV 2))) (DSinpi (IMul (IC 2) (IMul (IMul (IC 35) (IAdd (IV 1) (IC 1))) (IV 2))) 36);
        ST 2 (IAdd (IAdd (IC 2) (IMul (IC 12) (IV 1))) (IMul (IC 4) (IV 2))) (DCospi (IMul (IC 2) (IMul (IMul (IC 35) (IAdd (IV 1) (IC 1))) (IAdd (IC 3) (IV 2)))) 36);
        ST 2 (IAdd (IAdd (IC 3) (IMul (IC 12) (IV 1))) (IMul (IC 4) (IV 2))) (DSinpi (IMul (IC 2) (IMul (IMul (IC 35) (IAdd (IV 1) (IC 1))) (IAdd (IC 3) (IV 2)))) 36)])])].
Definition r2c_36_body : stmt := block [
    SFor 10 5 (block [
      SUndefD [0; 1; 2; 3; 4; 5; 6; 7; 8; 9];
      SUndefI [3; 4; 5; 6; 7; 8; 9];
      SI 3 (IAdd (IMul (IC 36) (IV 0)) (IV 10));
      SI 4 (IAdd (IV 3) (IC 12));
      SI 5 (IAdd (IV 3) (IC 24));
      SD 8 (DAdd (DLd 0 (IV 4)) (DLd 0 (IV 5)));
      SD 0 (DAdd (DLd 0 (IV 3)) (DV 8));
      SD 1 (DSub (DLd 0 (IV 3)) (DMul (DC 5 10) (DV 8)));
      SD 2 (DMul (DC 8660254037844386 10000000000000000) (DSub (DLd 0 (IV 4)) (DLd 0 (IV 5))));
      SI 6 (IAdd (IV 3) (IC 6));
      SI 7 (IAdd (IV 3) (IC 18));
      SI 8 (IAdd (IV 3) (IC 30));
      SD 9 (DAdd (DLd 0 (IV 7)) (DLd 0 (IV 8)));
      SD 3 (DAdd (DLd 0 (IV 6)) (DV 9));
      SD 4 (DSub (DLd 0 (IV 6)) (DMul (DC 5 10) (DV 9)));
      SD 5 (DMul (DC 8660254037844386 10000000000000000) (DSub (DLd 0 (IV 7)) (DLd 0 (IV 8))));
      SI 9 (IMul (IC 8) (IV 10));
      ST 3 (IV 9) (DAdd (DV 0) (DV 3));
      ST 3 (IAdd (IC 1) (IV 9)) (DC 0 1);
      ST 3 (IAdd (IC 6) (IV 9)) (DSub (DV 0) (DV 3));
      ST 3 (IAdd (IC 7) (IV 9)) (DC 0 1);
      SD 6 (DSub (DMul (DC 5 10) (DV 4)) (DMul (DC 8660254037844386 10000000000000000) (DV 5)));
      SD 7 (DAdd (DMul (DC 8660254037844386 10000000000000000) (DV 4)) (DMul (DC 5 10) (DV 5)));
      ST 3 (IAdd (IC 2) (IV 9)) (DAdd (DV 1) (DV 6));
      ST 3 (IAdd (IC 3) (IV 9)) (DNeg (DAdd (DV 2) (DV 7)));
      ST 3 (IAdd (IC 4) (IV 9)) (DSub (DV 1) (DV 6));
      ST 3 (IAdd (IC 5) (IV 9)) (DSub (DV 2) (DV 7))]);
    SUndefD [10; 11; 12; 13; 14; 15; 16; 17; 18; 19];
    SUndefI [11];
    SD 19 (DAdd (DLd 3 (IC 16)) (DLd 3 (IC 32)));
    SD 10 (DAdd (DLd 3 (IC 0)) (DV 19));
    SD 11 (DSub (DLd 3 (IC 0)) (DMul (DC 5 10) (DV 19)));
    SD 12 (DMul (DC 8660254037844386 10000000000000000) (DSub (DLd 3 (IC 16)) (DLd 3 (IC 32))));
    SD 18 (DAdd (DLd 3 (IC 24)) (DLd 3 (IC 40)));
    SD 13 (DAdd (DLd 3 (IC 8)) (DV 18));
    SD 14 (DSub (DLd 3 (IC 8)) (DMul (DC 5 10) (DV 18)));
    SD 15 (DMul (DC 8660254037844386 10000000000000000) (DSub (DLd 3 (IC 24)) (DLd 3 (IC 40))));
    SI 11 (IMul (IC 38) (IV 0));
    ST 1 (IV 11) (DAdd (DV 10) (DV 13));
    ST 1 (IAdd (IC 1) (IV 11)) (DC 0 1);
    ST 1 (IAdd (IC 36) (IV 11)) (DMul (DC 14142135623730951 10000000000000000) (DSub (DV 10) (DV 13)));
    ST 1 (IAdd (IC 37) (IV 11)) (DC 0 1);
    SD 16 (DSub (DMul (DC 5 10) (DV 14)) (DMul (DC 8660254037844386 10000000000000000) (DV 15)));
    SD 17 (DAdd (DMul (DC 8660254037844386 10000000000000000) (DV 14)) (DMul (DC 5 10) (DV 15)));
    ST 1 (IAdd (IC 12) (IV 11)) (DMul (DC 14142135623730951 10000000000000000) (DAdd (DV 11) (DV 16)));
    ST 1 (IAdd (IC 13) (IV 11)) (DNeg (DMul (DC 14142135623730951 10000000000000000) (DAdd (DV 12) (DV 17))));
    ST 1 (IAdd (IC 24) (IV 11)) (DMul (DC 14142135623730951 10000000000000000) (DSub (DV 11) (DV 16)));
    ST 1 (IAdd (IC 25) (IV 11)) (DNeg (DMul (DC 14142135623730951 10000000000000000) (DSub (DV 17) (DV 12))));
    SFor 1 1 (block [
      SUndefD [20; 21; 22; 23; 24; 25; 26; 27; 28; 29; 30; 31; 32; 33; 34; 35; 36; 37; 38; 39; 40; 41; 42; 43; 44; 45; 46; 47; 48; 49; 50; 51; 52; 53; 54; 55; 56; 57; 58; 59; 60; 61; 62; 63; 64; 65; 66; 67; 68; 69; 70; 71];
      SUndefI [12; 13; 14; 15; 16; 17; 18; 19; 20; 21; 22; 23; 24; 25; 26; 27; 28; 29; 30; 31; 32; 33; 34; 35; 36; 37; 38; 39; 40; 41; 42; 43; 44; 45; 46; 47; 48];
      SI 12 (IMul (IC 2) (IV 1));
      SI 13 (IAdd (IV 12) (IC 2));
      SI 14 (IAdd (IV 12) (IC 3));
      SI 15 (IAdd (IV 12) (IC 26));
      SI 16 (IAdd (IV 12) (IC 27));
      SI 17 (IMul (IC 12) (IV 1));
      SI 18 (IAdd (IV 17) (IC 1));
      SD 20 (DSub (DMul (DLd 2 (IV 17)) (DLd 3 (IV 13))) (DMul (DLd 2 (IV 18)) (DLd 3 (IV 14))));
      SD 21 (DAdd (DMul (DLd 2 (IV 18)) (DLd 3 (IV 13))) (DMul (DLd 2 (IV 17)) (DLd 3 (IV 14))));
      SI 19 (IAdd (IV 17) (IC 2));
      SI 20 (IAdd (IV 17) (IC 3));
      SD 22 (DSub (DMul (DLd 2 (IV 19)) (DLd 3 (IV 15))) (DMul (DLd 2 (IV 20)) (DLd 3 (IV 16))));
      SD 23 (DAdd (DMul (DLd 2 (IV 20)) (DLd 3 (IV 15))) (DMul (DLd 2 (IV 19)) (DLd 3 (IV 16))));
      SD 48 (DAdd (DV 20) (DV 22));
      SD 49 (DAdd (DV 21) (DV 23));
      SD 50 (DSub (DV 20) (DV 22));
      SD 51 (DSub (DV 21) (DV 23));
      SI 21 (IAdd (IV 12) (IC 10));
      SI 22 (IAdd (IV 12) (IC 11));
      SI 23 (IAdd (IV 12) (IC 34));
      SI 24 (IAdd (IV 12) (IC 35));
      SI 25 (IAdd (IV 17) (IC 4));
      SI 26 (IAdd (IV 17) (IC 5));
      SD 24 (DSub (DMul (DLd 2 (IV 25)) (DLd 3 (IV 21))) (DMul (DLd 2 (IV 26)) (DLd 3 (IV 22))));
      SD 25 (DAdd (DMul (DLd 2 (IV 26)) (DLd 3 (IV 21))) (DMul (DLd 2 (IV 25)) (DLd 3 (IV 22))));
      SI 27 (IAdd (IV 17) (IC 6));
      SI 28 (IAdd (IV 17) (IC 7));
      SD 26 (DSub (DMul (DLd 2 (IV 27)) (DLd 3 (IV 23))) (DMul (DLd 2 (IV 28)) (DLd 3 (IV 24))));
      SD 27 (DAdd (DMul (DLd 2 (IV 28)) (DLd 3 (IV 23))) (DMul (DLd 2 (IV 27)) (DLd 3 (IV 24))));
      SD 52 (DAdd (DV 24) (DV 26));
      SD 53 (DAdd (DV 25) (DV 27));
      SD 54 (DSub (DV 24) (DV 26));
      SD 55 (DSub (DV 25) (DV 27));
      SD 28 (DAdd (DMul (DC 5 10) (DV 54)) (DMul (DC 8660254037844386 10000000000000000) (DV 55)));
      SD 29 (DSub (DMul (DC 5 10) (DV 55)) (DMul (DC 8660254037844386 10000000000000000) (DV 54)));
      SI 29 (IAdd (IV 12) (IC 18));
      SI 30 (IAdd (IV 12) (IC 19));
      SI 31 (IAdd (IV 12) (IC 42));
      SI 32 (IAdd (IV 12) (IC 43));
      SI 33 (IAdd (IV 17) (IC 8));
      SI 34 (IAdd (IV 17) (IC 9));
      SD 30 (DSub (DMul (DLd 2 (IV 33)) (DLd 3 (IV 29))) (DMul (DLd 2 (IV 34)) (DLd 3 (IV 30))));
      SD 31 (DAdd (DMul (DLd 2 (IV 34)) (DLd 3 (IV 29))) (DMul (DLd 2 (IV 33)) (DLd 3 (IV 30))));
      SI 35 (IAdd (IV 17) (IC 10));
      SI 36 (IAdd (IV 17) (IC 11));
      SD 32 (DSub (DMul (DLd 2 (IV 35)) (DLd 3 (IV 31))) (DMul (DLd 2 (IV 36)) (DLd 3 (IV 32))));
      SD 33 (DAdd (DMul (DLd 2 (IV 36)) (DLd 3 (IV 31))) (DMul (DLd 2 (IV 35)) (DLd 3 (IV 32))));
      SD 56 (DAdd (DV 30) (DV 32));
      SD 57 (DAdd (DV 31) (DV 33));
      SD 58 (DSub (DV 30) (DV 32));
      SD 59 (DSub (DV 31) (DV 33));
      SD 34 (DSub (DMul (DC 8660254037844386 10000000000000000) (DV 59)) (DMul (DC 5 10) (DV 58)));
      SD 35 (DAdd (DMul (DC 8660254037844386 10000000000000000) (DV 58)) (DMul (DC 5 10) (DV 59)));
      SD 60 (DAdd (DV 52) (DV 56));
      SD 61 (DAdd (DV 53) (DV 57));
      SD 36 (DAdd (DV 48) (DV 60));
      SD 37 (DAdd (DV 49) (DV 61));
      SD 38 (DSub (DV 48) (DMul (DC 5 10) (DV 60)));
      SD 39 (DSub (DV 49) (DMul (DC 5 10) (DV 61)));
      SD 40 (DMul (DC 8660254037844386 10000000000000000) (DSub (DV 53) (DV 57)));
      SD 41 (DMul (DC 8660254037844386 10000000000000000) (DSub (DV 52) (DV 56)));
      SI 37 (IMul (IC 38) (IV 0));
      SI 47 (IAdd (IV 37) (IV 12));
      ST 1 (IAdd (IC 2) (IV 47)) (DSub (DMul (DTab (tab_38) (IV 13)) (DV 36)) (DMul (DTab (tab_38) (IV 14)) (DV 37)));
      ST 1 (IAdd (IC 3) (IV 47)) (DAdd (DMul (DTab (tab_38) (IV 14)) (DV 36)) (DMul (DTab (tab_38) (IV 13)) (DV 37)));
      SD 62 (DAdd (DV 38) (DV 40));
      SD 63 (DSub (DV 39) (DV 41));
      SD 64 (DSub (DV 38) (DV 40));
      SD 65 (DAdd (DV 39) (DV 41));
      SI 38 (ISub (IC 0) (IV 12));
      SI 39 (IAdd (IV 38) (IC 22));
      SI 40 (IAdd (IV 38) (IC 23));
      ST 1 (IAdd (IC 26) (IV 47)) (DSub (DMul (DTab (tab_38) (IV 15)) (DV 62)) (DMul (DTab (tab_38) (IV 16)) (DV 63)));
      ST 1 (IAdd (IC 27) (IV 47)) (DAdd (DMul (DTab (tab_38) (IV 16)) (DV 62)) (DMul (DTab (tab_38) (IV 15)) (DV 63)));
      SI 48 (IAdd (IV 37) (IV 38));
      ST 1 (IAdd (IC 22) (IV 48)) (DAdd (DMul (DTab (tab_38) (IV 39)) (DV 64)) (DMul (DTab (tab_38) (IV 40)) (DV 65)));
      ST 1 (IAdd (IC 23) (IV 48)) (DSub (DMul (DTab (tab_38) (IV 40)) (DV 64)) (DMul (DTab (tab_38) (IV 39)) (DV 65)));
      SD 66 (DAdd (DV 28) (DV 34));
      SD 67 (DSub (DV 29) (DV 35));
      SD 42 (DAdd (DV 50) (DV 66));
      SD 43 (DAdd (DV 51) (DV 67));
      SD 44 (DSub (DV 50) (DMul (DC 5 10) (DV 66)));
      SD 45 (DSub (DV 51) (DMul (DC 5 10) (DV 67)));
      SD 46 (DMul (DC 8660254037844386 10000000000000000) (DAdd (DV 29) (DV 35)));
      SD 47 (DMul (DC 8660254037844386 10000000000000000) (DSub (DV 28) (DV 34)));
      SI 41 (IAdd (IV 12) (IC 14));
      SI 42 (IAdd (IV 12) (IC 15));
      ST 1 (IAdd (IC 14) (IV 47)) (DSub (DMul (DTab (tab_38) (IV 41)) (DV 42)) (DMul (DTab (tab_38) (IV 42)) (DV 43)));
      ST 1 (IAdd (IC 15) (IV 47)) (DAdd (DMul (DTab (tab_38) (IV 42)) (DV 42)) (DMul (DTab (tab_38) (IV 41)) (DV 43)));
      SD 68 (DAdd (DV 44) (DV 46));
      SD 69 (DSub (DV 45) (DV 47));
      SD 70 (DSub (DV 44) (DV 46));
      SD 71 (DAdd (DV 45) (DV 47));
      SI 43 (IAdd (IV 38) (IC 34));
      SI 44 (IAdd (IV 38) (IC 35));
      SI 45 (IAdd (IV 38) (IC 10));
      SI 46 (IAdd (IV 38) (IC 11));
      ST 1 (IAdd (IC 34) (IV 48)) (DAdd (DMul (DTab (tab_38) (IV 43)) (DV 68)) (DMul (DTab (tab_38) (IV 44)) (DV 69)));
      ST 1 (IAdd (IC 35) (IV 48)) (DSub (DMul (DTab (tab_38) (IV 44)) (DV 68)) (DMul (DTab (tab_38) (IV 43)) (DV 69)));
      ST 1 (IAdd (IC 10) (IV 48)) (DAdd (DMul (DTab (tab_38) (IV 45)) (DV 70)) (DMul (DTab (tab_38) (IV 46)) (DV 71)));
      ST 1 (IAdd (IC 11) (IV 48)) (DSub (DMul (DTab (tab_38) (IV 46)) (DV 70)) (DMul (DTab (tab_38) (IV 45)) (DV 71)))]);
    SUndefD [72; 73; 74; 75; 76; 77; 78; 79; 80; 81];
    SUndefI [49];
    SD 72 (DSub (DMul (DC 8660254037844386 10000000000000000) (DLd 3 (IC 14))) (DMul (DC 5 10) (DLd 3 (IC 38))));
    SD 73 (DAdd (DMul (DC 5 10) (DLd 3 (IC 14))) (DMul (DC 8660254037844386 10000000000000000) (DLd 3 (IC 38))));
    SD 74 (DSub (DMul (DC 5 10) (DLd 3 (IC 22))) (DMul (DC 8660254037844386 10000000000000000) (DLd 3 (IC 46))));
    SD 75 (DAdd (DMul (DC 8660254037844386 10000000000000000) (DLd 3 (IC 22))) (DMul (DC 5 10) (DLd 3 (IC 46))));
    SD 80 (DAdd (DV 72) (DV 74));
    SD 81 (DAdd (DV 73) (DV 75));
    SD 76 (DSub (DLd 3 (IC 6)) (DMul (DC 5 10) (DV 80)));
    SD 77 (DSub (DMul (DC 5 10) (DV 81)) (DLd 3 (IC 30)));
    SD 78 (DMul (DC 8660254037844386 10000000000000000) (DSub (DV 75) (DV 73)));
    SD 79 (DMul (DC 8660254037844386 10000000000000000) (DSub (DV 72) (DV 74)));
    SI 49 (IMul (IC 38) (IV 0));
    ST 1 (IAdd (IC 6) (IV 49)) (DMul (DC 14142135623730951 10000000000000000) (DAdd (DLd 3 (IC 6)) (DV 80)));
    ST 1 (IAdd (IC 7) (IV 49)) (DNeg (DMul (DC 14142135623730951 10000000000000000) (DAdd (DLd 3 (IC 30)) (DV 81))));
    ST 1 (IAdd (IC 30) (IV 49)) (DMul (DC 14142135623730951 10000000000000000) (DAdd (DV 76) (DV 78)));
    ST 1 (IAdd (IC 31) (IV 49)) (DMul (DC 14142135623730951 10000000000000000) (DSub (DV 77) (DV 79)));
    ST 1 (IAdd (IC 18) (IV 49)) (DMul (DC 14142135623730951 10000000000000000) (DSub (DV 76) (DV 78)));
    ST 1 (IAdd (IC 19) (IV 49)) (DNeg (DMul (DC 14142135623730951 10000000000000000) (DAdd (DV 77) (DV 79))))].
Definition r2c_36 : codelet := {| cd_n := 36; cd_lens := [(2, 24); (3, 48)]; cd_local := [3]; cd_init := r2c_36_init; cd_body := r2c_36_body |}.

(** third_party/fftx_codelets/lib_fftx_prdftbat_cpu_srcs/fftx_prdftbat_40_bat_72_APar_APar_CPU.cpp:8-1644; the files for
    96, 120, 144, 168, 192, 216 transforms differ from it only in the names and in
    the bound of the loop over i1 (the transforms). *)
Definition r2c_40_init : stmt := block [
    SFor 1 1 (block [
      SFor 2 3 (block [
        ST 2 (IAdd (IMul (IC 16) (IV 1)) (IMul (IC 4) (IV 2))) (DCospi (IMul (IC 2) (IMul (IMul (IC 39) (IAdd (IV 1) (IC 1))) (IV 2))) 40);
        ST 2 (IAdd (IAdd (IC 1) (IMul (IC 16) (IV 1))) (IMul (IC 4) (IV 2))) (DSinpi (IMul (IC 2) (IMul (IMul (IC 39) (IAdd (IV 1) (IC 1))) (IV 2))) 40);
        ST 2 (IAdd (IAdd (IC 2) (IMul (IC 16) (IV 1))) (IMul (IC 4) (IV 2))) (DCospi (IMul (IC 2) (IMul (IMul (IC 39) (IAdd (IV 1) (IC 1))) (IAdd (IC 4) (IV 2)))) 40);
        ST 2 (IAdd (IAdd (IC 3) (IMul (IC 16) (IV 1))) (IMul (IC 4) (IV 2))) (DSinpi (IMul (IC 2) (IMul (IMul (IC 39) (IAdd (IV 1) (IC 1))) (IAdd (IC 4) (IV 2)))) 40)])])].
Definition r2c_40_body : stmt := block [
    SFor 9 7 (block [
      SUndefD [0; 1; 2; 3];
      SUndefI [3; 4; 5; 6; 7; 8];
      SI 3 (IAdd (IMul (IC 40) (IV 0)) (IV 9));
      SI 4 (IAdd (IV 3) (IC 8));
      SI 5 (IAdd (IV 3) (IC 32));
      SD 0 (DAdd (DLd 0 (IV 4)) (DLd 0 (IV 5)));
      SD 1 (DSub (DLd 0 (IV 4)) (DLd 0 (IV 5)));
      SI 6 (IAdd (IV 3) (IC 24));
      SI 7 (IAdd (IV 3) (IC 16));
      SD 2 (DAdd (DLd 0 (IV 6)) (DLd 0 (IV 7)));
      SD 3 (DSub (DLd 0 (IV 6)) (DLd 0 (IV 7)));
      SI 8 (IMul (IC 6) (IV 9));
      ST 3 (IV 8) (DAdd (DAdd (DV 0) (DV 2)) (DLd 0 (IV 3)));
      ST 3 (IAdd (IC 1) (IV 8)) (DC 0 1);
      ST 3 (IAdd (IC 2) (IV 8)) (DAdd (DSub (DMul (DC 3090169943749474 10000000000000000) (DV 0)) (DMul (DC 80901699437494745 100000000000000000) (DV 2))) (DLd 0 (IV 3)));
      ST 3 (IAdd (IC 4) (IV 8)) (DAdd (DSub (DMul (DC 3090169943749474 10000000000000000) (DV 2)) (DMul (DC 80901699437494745 100000000000000000) (DV 0))) (DLd 0 (IV 3)));
      ST 3 (IAdd (IC 3) (IV 8)) (DSub (DMul (DC 58778525229247314 100000000000000000) (DV 3)) (DMul (DC 95105651629515353 100000000000000000) (DV 1)));
      ST 3 (IAdd (IC 5) (IV 8)) (DNeg (DAdd (DMul (DC 58778525229247314 100000000000000000) (DV 1)) (DMul (DC 95105651629515353 100000000000000000) (DV 3))))]);
    SUndefD [4; 5; 6; 7; 8; 9; 10; 11; 12; 13; 14; 15];
    SUndefI [10];
    SD 6 (DAdd (DLd 3 (IC 0)) (DLd 3 (IC 24)));
    SD 7 (DSub (DLd 3 (IC 0)) (DLd 3 (IC 24)));
    SD 8 (DAdd (DLd 3 (IC 6)) (DLd 3 (IC 30)));
    SD 9 (DAdd (DLd 3 (IC 12)) (DLd 3 (IC 36)));
    SD 10 (DSub (DLd 3 (IC 12)) (DLd 3 (IC 36)));
    SD 11 (DAdd (DLd 3 (IC 18)) (DLd 3 (IC 42)));
    SD 12 (DAdd (DV 6) (DV 9));
    SD 13 (DAdd (DV 8) (DV 11));
    SI 10 (IMul (IC 42) (IV 0));
    ST 1 (IV 10) (DAdd (DV 12) (DV 13));
    ST 1 (IAdd (IC 1) (IV 10)) (DC 0 1);
    ST 1 (IAdd (IC 40) (IV 10)) (DMul (DC 14142135623730951 10000000000000000) (DSub (DV 12) (DV 13)));
    ST 1 (IAdd (IC 41) (IV 10)) (DC 0 1);
    ST 1 (IAdd (IC 20) (IV 10)) (DMul (DC 14142135623730951 10000000000000000) (DSub (DV 6) (DV 9)));
    ST 1 (IAdd (IC 21) (IV 10)) (DNeg (DMul (DC 14142135623730951 10000000000000000) (DSub (DV 8) (DV 11))));
    SD 4 (DMul (DC 70710678118654757 100000000000000000) (DSub (DLd 3 (IC 6)) (DLd 3 (IC 30))));
    SD 5 (DMul (DC 70710678118654757 100000000000000000) (DSub (DLd 3 (IC 18)) (DLd 3 (IC 42))));
    SD 14 (DSub (DV 4) (DV 5));
    SD 15 (DAdd (DV 4) (DV 5));
    ST 1 (IAdd (IC 10) (IV 10)) (DMul (DC 14142135623730951 10000000000000000) (DAdd (DV 7) (DV 14)));
    ST 1 (IAdd (IC 11) (IV 10)) (DNeg (DMul (DC 14142135623730951 10000000000000000) (DAdd (DV 10) (DV 15))));
    ST 1 (IAdd (IC 30) (IV 10)) (DMul (DC 14142135623730951 10000000000000000) (DSub (DV 7) (DV 14)));
    ST 1 (IAdd (IC 31) (IV 10)) (DNeg (DMul (DC 14142135623730951 10000000000000000) (DSub (DV 15) (DV 10))));
    SFor 1 1 (block [
      SUndefD [16; 17; 18; 19; 20; 21; 22; 23; 24; 25; 26; 27; 28; 29; 30; 31; 32; 33; 34; 35; 36; 37; 38; 39; 40; 41; 42; 43; 44; 45; 46; 47; 48; 49; 50; 51; 52; 53; 54; 55; 56; 57; 58; 59; 60; 61; 62; 63; 64; 65; 66; 67; 68; 69; 70; 71; 72; 73; 74; 75; 76; 77; 78; 79; 80; 81; 82; 83];
      SUndefI [11; 12; 13; 14; 15; 16; 17; 18; 19; 20; 21; 22; 23; 24; 25; 26; 27; 28; 29; 30; 31; 32; 33; 34; 35; 36; 37; 38; 39; 40; 41; 42; 43; 44; 45; 46; 47; 48; 49; 50; 51; 52; 53; 54; 55; 56; 57; 58; 59];
      SI 11 (IMul (IC 2) (IV 1));
      SI 12 (IAdd (IV 11) (IC 2));
      SI 13 (IAdd (IV 11) (IC 3));
      SI 14 (IAdd (IV 11) (IC 26));
      SI 15 (IAdd (IV 11) (IC 27));
      SI 16 (IMul (IC 16) (IV 1));
      SI 17 (IAdd (IV 16) (IC 1));
      SD 20 (DSub (DMul (DLd 2 (IV 16)) (DLd 3 (IV 12))) (DMul (DLd 2 (IV 17)) (DLd 3 (IV 13))));
      SD 21 (DAdd (DMul (DLd 2 (IV 17)) (DLd 3 (IV 12))) (DMul (DLd 2 (IV 16)) (DLd 3 (IV 13))));
      SI 18 (IAdd (IV 16) (IC 2));
      SI 19 (IAdd (IV 16) (IC 3));
      SD 22 (DSub (DMul (DLd 2 (IV 18)) (DLd 3 (IV 14))) (DMul (DLd 2 (IV 19)) (DLd 3 (IV 15))));
      SD 23 (DAdd (DMul (DLd 2 (IV 19)) (DLd 3 (IV 14))) (DMul (DLd 2 (IV 18)) (DLd 3 (IV 15))));
      SD 40 (DAdd (DV 20) (DV 22));
      SD 41 (DAdd (DV 21) (DV 23));
      SD 42 (DSub (DV 20) (DV 22));
      SD 43 (DSub (DV 21) (DV 23));
      SI 20 (IAdd (IV 11) (IC 8));
      SI 21 (IAdd (IV 11) (IC 9));
      SI 22 (IAdd (IV 11) (IC 32));
      SI 23 (IAdd (IV 11) (IC 33));
      SI 24 (IAdd (IV 16) (IC 4));
      SI 25 (IAdd (IV 16) (IC 5));
      SD 24 (DSub (DMul (DLd 2 (IV 24)) (DLd 3 (IV 20))) (DMul (DLd 2 (IV 25)) (DLd 3 (IV 21))));
      SD 25 (DAdd (DMul (DLd 2 (IV 25)) (DLd 3 (IV 20))) (DMul (DLd 2 (IV 24)) (DLd 3 (IV 21))));
      SI 26 (IAdd (IV 16) (IC 6));
      SI 27 (IAdd (IV 16) (IC 7));
      SD 26 (DSub (DMul (DLd 2 (IV 26)) (DLd 3 (IV 22))) (DMul (DLd 2 (IV 27)) (DLd 3 (IV 23))));
      SD 27 (DAdd (DMul (DLd 2 (IV 27)) (DLd 3 (IV 22))) (DMul (DLd 2 (IV 26)) (DLd 3 (IV 23))));
      SD 44 (DAdd (DV 24) (DV 26));
      SD 45 (DAdd (DV 25) (DV 27));
      SD 16 (DMul (DC 70710678118654757 100000000000000000) (DSub (DV 24) (DV 26)));
      SD 17 (DMul (DC 70710678118654757 100000000000000000) (DSub (DV 25) (DV 27)));
      SD 28 (DAdd (DV 16) (DV 17));
      SD 29 (DSub (DV 17) (DV 16));
      SI 28 (IAdd (IV 11) (IC 14));
      SI 29 (IAdd (IV 11) (IC 15));
      SI 30 (IAdd (IV 11) (IC 38));
      SI 31 (IAdd (IV 11) (IC 39));
      SI 32 (IAdd (IV 16) (IC 8));
      SI 33 (IAdd (IV 16) (IC 9));
      SD 30 (DSub (DMul (DLd 2 (IV 32)) (DLd 3 (IV 28))) (DMul (DLd 2 (IV 33)) (DLd 3 (IV 29))));
      SD 31 (DAdd (DMul (DLd 2 (IV 33)) (DLd 3 (IV 28))) (DMul (DLd 2 (IV 32)) (DLd 3 (IV 29))));
      SI 34 (IAdd (IV 16) (IC 10));
      SI 35 (IAdd (IV 16) (IC 11));
      SD 32 (DSub (DMul (DLd 2 (IV 34)) (DLd 3 (IV 30))) (DMul (DLd 2 (IV 35)) (DLd 3 (IV 31))));
      SD 33 (DAdd (DMul (DLd 2 (IV 35)) (DLd 3 (IV 30))) (DMul (DLd 2 (IV 34)) (DLd 3 (IV 31))));
      SD 46 (DAdd (DV 30) (DV 32));
      SD 47 (DAdd (DV 31) (DV 33));
      SD 48 (DSub (DV 30) (DV 32));
      SD 49 (DSub (DV 31) (DV 33));
      SI 36 (IAdd (IV 11) (IC 20));
      SI 37 (IAdd (IV 11) (IC 21));
      SI 38 (IAdd (IV 11) (IC 44));
      SI 39 (IAdd (IV 11) (IC 45));
      SI 40 (IAdd (IV 16) (IC 12));
      SI 41 (IAdd (IV 16) (IC 13));
      SD 34 (DSub (DMul (DLd 2 (IV 40)) (DLd 3 (IV 36))) (DMul (DLd 2 (IV 41)) (DLd 3 (IV 37))));
      SD 35 (DAdd (DMul (DLd 2 (IV 41)) (DLd 3 (IV 36))) (DMul (DLd 2 (IV 40)) (DLd 3 (IV 37))));
      SI 42 (IAdd (IV 16) (IC 14));
      SI 43 (IAdd (IV 16) (IC 15));
      SD 36 (DSub (DMul (DLd 2 (IV 42)) (DLd 3 (IV 38))) (DMul (DLd 2 (IV 43)) (DLd 3 (IV 39))));
      SD 37 (DAdd (DMul (DLd 2 (IV 43)) (DLd 3 (IV 38))) (DMul (DLd 2 (IV 42)) (DLd 3 (IV 39))));
      SD 50 (DAdd (DV 34) (DV 36));
      SD 51 (DAdd (DV 35) (DV 37));
      SD 18 (DMul (DC 70710678118654757 100000000000000000) (DSub (DV 35) (DV 37)));
      SD 19 (DMul (DC 70710678118654757 100000000000000000) (DSub (DV 34) (DV 36)));
      SD 38 (DSub (DV 18) (DV 19));
      SD 39 (DAdd (DV 19) (DV 18));
      SD 52 (DAdd (DV 40) (DV 46));
      SD 53 (DAdd (DV 41) (DV 47));
      SD 54 (DSub (DV 40) (DV 46));
      SD 55 (DSub (DV 41) (DV 47));
      SD 56 (DAdd (DV 44) (DV 50));
      SD 57 (DAdd (DV 45) (DV 51));
      SD 58 (DSub (DV 44) (DV 50));
      SD 59 (DSub (DV 45) (DV 51));
      SD 60 (DAdd (DV 52) (DV 56));
      SD 61 (DAdd (DV 53) (DV 57));
      SD 62 (DSub (DV 52) (DV 56));
      SD 63 (DSub (DV 53) (DV 57));
      SI 44 (ISub (IC 0) (IV 11));
      SI 45 (IAdd (IV 44) (IC 38));
      SI 46 (IAdd (IV 44) (IC 39));
      SI 47 (IMul (IC 42) (IV 0));
      SI 58 (IAdd (IV 47) (IV 11));
      ST 1 (IAdd (IC 2) (IV 58)) (DSub (DMul (DTab (tab_42) (IV 12)) (DV 60)) (DMul (DTab (tab_42) (IV 13)) (DV 61)));
      ST 1 (IAdd (IC 3) (IV 58)) (DAdd (DMul (DTab (tab_42) (IV 13)) (DV 60)) (DMul (DTab (tab_42) (IV 12)) (DV 61)));
      SI 59 (IAdd (IV 47) (IV 44));
      ST 1 (IAdd (IC 38) (IV 59)) (DAdd (DMul (DTab (tab_42) (IV 45)) (DV 62)) (DMul (DTab (tab_42) (IV 46)) (DV 63)));
      ST 1 (IAdd (IC 39) (IV 59)) (DSub (DMul (DTab (tab_42) (IV 46)) (DV 62)) (DMul (DTab (tab_42) (IV 45)) (DV 63)));
      SD 64 (DAdd (DV 54) (DV 59));
      SD 65 (DSub (DV 55) (DV 58));
      SD 66 (DSub (DV 54) (DV 59));
      SD 67 (DAdd (DV 55) (DV 58));
      SI 48 (IAdd (IV 11) (IC 22));
      SI 49 (IAdd (IV 11) (IC 23));
      SI 50 (IAdd (IV 44) (IC 18));
      SI 51 (IAdd (IV 44) (IC 19));
      ST 1 (IAdd (IC 22) (IV 58)) (DSub (DMul (DTab (tab_42) (IV 48)) (DV 64)) (DMul (DTab (tab_42) (IV 49)) (DV 65)));
      ST 1 (IAdd (IC 23) (IV 58)) (DAdd (DMul (DTab (tab_42) (IV 49)) (DV 64)) (DMul (DTab (tab_42) (IV 48)) (DV 65)));
      ST 1 (IAdd (IC 18) (IV 59)) (DAdd (DMul (DTab (tab_42) (IV 50)) (DV 66)) (DMul (DTab (tab_42) (IV 51)) (DV 67)));
      ST 1 (IAdd (IC 19) (IV 59)) (DSub (DMul (DTab (tab_42) (IV 51)) (DV 66)) (DMul (DTab (tab_42) (IV 50)) (DV 67)));
      SD 68 (DAdd (DV 42) (DV 49));
      SD 69 (DSub (DV 43) (DV 48));
      SD 70 (DSub (DV 42) (DV 49));
      SD 71 (DAdd (DV 43) (DV 48));
      SD 72 (DAdd (DV 28) (DV 38));
      SD 73 (DSub (DV 29) (DV 39));
      SD 74 (DSub (DV 28) (DV 38));
      SD 75 (DAdd (DV 29) (DV 39));
      SD 76 (DAdd (DV 68) (DV 72));
      SD 77 (DAdd (DV 69) (DV 73));
      SD 78 (DSub (DV 68) (DV 72));
      SD 79 (DSub (DV 69) (DV 73));
      SI 52 (IAdd (IV 11) (IC 12));
      SI 53 (IAdd (IV 11) (IC 13));
      SI 54 (IAdd (IV 44) (IC 28));
      SI 55 (IAdd (IV 44) (IC 29));
      ST 1 (IAdd (IC 12) (IV 58)) (DSub (DMul (DTab (tab_42) (IV 52)) (DV 76)) (DMul (DTab (tab_42) (IV 53)) (DV 77)));
      ST 1 (IAdd (IC 13) (IV 58)) (DAdd (DMul (DTab (tab_42) (IV 53)) (DV 76)) (DMul (DTab (tab_42) (IV 52)) (DV 77)));
      ST 1 (IAdd (IC 28) (IV 59)) (DAdd (DMul (DTab (tab_42) (IV 54)) (DV 78)) (DMul (DTab (tab_42) (IV 55)) (DV 79)));
      ST 1 (IAdd (IC 29) (IV 59)) (DSub (DMul (DTab (tab_42) (IV 55)) (DV 78)) (DMul (DTab (tab_42) (IV 54)) (DV 79)));
      SD 80 (DAdd (DV 70) (DV 75));
      SD 81 (DSub (DV 71) (DV 74));
      SD 82 (DSub (DV 70) (DV 75));
      SD 83 (DAdd (DV 71) (DV 74));
      SI 56 (IAdd (IV 44) (IC 8));
      SI 57 (IAdd (IV 44) (IC 9));
      ST 1 (IAdd (IC 32) (IV 58)) (DSub (DMul (DTab (tab_42) (IV 22)) (DV 80)) (DMul (DTab (tab_42) (IV 23)) (DV 81)));
      ST 1 (IAdd (IC 33) (IV 58)) (DAdd (DMul (DTab (tab_42) (IV 23)) (DV 80)) (DMul (DTab (tab_42) (IV 22)) (DV 81)));
      ST 1 (IAdd (IC 8) (IV 59)) (DAdd (DMul (DTab (tab_42) (IV 56)) (DV 82)) (DMul (DTab (tab_42) (IV 57)) (DV 83)));
      ST 1 (IAdd (IC 9) (IV 59)) (DSub (DMul (DTab (tab_42) (IV 57)) (DV 82)) (DMul (DTab (tab_42) (IV 56)) (DV 83)))])].
Definition r2c_40 : codelet := {| cd_n := 40; cd_lens := [(2, 32); (3, 48)]; cd_local := [3]; cd_init := r2c_40_init; cd_body := r2c_40_body |}.

(** third_party/fftx_codelets/lib_fftx_iprdftbat_cpu_srcs/fftx_iprdftbat_16_bat_72_APar_APar_CPU.cpp:8-104; the files for
    96, 120, 144, 168, 192, 216 transforms differ from it only in the names and in
    the bound of the loop over i1 (the transforms). *)
Definition c2r_16_init : stmt := block [].
Definition c2r_16_body : stmt := block [
    SUndefD [0; 1; 2; 3; 4; 5; 6; 7; 8; 9; 10; 11; 12; 13; 14; 15; 16; 17; 18; 19; 20; 21; 22; 23; 24; 25; 26; 27; 28; 29; 30; 31; 32; 33; 34; 35; 36; 37; 38; 39; 40; 41; 42; 43];
    SUndefI [1; 2; 3; 4; 5; 6; 7; 8; 9; 10; 11; 12; 13; 14; 15];
    SI 1 (IMul (IC 18) (IV 0));
    SI 2 (IAdd (IV 1) (IC 16));
    SD 4 (DAdd (DLd 0 (IV 1)) (DLd 0 (IV 2)));
    SD 5 (DSub (DLd 0 (IV 1)) (DLd 0 (IV 2)));
    SD 6 (DMul (DC 2 1) (DLd 0 (IAdd (IC 8) (IV 1))));
    SD 7 (DMul (DC 2 1) (DLd 0 (IAdd (IC 9) (IV 1))));
    SD 8 (DAdd (DV 4) (DV 6));
    SD 9 (DSub (DV 4) (DV 6));
    SD 10 (DSub (DV 5) (DV 7));
    SD 11 (DAdd (DV 5) (DV 7));
    SI 3 (IAdd (IV 1) (IC 2));
    SI 4 (IAdd (IV 1) (IC 3));
    SI 5 (IAdd (IV 1) (IC 14));
    SI 6 (IAdd (IV 1) (IC 15));
    SD 32 (DAdd (DLd 0 (IV 3)) (DLd 0 (IV 5)));
    SD 33 (DSub (DLd 0 (IV 4)) (DLd 0 (IV 6)));
    SD 34 (DSub (DLd 0 (IV 3)) (DLd 0 (IV 5)));
    SD 35 (DAdd (DLd 0 (IV 4)) (DLd 0 (IV 6)));
    SI 7 (IAdd (IV 1) (IC 10));
    SI 8 (IAdd (IV 1) (IC 11));
    SI 9 (IAdd (IV 1) (IC 6));
    SI 10 (IAdd (IV 1) (IC 7));
    SD 36 (DAdd (DLd 0 (IV 7)) (DLd 0 (IV 9)));
    SD 37 (DSub (DLd 0 (IV 8)) (DLd 0 (IV 10)));
    SD 38 (DSub (DLd 0 (IV 7)) (DLd 0 (IV 9)));
    SD 39 (DAdd (DLd 0 (IV 8)) (DLd 0 (IV 10)));
    SD 0 (DMul (DC 70710678118654757 100000000000000000) (DSub (DV 32) (DV 36)));
    SD 1 (DMul (DC 70710678118654757 100000000000000000) (DSub (DV 33) (DV 37)));
    SD 40 (DSub (DV 34) (DV 39));
    SD 41 (DAdd (DV 35) (DV 38));
    SD 42 (DAdd (DV 34) (DV 39));
    SD 43 (DSub (DV 35) (DV 38));
    SI 11 (IAdd (IV 1) (IC 4));
    SI 12 (IAdd (IV 1) (IC 5));
    SI 13 (IAdd (IV 1) (IC 12));
    SI 14 (IAdd (IV 1) (IC 13));
    SD 2 (DMul (DC 70710678118654757 100000000000000000) (DSub (DLd 0 (IV 11)) (DLd 0 (IV 13))));
    SD 3 (DMul (DC 70710678118654757 100000000000000000) (DAdd (DLd 0 (IV 12)) (DLd 0 (IV 14))));
    SD 12 (DMul (DC 2 1) (DAdd (DLd 0 (IV 11)) (DLd 0 (IV 13))));
    SD 13 (DMul (DC 2 1) (DSub (DLd 0 (IV 12)) (DLd 0 (IV 14))));
    SD 14 (DMul (DC 2 1) (DSub (DV 2) (DV 3)));
    SD 15 (DMul (DC 2 1) (DAdd (DV 2) (DV 3)));
    SD 16 (DAdd (DV 8) (DV 12));
    SD 17 (DSub (DV 8) (DV 12));
    SD 18 (DMul (DC 2 1) (DAdd (DV 32) (DV 36)));
    SD 19 (DMul (DC 2 1) (DAdd (DV 33) (DV 37)));
    SI 15 (IMul (IC 16) (IV 0));
    ST 1 (IV 15) (DAdd (DV 16) (DV 18));
    ST 1 (IAdd (IC 8) (IV 15)) (DSub (DV 16) (DV 18));
    ST 1 (IAdd (IC 4) (IV 15)) (DSub (DV 17) (DV 19));
    ST 1 (IAdd (IC 12) (IV 15)) (DAdd (DV 17) (DV 19));
    SD 20 (DAdd (DV 10) (DV 14));
    SD 21 (DSub (DV 10) (DV 14));
    SD 22 (DSub (DMul (DC 18477590650225735 10000000000000000) (DV 40)) (DMul (DC 76536686473017956 100000000000000000) (DV 41)));
    SD 23 (DAdd (DMul (DC 76536686473017956 100000000000000000) (DV 40)) (DMul (DC 18477590650225735 10000000000000000) (DV 41)));
    ST 1 (IAdd (IC 1) (IV 15)) (DAdd (DV 20) (DV 22));
    ST 1 (IAdd (IC 9) (IV 15)) (DSub (DV 20) (DV 22));
    ST 1 (IAdd (IC 5) (IV 15)) (DSub (DV 21) (DV 23));
    ST 1 (IAdd (IC 13) (IV 15)) (DAdd (DV 21) (DV 23));
    SD 24 (DSub (DV 9) (DV 13));
    SD 25 (DAdd (DV 9) (DV 13));
    SD 26 (DMul (DC 2 1) (DSub (DV 0) (DV 1)));
    SD 27 (DMul (DC 2 1) (DAdd (DV 0) (DV 1)));
    ST 1 (IAdd (IC 2) (IV 15)) (DAdd (DV 24) (DV 26));
    ST 1 (IAdd (IC 10) (IV 15)) (DSub (DV 24) (DV 26));
    ST 1 (IAdd (IC 6) (IV 15)) (DSub (DV 25) (DV 27));
    ST 1 (IAdd (IC 14) (IV 15)) (DAdd (DV 25) (DV 27));
    SD 28 (DSub (DV 11) (DV 15));
    SD 29 (DAdd (DV 11) (DV 15));
    SD 30 (DSub (DMul (DC 76536686473017956 100000000000000000) (DV 42)) (DMul (DC 18477590650225735 10000000000000000) (DV 43)));
    SD 31 (DAdd (DMul (DC 18477590650225735 10000000000000000) (DV 42)) (DMul (DC 76536686473017956 100000000000000000) (DV 43)));
    ST 1 (IAdd (IC 3) (IV 15)) (DAdd (DV 28) (DV 30));
    ST 1 (IAdd (IC 11) (IV 15)) (DSub (DV 28) (DV 30));
    ST 1 (IAdd (IC 7) (IV 15)) (DSub (DV 29) (DV 31));
    ST 1 (IAdd (IC 15) (IV 15)) (DAdd (DV 29) (DV 31))].
Definition c2r_16 : codelet := {| cd_n := 16; cd_lens := []; cd_local := []; cd_init := c2r_16_init; cd_body := c2r_16_body |}.

(** third_party/fftx_codelets/lib_fftx_iprdftbat_cpu_srcs/fftx_iprdftbat_20_bat_72_APar_APar_CPU.cpp:8-145; the files for
    96, 120, 144, 168, 192, 216 transforms differ from it only in the names and in
    the bound of the loop over i1 (the transforms). *)
Definition c2r_20_init : stmt := block [].
Definition c2r_20_body : stmt := block [
    SUndefD [0; 1; 2; 3; 4; 5; 6; 7; 8; 9; 10; 11; 12; 13; 14; 15; 16; 17; 18; 19; 20; 21; 22; 23; 24; 25; 26; 27; 28; 29; 30; 31; 32; 33; 34; 35; 36; 37; 38; 39; 40; 41; 42; 43; 44; 45; 46; 47; 48; 49; 50; 51; 52; 53; 54; 55; 56; 57; 58; 59; 60; 61; 62; 63; 64; 65; 66; 67];
    SUndefI [1; 2; 3; 4; 5; 6; 7; 8; 9; 10; 11; 12; 13; 14; 15; 16; 17; 18; 19];
    SI 1 (IMul (IC 22) (IV 0));
    SI 2 (IAdd (IV 1) (IC 20));
    SD 0 (DAdd (DLd 0 (IV 1)) (DLd 0 (IV 2)));
    SD 1 (DSub (DLd 0 (IV 1)) (DLd 0 (IV 2)));
    SD 2 (DMul (DC 2 1) (DLd 0 (IAdd (IC 10) (IV 1))));
    SD 3 (DMul (DC 2 1) (DLd 0 (IAdd (IC 11) (IV 1))));
    SD 4 (DAdd (DV 0) (DV 2));
    SD 5 (DSub (DV 0) (DV 2));
    SD 6 (DSub (DV 1) (DV 3));
    SD 7 (DAdd (DV 1) (DV 3));
    SI 3 (IAdd (IV 1) (IC 2));
    SI 4 (IAdd (IV 1) (IC 3));
    SI 5 (IAdd (IV 1) (IC 18));
    SI 6 (IAdd (IV 1) (IC 19));
    SD 36 (DAdd (DLd 0 (IV 3)) (DLd 0 (IV 5)));
    SD 37 (DSub (DLd 0 (IV 4)) (DLd 0 (IV 6)));
    SD 38 (DSub (DLd 0 (IV 3)) (DLd 0 (IV 5)));
    SD 39 (DAdd (DLd 0 (IV 4)) (DLd 0 (IV 6)));
    SI 7 (IAdd (IV 1) (IC 12));
    SI 8 (IAdd (IV 1) (IC 13));
    SI 9 (IAdd (IV 1) (IC 8));
    SI 10 (IAdd (IV 1) (IC 9));
    SD 40 (DAdd (DLd 0 (IV 7)) (DLd 0 (IV 9)));
    SD 41 (DSub (DLd 0 (IV 8)) (DLd 0 (IV 10)));
    SD 42 (DSub (DLd 0 (IV 7)) (DLd 0 (IV 9)));
    SD 43 (DAdd (DLd 0 (IV 8)) (DLd 0 (IV 10)));
    SD 44 (DAdd (DV 36) (DV 40));
    SD 45 (DAdd (DV 37) (DV 41));
    SD 46 (DSub (DV 36) (DV 40));
    SD 47 (DSub (DV 37) (DV 41));
    SD 8 (DSub (DMul (DC 80901699437494745 100000000000000000) (DV 46)) (DMul (DC 58778525229247314 100000000000000000) (DV 47)));
    SD 9 (DAdd (DMul (DC 58778525229247314 100000000000000000) (DV 46)) (DMul (DC 80901699437494745 100000000000000000) (DV 47)));
    SD 48 (DSub (DV 38) (DV 43));
    SD 49 (DAdd (DV 39) (DV 42));
    SD 50 (DAdd (DV 38) (DV 43));
    SD 51 (DSub (DV 39) (DV 42));
    SD 10 (DSub (DMul (DC 95105651629515353 100000000000000000) (DV 48)) (DMul (DC 3090169943749474 10000000000000000) (DV 49)));
    SD 11 (DAdd (DMul (DC 3090169943749474 10000000000000000) (DV 48)) (DMul (DC 95105651629515353 100000000000000000) (DV 49)));
    SD 12 (DSub (DMul (DC 58778525229247314 100000000000000000) (DV 50)) (DMul (DC 80901699437494745 100000000000000000) (DV 51)));
    SD 13 (DAdd (DMul (DC 80901699437494745 100000000000000000) (DV 50)) (DMul (DC 58778525229247314 100000000000000000) (DV 51)));
    SI 11 (IAdd (IV 1) (IC 4));
    SI 12 (IAdd (IV 1) (IC 5));
    SI 13 (IAdd (IV 1) (IC 16));
    SI 14 (IAdd (IV 1) (IC 17));
    SD 52 (DAdd (DLd 0 (IV 11)) (DLd 0 (IV 13)));
    SD 53 (DSub (DLd 0 (IV 12)) (DLd 0 (IV 14)));
    SD 54 (DSub (DLd 0 (IV 11)) (DLd 0 (IV 13)));
    SD 55 (DAdd (DLd 0 (IV 12)) (DLd 0 (IV 14)));
    SI 15 (IAdd (IV 1) (IC 14));
    SI 16 (IAdd (IV 1) (IC 15));
    SI 17 (IAdd (IV 1) (IC 6));
    SI 18 (IAdd (IV 1) (IC 7));
    SD 56 (DAdd (DLd 0 (IV 15)) (DLd 0 (IV 17)));
    SD 57 (DSub (DLd 0 (IV 16)) (DLd 0 (IV 18)));
    SD 58 (DSub (DLd 0 (IV 15)) (DLd 0 (IV 17)));
    SD 59 (DAdd (DLd 0 (IV 16)) (DLd 0 (IV 18)));
    SD 60 (DAdd (DV 52) (DV 56));
    SD 61 (DAdd (DV 53) (DV 57));
    SD 62 (DSub (DV 52) (DV 56));
    SD 63 (DSub (DV 53) (DV 57));
    SD 14 (DSub (DMul (DC 3090169943749474 10000000000000000) (DV 62)) (DMul (DC 95105651629515353 100000000000000000) (DV 63)));
    SD 15 (DAdd (DMul (DC 95105651629515353 100000000000000000) (DV 62)) (DMul (DC 3090169943749474 10000000000000000) (DV 63)));
    SD 64 (DSub (DV 54) (DV 59));
    SD 65 (DAdd (DV 55) (DV 58));
    SD 66 (DAdd (DV 54) (DV 59));
    SD 67 (DSub (DV 55) (DV 58));
    SD 16 (DSub (DMul (DC 80901699437494745 100000000000000000) (DV 64)) (DMul (DC 58778525229247314 100000000000000000) (DV 65)));
    SD 17 (DAdd (DMul (DC 58778525229247314 100000000000000000) (DV 64)) (DMul (DC 80901699437494745 100000000000000000) (DV 65)));
    SD 18 (DAdd (DMul (DC 3090169943749474 10000000000000000) (DV 66)) (DMul (DC 95105651629515353 100000000000000000) (DV 67)));
    SD 19 (DSub (DMul (DC 95105651629515353 100000000000000000) (DV 66)) (DMul (DC 3090169943749474 10000000000000000) (DV 67)));
    SD 20 (DSub (DAdd (DV 4) (DMul (DC 61803398874989479 100000000000000000) (DV 44))) (DMul (DC 16180339887498949 10000000000000000) (DV 60)));
    SD 21 (DAdd (DSub (DV 4) (DMul (DC 16180339887498949 10000000000000000) (DV 44))) (DMul (DC 61803398874989479 100000000000000000) (DV 60)));
    SD 22 (DAdd (DMul (DC 19021130325903071 10000000000000000) (DV 45)) (DMul (DC 11755705045849463 10000000000000000) (DV 61)));
    SD 23 (DSub (DMul (DC 11755705045849463 10000000000000000) (DV 45)) (DMul (DC 19021130325903071 10000000000000000) (DV 61)));
    SI 19 (IMul (IC 20) (IV 0));
    ST 1 (IV 19) (DAdd (DAdd (DV 4) (DMul (DC 2 1) (DV 44))) (DMul (DC 2 1) (DV 60)));
    ST 1 (IAdd (IC 4) (IV 19)) (DSub (DV 20) (DV 22));
    ST 1 (IAdd (IC 16) (IV 19)) (DAdd (DV 20) (DV 22));
    ST 1 (IAdd (IC 12) (IV 19)) (DAdd (DV 21) (DV 23));
    ST 1 (IAdd (IC 8) (IV 19)) (DSub (DV 21) (DV 23));
    SD 24 (DAdd (DSub (DMul (DC 61803398874989479 100000000000000000) (DV 10)) (DMul (DC 16180339887498949 10000000000000000) (DV 16))) (DV 6));
    SD 25 (DAdd (DSub (DMul (DC 61803398874989479 100000000000000000) (DV 16)) (DMul (DC 16180339887498949 10000000000000000) (DV 10))) (DV 6));
    SD 26 (DAdd (DMul (DC 19021130325903071 10000000000000000) (DV 11)) (DMul (DC 11755705045849463 10000000000000000) (DV 17)));
    SD 27 (DSub (DMul (DC 11755705045849463 10000000000000000) (DV 11)) (DMul (DC 19021130325903071 10000000000000000) (DV 17)));
    ST 1 (IAdd (IC 1) (IV 19)) (DAdd (DAdd (DMul (DC 2 1) (DV 10)) (DMul (DC 2 1) (DV 16))) (DV 6));
    ST 1 (IAdd (IC 5) (IV 19)) (DSub (DV 24) (DV 26));
    ST 1 (IAdd (IC 17) (IV 19)) (DAdd (DV 24) (DV 26));
    ST 1 (IAdd (IC 13) (IV 19)) (DAdd (DV 25) (DV 27));
    ST 1 (IAdd (IC 9) (IV 19)) (DSub (DV 25) (DV 27));
    SD 28 (DAdd (DSub (DMul (DC 61803398874989479 100000000000000000) (DV 8)) (DMul (DC 16180339887498949 10000000000000000) (DV 14))) (DV 5));
    SD 29 (DAdd (DSub (DMul (DC 61803398874989479 100000000000000000) (DV 14)) (DMul (DC 16180339887498949 10000000000000000) (DV 8))) (DV 5));
    SD 30 (DAdd (DMul (DC 19021130325903071 10000000000000000) (DV 9)) (DMul (DC 11755705045849463 10000000000000000) (DV 15)));
    SD 31 (DSub (DMul (DC 11755705045849463 10000000000000000) (DV 9)) (DMul (DC 19021130325903071 10000000000000000) (DV 15)));
    ST 1 (IAdd (IC 2) (IV 19)) (DAdd (DAdd (DMul (DC 2 1) (DV 8)) (DMul (DC 2 1) (DV 14))) (DV 5));
    ST 1 (IAdd (IC 6) (IV 19)) (DSub (DV 28) (DV 30));
    ST 1 (IAdd (IC 18) (IV 19)) (DAdd (DV 28) (DV 30));
    ST 1 (IAdd (IC 14) (IV 19)) (DAdd (DV 29) (DV 31));
    ST 1 (IAdd (IC 10) (IV 19)) (DSub (DV 29) (DV 31));
    SD 32 (DAdd (DAdd (DV 7) (DMul (DC 61803398874989479 100000000000000000) (DV 12))) (DMul (DC 16180339887498949 10000000000000000) (DV 18)));
    SD 33 (DSub (DSub (DV 7) (DMul (DC 16180339887498949 10000000000000000) (DV 12))) (DMul (DC 61803398874989479 100000000000000000) (DV 18)));
    SD 34 (DAdd (DMul (DC 19021130325903071 10000000000000000) (DV 13)) (DMul (DC 11755705045849463 10000000000000000) (DV 19)));
    SD 35 (DSub (DMul (DC 11755705045849463 10000000000000000) (DV 13)) (DMul (DC 19021130325903071 10000000000000000) (DV 19)));
    ST 1 (IAdd (IC 3) (IV 19)) (DSub (DAdd (DV 7) (DMul (DC 2 1) (DV 12))) (DMul (DC 2 1) (DV 18)));
    ST 1 (IAdd (IC 7) (IV 19)) (DSub (DV 32) (DV 34));
    ST 1 (IAdd (IC 19) (IV 19)) (DAdd (DV 32) (DV 34));
    ST 1 (IAdd (IC 15) (IV 19)) (DAdd (DV 33) (DV 35));
    ST 1 (IAdd (IC 11) (IV 19)) (DSub (DV 33) (DV 35))].
Definition c2r_20 : codelet := {| cd_n := 20; cd_lens := []; cd_local := []; cd_init := c2r_20_init; cd_body := c2r_20_body |}.

(** third_party/fftx_codelets/lib_fftx_iprdftbat_cpu_srcs/fftx_iprdftbat_24_bat_72_APar_APar_CPU.cpp:8-168; the files for
    96, 120, 144, 168, 192, 216 transforms differ from it only in the names and in
    the bound of the loop over i1 (the transforms). *)
Definition c2r_24_init : stmt := block [
    SFor 1 1 (block [
      ST 2 (IMul (IC 2) (IV 1)) (DCospi (IMul (IC 2) (IV 1)) 24);
      ST 2 (IAdd (IC 1) (IMul (IC 2) (IV 1))) (DSinpi (IMul (IC 2) (IV 1)) 24)]);
    SFor 1 1 (block [
      ST 3 (IMul (IC 4) (IV 1)) (DCospi (IMul (IC 2) (IAdd (IC 2) (IV 1))) 24);
      ST 3 (IAdd (IC 1) (IMul (IC 4) (IV 1))) (DSinpi (IMul (IC 2) (IAdd (IC 2) (IV 1))) 24);
      ST 3 (IAdd (IC 2) (IMul (IC 4) (IV 1))) (DCospi (IMul (IC 2) (IAdd (IC 4) (IV 1))) 24);
      ST 3 (IAdd (IC 3) (IMul (IC 4) (IV 1))) (DSinpi (IMul (IC 2) (IAdd (IC 4) (IV 1))) 24)])].
Definition c2r_24_body : stmt := block [
    SUndefD [0; 1; 2; 3; 4; 5; 6; 7; 8; 9; 10; 11; 12; 13; 14; 15; 16; 17; 18; 19; 20; 21; 22; 23; 24; 25; 26; 27; 28; 29; 30; 31; 32; 33; 34; 35; 36; 37; 38; 39; 40; 41; 42; 43; 44; 45; 46; 47; 48; 49; 50; 51; 52; 53; 54; 55; 56; 57; 58; 59];
    SUndefI [2; 3; 4; 5; 6; 7; 8; 9; 10; 11; 12; 13; 14; 15; 16; 17; 18; 19; 20; 21; 22; 23; 24; 25];
    SI 2 (IMul (IC 26) (IV 0));
    SI 3 (IAdd (IV 2) (IC 24));
    SD 0 (DAdd (DLd 0 (IV 2)) (DLd 0 (IV 3)));
    SD 1 (DSub (DLd 0 (IV 2)) (DLd 0 (IV 3)));
    SI 4 (IAdd (IV 2) (IC 8));
    SI 5 (IAdd (IV 2) (IC 9));
    SI 6 (IAdd (IV 2) (IC 16));
    SI 7 (IAdd (IV 2) (IC 17));
    SD 27 (DAdd (DLd 0 (IV 4)) (DLd 0 (IV 6)));
    SD 28 (DSub (DLd 0 (IV 4)) (DLd 0 (IV 6)));
    SD 29 (DAdd (DLd 0 (IV 5)) (DLd 0 (IV 7)));
    SD 2 (DSub (DMul (DC 5 10) (DV 28)) (DMul (DC 8660254037844386 10000000000000000) (DV 29)));
    SD 3 (DSub (DV 0) (DV 27));
    SD 4 (DMul (DC 17320508075688772 10000000000000000) (DSub (DLd 0 (IV 5)) (DLd 0 (IV 7))));
    ST 4 (IC 0) (DAdd (DV 0) (DMul (DC 2 1) (DV 27)));
    ST 4 (IC 12) (DSub (DV 3) (DV 4));
    ST 4 (IC 24) (DAdd (DV 3) (DV 4));
    SD 5 (DSub (DV 1) (DV 2));
    SD 6 (DAdd (DMul (DC 14999999999999998 10000000000000000) (DV 28)) (DMul (DC 8660254037844386 10000000000000000) (DV 29)));
    ST 4 (IC 6) (DAdd (DV 1) (DMul (DC 2 1) (DV 2)));
    ST 4 (IC 18) (DSub (DV 5) (DV 6));
    ST 4 (IC 30) (DAdd (DV 5) (DV 6));
    SI 8 (IAdd (IV 2) (IC 2));
    SI 9 (IAdd (IV 2) (IC 3));
    SI 10 (IAdd (IV 2) (IC 22));
    SI 11 (IAdd (IV 2) (IC 23));
    SD 30 (DAdd (DLd 0 (IV 8)) (DLd 0 (IV 10)));
    SD 31 (DSub (DLd 0 (IV 9)) (DLd 0 (IV 11)));
    SD 32 (DSub (DLd 0 (IV 8)) (DLd 0 (IV 10)));
    SD 33 (DAdd (DLd 0 (IV 9)) (DLd 0 (IV 11)));
    SI 12 (IAdd (IV 2) (IC 10));
    SI 13 (IAdd (IV 2) (IC 11));
    SI 14 (IAdd (IV 2) (IC 14));
    SI 15 (IAdd (IV 2) (IC 15));
    SD 34 (DAdd (DLd 0 (IV 12)) (DLd 0 (IV 14)));
    SD 35 (DSub (DLd 0 (IV 13)) (DLd 0 (IV 15)));
    SD 36 (DSub (DLd 0 (IV 12)) (DLd 0 (IV 14)));
    SD 37 (DAdd (DLd 0 (IV 13)) (DLd 0 (IV 15)));
    SD 7 (DSub (DMul (DC 5 10) (DV 36)) (DMul (DC 8660254037844386 10000000000000000) (DV 37)));
    SD 8 (DAdd (DMul (DC 8660254037844386 10000000000000000) (DV 36)) (DMul (DC 5 10) (DV 37)));
    SI 16 (IAdd (IV 2) (IC 18));
    SI 17 (IAdd (IV 2) (IC 19));
    SI 18 (IAdd (IV 2) (IC 6));
    SI 19 (IAdd (IV 2) (IC 7));
    SD 38 (DAdd (DLd 0 (IV 16)) (DLd 0 (IV 18)));
    SD 39 (DSub (DLd 0 (IV 17)) (DLd 0 (IV 19)));
    SD 40 (DSub (DLd 0 (IV 16)) (DLd 0 (IV 18)));
    SD 41 (DAdd (DLd 0 (IV 17)) (DLd 0 (IV 19)));
    SD 9 (DAdd (DMul (DC 5 10) (DV 40)) (DMul (DC 8660254037844386 10000000000000000) (DV 41)));
    SD 10 (DSub (DMul (DC 8660254037844386 10000000000000000) (DV 40)) (DMul (DC 5 10) (DV 41)));
    SD 42 (DAdd (DV 34) (DV 38));
    SD 43 (DAdd (DV 35) (DV 39));
    SD 11 (DAdd (DV 30) (DV 42));
    SD 12 (DAdd (DV 31) (DV 43));
    SD 13 (DSub (DV 30) (DMul (DC 5 10) (DV 42)));
    SD 14 (DSub (DV 31) (DMul (DC 5 10) (DV 43)));
    SD 15 (DMul (DC 8660254037844386 10000000000000000) (DSub (DV 35) (DV 39)));
    SD 16 (DMul (DC 8660254037844386 10000000000000000) (DSub (DV 34) (DV 38)));
    ST 4 (IC 2) (DSub (DMul (DLd 2 (IC 0)) (DV 11)) (DMul (DLd 2 (IC 1)) (DV 12)));
    ST 4 (IC 3) (DAdd (DMul (DLd 2 (IC 1)) (DV 11)) (DMul (DLd 2 (IC 0)) (DV 12)));
    SD 44 (DSub (DV 13) (DV 15));
    SD 45 (DAdd (DV 14) (DV 16));
    SD 46 (DAdd (DV 13) (DV 15));
    SD 47 (DSub (DV 14) (DV 16));
    ST 4 (IC 14) (DSub (DMul (DLd 3 (IC 0)) (DV 44)) (DMul (DLd 3 (IC 1)) (DV 45)));
    ST 4 (IC 15) (DAdd (DMul (DLd 3 (IC 1)) (DV 44)) (DMul (DLd 3 (IC 0)) (DV 45)));
    ST 4 (IC 26) (DSub (DMul (DLd 3 (IC 2)) (DV 46)) (DMul (DLd 3 (IC 3)) (DV 47)));
    ST 4 (IC 27) (DAdd (DMul (DLd 3 (IC 3)) (DV 46)) (DMul (DLd 3 (IC 2)) (DV 47)));
    SD 48 (DSub (DV 7) (DV 9));
    SD 49 (DAdd (DV 8) (DV 10));
    SD 17 (DAdd (DV 32) (DV 48));
    SD 18 (DAdd (DV 33) (DV 49));
    SD 19 (DSub (DV 32) (DMul (DC 5 10) (DV 48)));
    SD 20 (DSub (DV 33) (DMul (DC 5 10) (DV 49)));
    SD 21 (DMul (DC 8660254037844386 10000000000000000) (DSub (DV 8) (DV 10)));
    SD 22 (DMul (DC 8660254037844386 10000000000000000) (DAdd (DV 7) (DV 9)));
    ST 4 (IC 8) (DSub (DMul (DLd 2 (IC 2)) (DV 17)) (DMul (DLd 2 (IC 3)) (DV 18)));
    ST 4 (IC 9) (DAdd (DMul (DLd 2 (IC 3)) (DV 17)) (DMul (DLd 2 (IC 2)) (DV 18)));
    SD 50 (DSub (DV 19) (DV 21));
    SD 51 (DAdd (DV 20) (DV 22));
    SD 52 (DAdd (DV 19) (DV 21));
    SD 53 (DSub (DV 20) (DV 22));
    ST 4 (IC 20) (DSub (DMul (DLd 3 (IC 4)) (DV 50)) (DMul (DLd 3 (IC 5)) (DV 51)));
    ST 4 (IC 21) (DAdd (DMul (DLd 3 (IC 5)) (DV 50)) (DMul (DLd 3 (IC 4)) (DV 51)));
    ST 4 (IC 32) (DSub (DMul (DLd 3 (IC 6)) (DV 52)) (DMul (DLd 3 (IC 7)) (DV 53)));
    ST 4 (IC 33) (DAdd (DMul (DLd 3 (IC 7)) (DV 52)) (DMul (DLd 3 (IC 6)) (DV 53)));
    SI 20 (IAdd (IV 2) (IC 4));
    SI 21 (IAdd (IV 2) (IC 5));
    SI 22 (IAdd (IV 2) (IC 20));
    SI 23 (IAdd (IV 2) (IC 21));
    SI 24 (IAdd (IV 2) (IC 12));
    SI 25 (IAdd (IV 2) (IC 13));
    SD 54 (DAdd (DLd 0 (IV 22)) (DLd 0 (IV 24)));
    SD 55 (DSub (DLd 0 (IV 23)) (DLd 0 (IV 25)));
    SD 23 (DSub (DLd 0 (IV 20)) (DMul (DC 5 10) (DV 54)));
    SD 24 (DSub (DLd 0 (IV 21)) (DMul (DC 5 10) (DV 55)));
    SD 25 (DMul (DC 8660254037844386 10000000000000000) (DAdd (DLd 0 (IV 23)) (DLd 0 (IV 25))));
    SD 26 (DMul (DC 8660254037844386 10000000000000000) (DSub (DLd 0 (IV 22)) (DLd 0 (IV 24))));
    SD 56 (DSub (DV 23) (DV 25));
    SD 57 (DAdd (DV 24) (DV 26));
    SD 58 (DAdd (DV 23) (DV 25));
    SD 59 (DSub (DV 24) (DV 26));
    ST 4 (IC 4) (DMul (DC 2 1) (DAdd (DLd 0 (IV 20)) (DV 54)));
    ST 4 (IC 22) (DNeg (DMul (DC 2 1) (DAdd (DLd 0 (IV 21)) (DV 55))));
    ST 4 (IC 10) (DSub (DMul (DC 17320508075688772 10000000000000000) (DV 56)) (DV 57));
    ST 4 (IC 28) (DNeg (DAdd (DV 56) (DMul (DC 17320508075688772 10000000000000000) (DV 57))));
    ST 4 (IC 16) (DSub (DV 58) (DMul (DC 17320508075688772 10000000000000000) (DV 59)));
    ST 4 (IC 34) (DNeg (DAdd (DMul (DC 17320508075688772 10000000000000000) (DV 58)) (DV 59)));
    SFor 29 5 (block [
      SUndefD [60; 61; 62; 63];
      SUndefI [26; 27; 28];
      SI 26 (IMul (IC 6) (IV 29));
      SI 27 (IAdd (IV 26) (IC 4));
      SD 60 (DAdd (DLd 4 (IV 26)) (DLd 4 (IV 27)));
      SD 61 (DSub (DLd 4 (IV 26)) (DLd 4 (IV 27)));
      SD 62 (DMul (DC 2 1) (DLd 4 (IAdd (IC 2) (IV 26))));
      SD 63 (DMul (DC 2 1) (DLd 4 (IAdd (IC 3) (IV 26))));
      SI 28 (IAdd (IMul (IC 24) (IV 0)) (IV 29));
      ST 1 (IV 28) (DAdd (DV 60) (DV 62));
      ST 1 (IAdd (IC 12) (IV 28)) (DSub (DV 60) (DV 62));
      ST 1 (IAdd (IC 6) (IV 28)) (DSub (DV 61) (DV 63));
      ST 1 (IAdd (IC 18) (IV 28)) (DAdd (DV 61) (DV 63))])].
Definition c2r_24 : codelet := {| cd_n := 24; cd_lens := [(2, 4); (3, 8); (4, 36)]; cd_local := [4]; cd_init := c2r_24_init; cd_body := c2r_24_body |}.

(** third_party/fftx_codelets/lib_fftx_iprdftbat_cpu_srcs/fftx_iprdftbat_28_bat_72_APar_APar_CPU.cpp:8-222; the files for
    96, 120, 144, 168, 192, 216 transforms differ from it only in the names and in
    the bound of the loop over i1 (the transforms). *)
Definition c2r_28_init : stmt := block [].
Definition c2r_28_body : stmt := block [
    SUndefD [0; 1; 2; 3; 4; 5; 6; 7; 8; 9; 10; 11; 12; 13; 14; 15; 16; 17; 18; 19; 20; 21; 22; 23; 24; 25; 26; 27; 28; 29; 30; 31; 32; 33; 34; 35; 36; 37; 38; 39; 40; 41; 42; 43; 44; 45; 46; 47; 48; 49; 50; 51; 52; 53; 54; 55; 56; 57; 58; 59; 60; 61; 62; 63; 64; 65; 66; 67; 68; 69; 70; 71; 72; 73; 74; 75; 76; 77; 78; 79; 80; 81; 82; 83; 84; 85; 86; 87; 88; 89; 90; 91; 92; 93; 94; 95; 96; 97];
    SUndefI [1; 2; 3; 4; 5; 6; 7; 8; 9; 10; 11; 12; 13; 14; 15; 16; 17; 18; 19; 20; 21; 22; 23; 24; 25; 26; 27];
    SI 1 (IMul (IC 30) (IV 0));
    SI 2 (IAdd (IV 1) (IC 28));
    SD 0 (DAdd (DLd 0 (IV 1)) (DLd 0 (IV 2)));
    SD 1 (DSub (DLd 0 (IV 1)) (DLd 0 (IV 2)));
    SD 2 (DMul (DC 2 1) (DLd 0 (IAdd (IC 14) (IV 1))));
    SD 3 (DMul (DC 2 1) (DLd 0 (IAdd (IC 15) (IV 1))));
    SD 4 (DAdd (DV 0) (DV 2));
    SD 5 (DSub (DV 0) (DV 2));
    SD 6 (DSub (DV 1) (DV 3));
    SD 7 (DAdd (DV 1) (DV 3));
    SI 3 (IAdd (IV 1) (IC 2));
    SI 4 (IAdd (IV 1) (IC 3));
    SI 5 (IAdd (IV 1) (IC 26));
    SI 6 (IAdd (IV 1) (IC 27));
    SD 50 (DAdd (DLd 0 (IV 3)) (DLd 0 (IV 5)));
    SD 51 (DSub (DLd 0 (IV 4)) (DLd 0 (IV 6)));
    SD 52 (DSub (DLd 0 (IV 3)) (DLd 0 (IV 5)));
    SD 53 (DAdd (DLd 0 (IV 4)) (DLd 0 (IV 6)));
    SI 7 (IAdd (IV 1) (IC 16));
    SI 8 (IAdd (IV 1) (IC 17));
    SI 9 (IAdd (IV 1) (IC 12));
    SI 10 (IAdd (IV 1) (IC 13));
    SD 54 (DAdd (DLd 0 (IV 7)) (DLd 0 (IV 9)));
    SD 55 (DSub (DLd 0 (IV 8)) (DLd 0 (IV 10)));
    SD 56 (DSub (DLd 0 (IV 7)) (DLd 0 (IV 9)));
    SD 57 (DAdd (DLd 0 (IV 8)) (DLd 0 (IV 10)));
    SD 58 (DAdd (DV 50) (DV 54));
    SD 59 (DAdd (DV 51) (DV 55));
    SD 60 (DSub (DV 50) (DV 54));
    SD 61 (DSub (DV 51) (DV 55));
    SD 8 (DSub (DMul (DC 90096886790241915 100000000000000000) (DV 60)) (DMul (DC 43388373911755812 100000000000000000) (DV 61)));
    SD 9 (DAdd (DMul (DC 43388373911755812 100000000000000000) (DV 60)) (DMul (DC 90096886790241915 100000000000000000) (DV 61)));
    SD 62 (DSub (DV 52) (DV 57));
    SD 63 (DAdd (DV 53) (DV 56));
    SD 64 (DAdd (DV 52) (DV 57));
    SD 65 (DSub (DV 53) (DV 56));
    SD 10 (DSub (DMul (DC 97492791218182362 100000000000000000) (DV 62)) (DMul (DC 22252093395631439 100000000000000000) (DV 63)));
    SD 11 (DAdd (DMul (DC 22252093395631439 100000000000000000) (DV 62)) (DMul (DC 97492791218182362 100000000000000000) (DV 63)));
    SD 12 (DSub (DMul (DC 7818314824680298 10000000000000000) (DV 64)) (DMul (DC 62348980185873348 100000000000000000) (DV 65)));
    SD 13 (DAdd (DMul (DC 62348980185873348 100000000000000000) (DV 64)) (DMul (DC 7818314824680298 10000000000000000) (DV 65)));
    SI 11 (IAdd (IV 1) (IC 4));
    SI 12 (IAdd (IV 1) (IC 5));
    SI 13 (IAdd (IV 1) (IC 24));
    SI 14 (IAdd (IV 1) (IC 25));
    SD 66 (DAdd (DLd 0 (IV 11)) (DLd 0 (IV 13)));
    SD 67 (DSub (DLd 0 (IV 12)) (DLd 0 (IV 14)));
    SD 68 (DSub (DLd 0 (IV 11)) (DLd 0 (IV 13)));
    SD 69 (DAdd (DLd 0 (IV 12)) (DLd 0 (IV 14)));
    SI 15 (IAdd (IV 1) (IC 18));
    SI 16 (IAdd (IV 1) (IC 19));
    SI 17 (IAdd (IV 1) (IC 10));
    SI 18 (IAdd (IV 1) (IC 11));
    SD 70 (DAdd (DLd 0 (IV 15)) (DLd 0 (IV 17)));
    SD 71 (DSub (DLd 0 (IV 16)) (DLd 0 (IV 18)));
    SD 72 (DSub (DLd 0 (IV 15)) (DLd 0 (IV 17)));
    SD 73 (DAdd (DLd 0 (IV 16)) (DLd 0 (IV 18)));
    SD 74 (DAdd (DV 66) (DV 70));
    SD 75 (DAdd (DV 67) (DV 71));
    SD 76 (DSub (DV 66) (DV 70));
    SD 77 (DSub (DV 67) (DV 71));
    SD 14 (DSub (DMul (DC 62348980185873348 100000000000000000) (DV 76)) (DMul (DC 7818314824680298 10000000000000000) (DV 77)));
    SD 15 (DAdd (DMul (DC 7818314824680298 10000000000000000) (DV 76)) (DMul (DC 62348980185873348 100000000000000000) (DV 77)));
    SD 78 (DSub (DV 68) (DV 73));
    SD 79 (DAdd (DV 69) (DV 72));
    SD 80 (DAdd (DV 68) (DV 73));
    SD 81 (DSub (DV 69) (DV 72));
    SD 16 (DSub (DMul (DC 90096886790241915 100000000000000000) (DV 78)) (DMul (DC 43388373911755812 100000000000000000) (DV 79)));
    SD 17 (DAdd (DMul (DC 43388373911755812 100000000000000000) (DV 78)) (DMul (DC 90096886790241915 100000000000000000) (DV 79)));
    SD 18 (DSub (DMul (DC 22252093395631439 100000000000000000) (DV 80)) (DMul (DC 97492791218182362 100000000000000000) (DV 81)));
    SD 19 (DAdd (DMul (DC 97492791218182362 100000000000000000) (DV 80)) (DMul (DC 22252093395631439 100000000000000000) (DV 81)));
    SI 19 (IAdd (IV 1) (IC 6));
    SI 20 (IAdd (IV 1) (IC 7));
    SI 21 (IAdd (IV 1) (IC 22));
    SI 22 (IAdd (IV 1) (IC 23));
    SD 82 (DAdd (DLd 0 (IV 19)) (DLd 0 (IV 21)));
    SD 83 (DSub (DLd 0 (IV 20)) (DLd 0 (IV 22)));
    SD 84 (DSub (DLd 0 (IV 19)) (DLd 0 (IV 21)));
    SD 85 (DAdd (DLd 0 (IV 20)) (DLd 0 (IV 22)));
    SI 23 (IAdd (IV 1) (IC 20));
    SI 24 (IAdd (IV 1) (IC 21));
    SI 25 (IAdd (IV 1) (IC 8));
    SI 26 (IAdd (IV 1) (IC 9));
    SD 86 (DAdd (DLd 0 (IV 23)) (DLd 0 (IV 25)));
    SD 87 (DSub (DLd 0 (IV 24)) (DLd 0 (IV 26)));
    SD 88 (DSub (DLd 0 (IV 23)) (DLd 0 (IV 25)));
    SD 89 (DAdd (DLd 0 (IV 24)) (DLd 0 (IV 26)));
    SD 90 (DAdd (DV 82) (DV 86));
    SD 91 (DAdd (DV 83) (DV 87));
    SD 92 (DSub (DV 82) (DV 86));
    SD 93 (DSub (DV 83) (DV 87));
    SD 20 (DSub (DMul (DC 22252093395631439 100000000000000000) (DV 92)) (DMul (DC 97492791218182362 100000000000000000) (DV 93)));
    SD 21 (DAdd (DMul (DC 97492791218182362 100000000000000000) (DV 92)) (DMul (DC 22252093395631439 100000000000000000) (DV 93)));
    SD 94 (DSub (DV 84) (DV 89));
    SD 95 (DAdd (DV 85) (DV 88));
    SD 96 (DAdd (DV 84) (DV 89));
    SD 97 (DSub (DV 85) (DV 88));
    SD 22 (DSub (DMul (DC 7818314824680298 10000000000000000) (DV 94)) (DMul (DC 62348980185873348 100000000000000000) (DV 95)));
    SD 23 (DAdd (DMul (DC 62348980185873348 100000000000000000) (DV 94)) (DMul (DC 7818314824680298 10000000000000000) (DV 95)));
    SD 24 (DAdd (DMul (DC 43388373911755812 100000000000000000) (DV 96)) (DMul (DC 90096886790241915 100000000000000000) (DV 97)));
    SD 25 (DSub (DMul (DC 90096886790241915 100000000000000000) (DV 96)) (DMul (DC 43388373911755812 100000000000000000) (DV 97)));
    SD 26 (DSub (DSub (DAdd (DV 4) (DMul (DC 1246979603717467 1000000000000000) (DV 58))) (DMul (DC 18019377358048383 10000000000000000) (DV 90))) (DMul (DC 44504186791262879 100000000000000000) (DV 74)));
    SD 27 (DSub (DAdd (DSub (DV 4) (DMul (DC 44504186791262879 100000000000000000) (DV 58))) (DMul (DC 1246979603717467 1000000000000000) (DV 90))) (DMul (DC 18019377358048383 10000000000000000) (DV 74)));
    SD 28 (DAdd (DSub (DSub (DV 4) (DMul (DC 18019377358048383 10000000000000000) (DV 58))) (DMul (DC 44504186791262879 100000000000000000) (DV 90))) (DMul (DC 1246979603717467 1000000000000000) (DV 74)));
    SD 29 (DAdd (DAdd (DMul (DC 15636629649360596 10000000000000000) (DV 59)) (DMul (DC 86776747823511624 100000000000000000) (DV 91))) (DMul (DC 19498558243636472 10000000000000000) (DV 75)));
    SD 30 (DSub (DSub (DMul (DC 19498558243636472 10000000000000000) (DV 59)) (DMul (DC 15636629649360596 10000000000000000) (DV 91))) (DMul (DC 86776747823511624 100000000000000000) (DV 75)));
    SD 31 (DSub (DAdd (DMul (DC 86776747823511624 100000000000000000) (DV 59)) (DMul (DC 19498558243636472 10000000000000000) (DV 91))) (DMul (DC 15636629649360596 10000000000000000) (DV 75)));
    SI 27 (IMul (IC 28) (IV 0));
    ST 1 (IV 27) (DAdd (DAdd (DAdd (DV 4) (DMul (DC 2 1) (DV 58))) (DMul (DC 2 1) (DV 90))) (DMul (DC 2 1) (DV 74)));
    ST 1 (IAdd (IC 4) (IV 27)) (DSub (DV 26) (DV 29));
    ST 1 (IAdd (IC 24) (IV 27)) (DAdd (DV 26) (DV 29));
    ST 1 (IAdd (IC 20) (IV 27)) (DAdd (DV 27) (DV 30));
    ST 1 (IAdd (IC 8) (IV 27)) (DSub (DV 27) (DV 30));
    ST 1 (IAdd (IC 16) (IV 27)) (DAdd (DV 28) (DV 31));
    ST 1 (IAdd (IC 12) (IV 27)) (DSub (DV 28) (DV 31));
    SD 32 (DAdd (DSub (DSub (DMul (DC 1246979603717467 1000000000000000) (DV 10)) (DMul (DC 18019377358048383 10000000000000000) (DV 22))) (DMul (DC 44504186791262879 100000000000000000) (DV 16))) (DV 6));
    SD 33 (DAdd (DSub (DSub (DMul (DC 1246979603717467 1000000000000000) (DV 22)) (DMul (DC 44504186791262879 100000000000000000) (DV 10))) (DMul (DC 18019377358048383 10000000000000000) (DV 16))) (DV 6));
    SD 34 (DAdd (DSub (DMul (DC 1246979603717467 1000000000000000) (DV 16)) (DAdd (DMul (DC 18019377358048383 10000000000000000) (DV 10)) (DMul (DC 44504186791262879 100000000000000000) (DV 22)))) (DV 6));
    SD 35 (DAdd (DAdd (DMul (DC 15636629649360596 10000000000000000) (DV 11)) (DMul (DC 86776747823511624 100000000000000000) (DV 23))) (DMul (DC 19498558243636472 10000000000000000) (DV 17)));
    SD 36 (DSub (DSub (DMul (DC 19498558243636472 10000000000000000) (DV 11)) (DMul (DC 15636629649360596 10000000000000000) (DV 23))) (DMul (DC 86776747823511624 100000000000000000) (DV 17)));
    SD 37 (DSub (DAdd (DMul (DC 86776747823511624 100000000000000000) (DV 11)) (DMul (DC 19498558243636472 10000000000000000) (DV 23))) (DMul (DC 15636629649360596 10000000000000000) (DV 17)));
    ST 1 (IAdd (IC 1) (IV 27)) (DAdd (DAdd (DAdd (DMul (DC 2 1) (DV 10)) (DMul (DC 2 1) (DV 22))) (DMul (DC 2 1) (DV 16))) (DV 6));
    ST 1 (IAdd (IC 5) (IV 27)) (DSub (DV 32) (DV 35));
    ST 1 (IAdd (IC 25) (IV 27)) (DAdd (DV 32) (DV 35));
    ST 1 (IAdd (IC 21) (IV 27)) (DAdd (DV 33) (DV 36));
    ST 1 (IAdd (IC 9) (IV 27)) (DSub (DV 33) (DV 36));
    ST 1 (IAdd (IC 17) (IV 27)) (DAdd (DV 34) (DV 37));
    ST 1 (IAdd (IC 13) (IV 27)) (DSub (DV 34) (DV 37));
    SD 38 (DAdd (DSub (DSub (DMul (DC 1246979603717467 1000000000000000) (DV 8)) (DMul (DC 18019377358048383 10000000000000000) (DV 20))) (DMul (DC 44504186791262879 100000000000000000) (DV 14))) (DV 5));
    SD 39 (DAdd (DSub (DSub (DMul (DC 1246979603717467 1000000000000000) (DV 20)) (DMul (DC 44504186791262879 100000000000000000) (DV 8))) (DMul (DC 18019377358048383 10000000000000000) (DV 14))) (DV 5));
    SD 40 (DAdd (DSub (DMul (DC 1246979603717467 1000000000000000) (DV 14)) (DAdd (DMul (DC 18019377358048383 10000000000000000) (DV 8)) (DMul (DC 44504186791262879 100000000000000000) (DV 20)))) (DV 5));
    SD 41 (DAdd (DAdd (DMul (DC 15636629649360596 10000000000000000) (DV 9)) (DMul (DC 86776747823511624 100000000000000000) (DV 21))) (DMul (DC 19498558243636472 10000000000000000) (DV 15)));
    SD 42 (DSub (DSub (DMul (DC 19498558243636472 10000000000000000) (DV 9)) (DMul (DC 15636629649360596 10000000000000000) (DV 21))) (DMul (DC 86776747823511624 100000000000000000) (DV 15)));
    SD 43 (DSub (DAdd (DMul (DC 86776747823511624 100000000000000000) (DV 9)) (DMul (DC 19498558243636472 10000000000000000) (DV 21))) (DMul (DC 15636629649360596 10000000000000000) (DV 15)));
    ST 1 (IAdd (IC 2) (IV 27)) (DAdd (DAdd (DAdd (DMul (DC 2 1) (DV 8)) (DMul (DC 2 1) (DV 20))) (DMul (DC 2 1) (DV 14))) (DV 5));
    ST 1 (IAdd (IC 6) (IV 27)) (DSub (DV 38) (DV 41));
    ST 1 (IAdd (IC 26) (IV 27)) (DAdd (DV 38) (DV 41));
    ST 1 (IAdd (IC 22) (IV 27)) (DAdd (DV 39) (DV 42));
    ST 1 (IAdd (IC 10) (IV 27)) (DSub (DV 39) (DV 42));
    ST 1 (IAdd (IC 18) (IV 27)) (DAdd (DV 40) (DV 43));
    ST 1 (IAdd (IC 14) (IV 27)) (DSub (DV 40) (DV 43));
    SD 44 (DSub (DAdd (DAdd (DV 7) (DMul (DC 1246979603717467 1000000000000000) (DV 12))) (DMul (DC 18019377358048383 10000000000000000) (DV 24))) (DMul (DC 44504186791262879 100000000000000000) (DV 18)));
    SD 45 (DSub (DSub (DSub (DV 7) (DMul (DC 44504186791262879 100000000000000000) (DV 12))) (DMul (DC 1246979603717467 1000000000000000) (DV 24))) (DMul (DC 18019377358048383 10000000000000000) (DV 18)));
    SD 46 (DAdd (DAdd (DSub (DV 7) (DMul (DC 18019377358048383 10000000000000000) (DV 12))) (DMul (DC 44504186791262879 100000000000000000) (DV 24))) (DMul (DC 1246979603717467 1000000000000000) (DV 18)));
    SD 47 (DAdd (DAdd (DMul (DC 15636629649360596 10000000000000000) (DV 13)) (DMul (DC 86776747823511624 100000000000000000) (DV 25))) (DMul (DC 19498558243636472 10000000000000000) (DV 19)));
    SD 48 (DSub (DSub (DMul (DC 19498558243636472 10000000000000000) (DV 13)) (DMul (DC 15636629649360596 10000000000000000) (DV 25))) (DMul (DC 86776747823511624 100000000000000000) (DV 19)));
    SD 49 (DSub (DAdd (DMul (DC 86776747823511624 100000000000000000) (DV 13)) (DMul (DC 19498558243636472 10000000000000000) (DV 25))) (DMul (DC 15636629649360596 10000000000000000) (DV 19)));
    ST 1 (IAdd (IC 3) (IV 27)) (DAdd (DSub (DAdd (DV 7) (DMul (DC 2 1) (DV 12))) (DMul (DC 2 1) (DV 24))) (DMul (DC 2 1) (DV 18)));
    ST 1 (IAdd (IC 7) (IV 27)) (DSub (DV 44) (DV 47));
    ST 1 (IAdd (IC 27) (IV 27)) (DAdd (DV 44) (DV 47));
    ST 1 (IAdd (IC 23) (IV 27)) (DAdd (DV 45) (DV 48));
    ST 1 (IAdd (IC 11) (IV 27)) (DSub (DV 45) (DV 48));
    ST 1 (IAdd (IC 19) (IV 27)) (DAdd (DV 46) (DV 49));
    ST 1 (IAdd (IC 15) (IV 27)) (DSub (DV 46) (DV 49))].
Definition c2r_28 : codelet := {| cd_n := 28; cd_lens := []; cd_local := []; cd_init := c2r_28_init; cd_body := c2r_28_body |}.

(** third_party/fftx_codelets/lib_fftx_iprdftbat_cpu_srcs/fftx_iprdftbat_32_bat_72_APar_APar_CPU.cpp:8-207; the files for
    96, 120, 144, 168, 192, 216 transforms differ from it only in the names and in
    the bound of the loop over i1 (the transforms). *)
Definition c2r_32_init : stmt := block [
    SFor 1 1 (block [
      SFor 2 1 (block [
        ST 2 (IAdd (IMul (IC 8) (IV 1)) (IMul (IC 4) (IV 2))) (DCospi (IMul (IC 2) (IAdd (IMul (IC 2) (IV 2)) (IV 1))) 32);
        ST 2 (IAdd (IAdd (IC 1) (IMul (IC 8) (IV 1))) (IMul (IC 4) (IV 2))) (DSinpi (IMul (IC 2) (IAdd (IMul (IC 2) (IV 2)) (IV 1))) 32);
        ST 2 (IAdd (IAdd (IC 2) (IMul (IC 8) (IV 1))) (IMul (IC 4) (IV 2))) (DCospi (IMul (IC 2) (IAdd (IAdd (IC 4) (IMul (IC 2) (IV 2))) (IV 1))) 32);
        ST 2 (IAdd (IAdd (IC 3) (IMul (IC 8) (IV 1))) (IMul (IC 4) (IV 2))) (DSinpi (IMul (IC 2) (IAdd (IAdd (IC 4) (IMul (IC 2) (IV 2))) (IV 1))) 32)])])].
Definition c2r_32_body : stmt := block [
    SUndefD [0; 1; 2; 3; 4; 5; 6; 7; 8; 9; 10; 11; 12; 13; 14; 15; 16; 17; 18; 19; 20; 21; 22; 23; 24; 25; 26; 27; 28; 29; 30; 31; 32; 33; 34; 35; 36; 37; 38; 39; 40; 41; 42; 43; 44; 45; 46; 47; 48; 49; 50; 51; 52; 53; 54; 55; 56; 57; 58; 59; 60; 61; 62; 63; 64; 65; 66; 67; 68; 69; 70; 71; 72; 73; 74; 75; 76; 77; 78; 79];
    SUndefI [3; 4; 5; 6; 7; 8; 9; 10; 11; 12; 13; 14; 15; 16; 17; 18; 19; 20; 21; 22; 23; 24; 25; 26; 27; 28; 29; 30; 31; 32];
    SI 3 (IMul (IC 34) (IV 0));
    SI 4 (IAdd (IV 3) (IC 32));
    SD 8 (DAdd (DLd 0 (IV 3)) (DLd 0 (IV 4)));
    SD 9 (DSub (DLd 0 (IV 3)) (DLd 0 (IV 4)));
    SD 10 (DMul (DC 2 1) (DLd 0 (IAdd (IC 16) (IV 3))));
    SD 11 (DMul (DC 2 1) (DLd 0 (IAdd (IC 17) (IV 3))));
    SD 12 (DAdd (DV 8) (DV 10));
    SD 13 (DSub (DV 8) (DV 10));
    SD 14 (DSub (DV 9) (DV 11));
    SD 15 (DAdd (DV 9) (DV 11));
    SI 5 (IAdd (IV 3) (IC 8));
    SI 6 (IAdd (IV 3) (IC 9));
    SI 7 (IAdd (IV 3) (IC 24));
    SI 8 (IAdd (IV 3) (IC 25));
    SD 0 (DMul (DC 70710678118654757 100000000000000000) (DSub (DLd 0 (IV 5)) (DLd 0 (IV 7))));
    SD 1 (DMul (DC 70710678118654757 100000000000000000) (DAdd (DLd 0 (IV 6)) (DLd 0 (IV 8))));
    SD 16 (DMul (DC 2 1) (DAdd (DLd 0 (IV 5)) (DLd 0 (IV 7))));
    SD 17 (DMul (DC 2 1) (DSub (DLd 0 (IV 6)) (DLd 0 (IV 8))));
    SD 18 (DMul (DC 2 1) (DSub (DV 0) (DV 1)));
    SD 19 (DMul (DC 2 1) (DAdd (DV 0) (DV 1)));
    ST 3 (IC 0) (DAdd (DV 12) (DV 16));
    ST 3 (IC 24) (DSub (DV 12) (DV 16));
    ST 3 (IC 6) (DAdd (DV 14) (DV 18));
    ST 3 (IC 30) (DSub (DV 14) (DV 18));
    ST 3 (IC 12) (DSub (DV 13) (DV 17));
    ST 3 (IC 36) (DAdd (DV 13) (DV 17));
    ST 3 (IC 18) (DSub (DV 15) (DV 19));
    ST 3 (IC 42) (DAdd (DV 15) (DV 19));
    SI 9 (IAdd (IV 3) (IC 2));
    SI 10 (IAdd (IV 3) (IC 3));
    SI 11 (IAdd (IV 3) (IC 30));
    SI 12 (IAdd (IV 3) (IC 31));
    SD 24 (DAdd (DLd 0 (IV 9)) (DLd 0 (IV 11)));
    SD 25 (DSub (DLd 0 (IV 10)) (DLd 0 (IV 12)));
    SD 26 (DSub (DLd 0 (IV 9)) (DLd 0 (IV 11)));
    SD 27 (DAdd (DLd 0 (IV 10)) (DLd 0 (IV 12)));
    SI 13 (IAdd (IV 3) (IC 10));
    SI 14 (IAdd (IV 3) (IC 11));
    SI 15 (IAdd (IV 3) (IC 22));
    SI 16 (IAdd (IV 3) (IC 23));
    SD 28 (DAdd (DLd 0 (IV 13)) (DLd 0 (IV 15)));
    SD 29 (DSub (DLd 0 (IV 14)) (DLd 0 (IV 16)));
    SD 2 (DMul (DC 70710678118654757 100000000000000000) (DSub (DLd 0 (IV 13)) (DLd 0 (IV 15))));
    SD 3 (DMul (DC 70710678118654757 100000000000000000) (DAdd (DLd 0 (IV 14)) (DLd 0 (IV 16))));
    SD 20 (DSub (DV 2) (DV 3));
    SD 21 (DAdd (DV 2) (DV 3));
    SI 17 (IAdd (IV 3) (IC 18));
    SI 18 (IAdd (IV 3) (IC 19));
    SI 19 (IAdd (IV 3) (IC 14));
    SI 20 (IAdd (IV 3) (IC 15));
    SD 30 (DAdd (DLd 0 (IV 17)) (DLd 0 (IV 19)));
    SD 31 (DSub (DLd 0 (IV 18)) (DLd 0 (IV 20)));
    SD 32 (DSub (DLd 0 (IV 17)) (DLd 0 (IV 19)));
    SD 33 (DAdd (DLd 0 (IV 18)) (DLd 0 (IV 20)));
    SI 21 (IAdd (IV 3) (IC 26));
    SI 22 (IAdd (IV 3) (IC 27));
    SI 23 (IAdd (IV 3) (IC 6));
    SI 24 (IAdd (IV 3) (IC 7));
    SD 34 (DAdd (DLd 0 (IV 21)) (DLd 0 (IV 23)));
    SD 35 (DSub (DLd 0 (IV 22)) (DLd 0 (IV 24)));
    SD 4 (DMul (DC 70710678118654757 100000000000000000) (DSub (DLd 0 (IV 21)) (DLd 0 (IV 23))));
    SD 5 (DMul (DC 70710678118654757 100000000000000000) (DAdd (DLd 0 (IV 22)) (DLd 0 (IV 24))));
    SD 22 (DAdd (DV 4) (DV 5));
    SD 23 (DSub (DV 4) (DV 5));
    SD 36 (DAdd (DV 24) (DV 30));
    SD 37 (DAdd (DV 25) (DV 31));
    SD 38 (DSub (DV 24) (DV 30));
    SD 39 (DSub (DV 25) (DV 31));
    SD 40 (DAdd (DV 28) (DV 34));
    SD 41 (DAdd (DV 29) (DV 35));
    SD 42 (DSub (DV 28) (DV 34));
    SD 43 (DSub (DV 29) (DV 35));
    SD 44 (DAdd (DV 36) (DV 40));
    SD 45 (DAdd (DV 37) (DV 41));
    SD 46 (DSub (DV 36) (DV 40));
    SD 47 (DSub (DV 37) (DV 41));
    ST 3 (IC 2) (DSub (DMul (DLd 2 (IC 0)) (DV 44)) (DMul (DLd 2 (IC 1)) (DV 45)));
    ST 3 (IC 3) (DAdd (DMul (DLd 2 (IC 1)) (DV 44)) (DMul (DLd 2 (IC 0)) (DV 45)));
    ST 3 (IC 26) (DSub (DMul (DLd 2 (IC 2)) (DV 46)) (DMul (DLd 2 (IC 3)) (DV 47)));
    ST 3 (IC 27) (DAdd (DMul (DLd 2 (IC 3)) (DV 46)) (DMul (DLd 2 (IC 2)) (DV 47)));
    SD 48 (DSub (DV 38) (DV 43));
    SD 49 (DAdd (DV 39) (DV 42));
    SD 50 (DAdd (DV 38) (DV 43));
    SD 51 (DSub (DV 39) (DV 42));
    ST 3 (IC 14) (DSub (DMul (DLd 2 (IC 4)) (DV 48)) (DMul (DLd 2 (IC 5)) (DV 49)));
    ST 3 (IC 15) (DAdd (DMul (DLd 2 (IC 5)) (DV 48)) (DMul (DLd 2 (IC 4)) (DV 49)));
    ST 3 (IC 38) (DSub (DMul (DLd 2 (IC 6)) (DV 50)) (DMul (DLd 2 (IC 7)) (DV 51)));
    ST 3 (IC 39) (DAdd (DMul (DLd 2 (IC 7)) (DV 50)) (DMul (DLd 2 (IC 6)) (DV 51)));
    SD 52 (DSub (DV 26) (DV 33));
    SD 53 (DAdd (DV 27) (DV 32));
    SD 54 (DAdd (DV 26) (DV 33));
    SD 55 (DSub (DV 27) (DV 32));
    SD 56 (DSub (DV 20) (DV 22));
    SD 57 (DAdd (DV 21) (DV 23));
    SD 58 (DAdd (DV 20) (DV 22));
    SD 59 (DSub (DV 21) (DV 23));
    SD 60 (DAdd (DV 52) (DV 56));
    SD 61 (DAdd (DV 53) (DV 57));
    SD 62 (DSub (DV 52) (DV 56));
    SD 63 (DSub (DV 53) (DV 57));
    ST 3 (IC 8) (DSub (DMul (DLd 2 (IC 8)) (DV 60)) (DMul (DLd 2 (IC 9)) (DV 61)));
    ST 3 (IC 9) (DAdd (DMul (DLd 2 (IC 9)) (DV 60)) (DMul (DLd 2 (IC 8)) (DV 61)));
    ST 3 (IC 32) (DSub (DMul (DLd 2 (IC 10)) (DV 62)) (DMul (DLd 2 (IC 11)) (DV 63)));
    ST 3 (IC 33) (DAdd (DMul (DLd 2 (IC 11)) (DV 62)) (DMul (DLd 2 (IC 10)) (DV 63)));
    SD 64 (DSub (DV 54) (DV 59));
    SD 65 (DAdd (DV 55) (DV 58));
    SD 66 (DAdd (DV 54) (DV 59));
    SD 67 (DSub (DV 55) (DV 58));
    ST 3 (IC 20) (DSub (DMul (DLd 2 (IC 12)) (DV 64)) (DMul (DLd 2 (IC 13)) (DV 65)));
    ST 3 (IC 21) (DAdd (DMul (DLd 2 (IC 13)) (DV 64)) (DMul (DLd 2 (IC 12)) (DV 65)));
    ST 3 (IC 44) (DSub (DMul (DLd 2 (IC 14)) (DV 66)) (DMul (DLd 2 (IC 15)) (DV 67)));
    ST 3 (IC 45) (DAdd (DMul (DLd 2 (IC 15)) (DV 66)) (DMul (DLd 2 (IC 14)) (DV 67)));
    SI 25 (IAdd (IV 3) (IC 4));
    SI 26 (IAdd (IV 3) (IC 5));
    SI 27 (IAdd (IV 3) (IC 28));
    SI 28 (IAdd (IV 3) (IC 29));
    SD 68 (DAdd (DLd 0 (IV 25)) (DLd 0 (IV 27)));
    SD 69 (DSub (DLd 0 (IV 26)) (DLd 0 (IV 28)));
    SD 70 (DSub (DLd 0 (IV 25)) (DLd 0 (IV 27)));
    SD 71 (DAdd (DLd 0 (IV 26)) (DLd 0 (IV 28)));
    SI 29 (IAdd (IV 3) (IC 20));
    SI 30 (IAdd (IV 3) (IC 21));
    SI 31 (IAdd (IV 3) (IC 12));
    SI 32 (IAdd (IV 3) (IC 13));
    SD 72 (DAdd (DLd 0 (IV 29)) (DLd 0 (IV 31)));
    SD 73 (DSub (DLd 0 (IV 30)) (DLd 0 (IV 32)));
    SD 74 (DSub (DLd 0 (IV 29)) (DLd 0 (IV 31)));
    SD 75 (DAdd (DLd 0 (IV 30)) (DLd 0 (IV 32)));
    SD 6 (DMul (DC 70710678118654757 100000000000000000) (DSub (DV 68) (DV 72)));
    SD 7 (DMul (DC 70710678118654757 100000000000000000) (DSub (DV 69) (DV 73)));
    SD 76 (DSub (DV 70) (DV 75));
    SD 77 (DAdd (DV 71) (DV 74));
    SD 78 (DAdd (DV 70) (DV 75));
    SD 79 (DSub (DV 71) (DV 74));
    ST 3 (IC 4) (DMul (DC 2 1) (DAdd (DV 68) (DV 72)));
    ST 3 (IC 28) (DNeg (DMul (DC 2 1) (DAdd (DV 69) (DV 73))));
    ST 3 (IC 10) (DSub (DMul (DC 18477590650225735 10000000000000000) (DV 76)) (DMul (DC 76536686473017956 100000000000000000) (DV 77)));
    ST 3 (IC 34) (DNeg (DAdd (DMul (DC 76536686473017956 100000000000000000) (DV 76)) (DMul (DC 18477590650225735 10000000000000000) (DV 77))));
    ST 3 (IC 16) (DMul (DC 2 1) (DSub (DV 6) (DV 7)));
    ST 3 (IC 40) (DNeg (DMul (DC 2 1) (DAdd (DV 6) (DV 7))));
    ST 3 (IC 22) (DSub (DMul (DC 76536686473017956 100000000000000000) (DV 78)) (DMul (DC 18477590650225735 10000000000000000) (DV 79)));
    ST 3 (IC 46) (DNeg (DAdd (DMul (DC 18477590650225735 10000000000000000) (DV 78)) (DMul (DC 76536686473017956 100000000000000000) (DV 79))));
    SFor 36 7 (block [
      SUndefD [80; 81; 82; 83];
      SUndefI [33; 34; 35];
      SI 33 (IMul (IC 6) (IV 36));
      SI 34 (IAdd (IV 33) (IC 4));
      SD 80 (DAdd (DLd 3 (IV 33)) (DLd 3 (IV 34)));
      SD 81 (DSub (DLd 3 (IV 33)) (DLd 3 (IV 34)));
      SD 82 (DMul (DC 2 1) (DLd 3 (IAdd (IC 2) (IV 33))));
      SD 83 (DMul (DC 2 1) (DLd 3 (IAdd (IC 3) (IV 33))));
      SI 35 (IAdd (IMul (IC 32) (IV 0)) (IV 36));
      ST 1 (IV 35) (DAdd (DV 80) (DV 82));
      ST 1 (IAdd (IC 16) (IV 35)) (DSub (DV 80) (DV 82));
      ST 1 (IAdd (IC 8) (IV 35)) (DSub (DV 81) (DV 83));
      ST 1 (IAdd (IC 24) (IV 35)) (DAdd (DV 81) (DV 83))])].
Definition c2r_32 : codelet := {| cd_n := 32; cd_lens := [(2, 16); (3, 48)]; cd_local := [3]; cd_init := c2r_32_init; cd_body := c2r_32_body |}.

(** third_party/fftx_codelets/lib_fftx_iprdftbat_cpu_srcs/fftx_iprdftbat_36_bat_72_APar_APar_CPU.cpp:8-212; the files for
    96, 120, 144, 168, 192, 216 transforms differ from it only in the names and in
    the bound of the loop over i1 (the transforms). *)
Definition c2r_36_init : stmt := block [
    SFor 1 1 (block [
      SFor 2 1 (block [
        ST 2 (IAdd (IMul (IC 4) (IV 1)) (IMul (IC 2) (IV 2))) (DCospi (IMul (IC 2) (IMul (IAdd (IV 1) (IC 1)) (IV 2))) 36);
        ST 2 (IAdd (IAdd (IC 1) (IMul (IC 4) (IV 1))) (IMul (IC 2) (IV 2))) (DSinpi (IMul (IC 2) (IMul (IAdd (IV 1) (IC 1)) (IV 2))) 36)])]);
    SFor 1 1 (block [
      SFor 2 1 (block [
        ST 3 (IAdd (IMul (IC 8) (IV 1)) (IMul (IC 4) (IV 2))) (DCospi (IMul (IC 2) (IMul (IAdd (IV 1) (IC 1)) (IAdd (IC 2) (IV 2)))) 36);
        ST 3 (IAdd (IAdd (IC 1) (IMul (IC 8) (IV 1))) (IMul (IC 4) (IV 2))) (DSinpi (IMul (IC 2) (IMul (IAdd (IV 1) (IC 1)) (IAdd (IC 2) (IV 2)))) 36);
        ST 3 (IAdd (IAdd (IC 2) (IMul (IC 8) (IV 1))) (IMul (IC 4) (IV 2))) (DCospi (IMul (IC 2) (IMul (IAdd (IV 1) (IC 1)) (IAdd (IC 4) (IV 2)))) 36);
        ST 3 (IAdd (IAdd (IC 3) (IMul (IC 8) (IV 1))) (IMul (IC 4) (IV 2))) (DSinpi (IMul (IC 2) (IMul (IAdd (IV 1) (IC 1)) (IAdd (IC 4) (IV 2)))) 36)])])].
Definition c2r_36_body : stmt := block [
    SUndefD [0; 1; 2; 3; 4; 5; 6; 7; 8; 9];
    SUndefI [3; 4; 5; 6; 7; 8];
    SI 3 (IMul (IC 38) (IV 0));
    SI 4 (IAdd (IV 3) (IC 36));
    SD 0 (DAdd (DLd 0 (IV 3)) (DLd 0 (IV 4)));
    SD 1 (DSub (DLd 0 (IV 3)) (DLd 0 (IV 4)));
    SI 5 (IAdd (IV 3) (IC 12));
    SI 6 (IAdd (IV 3) (IC 13));
    SI 7 (IAdd (IV 3) (IC 24));
    SI 8 (IAdd (IV 3) (IC 25));
    SD 7 (DAdd (DLd 0 (IV 5)) (DLd 0 (IV 7)));
    SD 8 (DSub (DLd 0 (IV 5)) (DLd 0 (IV 7)));
    SD 9 (DAdd (DLd 0 (IV 6)) (DLd 0 (IV 8)));
    SD 2 (DSub (DMul (DC 5 10) (DV 8)) (DMul (DC 8660254037844386 10000000000000000) (DV 9)));
    SD 3 (DSub (DV 0) (DV 7));
    SD 4 (DMul (DC 17320508075688772 10000000000000000) (DSub (DLd 0 (IV 6)) (DLd 0 (IV 8))));
    ST 4 (IC 0) (DAdd (DV 0) (DMul (DC 2 1) (DV 7)));
    ST 4 (IC 16) (DSub (DV 3) (DV 4));
    ST 4 (IC 32) (DAdd (DV 3) (DV 4));
    SD 5 (DSub (DV 1) (DV 2));
    SD 6 (DAdd (DMul (DC 14999999999999998 10000000000000000) (DV 8)) (DMul (DC 8660254037844386 10000000000000000) (DV 9)));
    ST 4 (IC 8) (DAdd (DV 1) (DMul (DC 2 1) (DV 2)));
    ST 4 (IC 24) (DSub (DV 5) (DV 6));
    ST 4 (IC 40) (DAdd (DV 5) (DV 6));
    SFor 1 1 (block [
      SUndefD [10; 11; 12; 13; 14; 15; 16; 17; 18; 19; 20; 21; 22; 23; 24; 25; 26; 27; 28; 29; 30; 31; 32; 33; 34; 35; 36; 37; 38; 39; 40; 41; 42; 43; 44; 45; 46; 47; 48; 49];
      SUndefI [9; 10; 11; 12; 13; 14; 15; 16; 17; 18; 19; 20; 21; 22; 23; 24; 25; 26; 27; 28; 29; 30; 31; 32; 33; 34; 35; 36];
      SI 9 (IMul (IC 38) (IV 0));
      SI 10 (IMul (IC 2) (IV 1));
      SI 35 (IAdd (IV 9) (IV 10));
      SI 11 (IAdd (IV 35) (IC 2));
      SI 12 (IAdd (IV 35) (IC 3));
      SI 36 (ISub (IV 9) (IV 10));
      SI 13 (IAdd (IV 36) (IC 34));
      SI 14 (IAdd (IV 36) (IC 35));
      SD 26 (DAdd (DLd 0 (IV 11)) (DLd 0 (IV 13)));
      SD 27 (DSub (DLd 0 (IV 12)) (DLd 0 (IV 14)));
      SD 28 (DSub (DLd 0 (IV 11)) (DLd 0 (IV 13)));
      SD 29 (DAdd (DLd 0 (IV 12)) (DLd 0 (IV 14)));
      SI 15 (IAdd (IV 35) (IC 14));
      SI 16 (IAdd (IV 35) (IC 15));
      SI 17 (IAdd (IV 36) (IC 22));
      SI 18 (IAdd (IV 36) (IC 23));
      SD 30 (DAdd (DLd 0 (IV 15)) (DLd 0 (IV 17)));
      SD 31 (DSub (DLd 0 (IV 16)) (DLd 0 (IV 18)));
      SD 32 (DSub (DLd 0 (IV 15)) (DLd 0 (IV 17)));
      SD 33 (DAdd (DLd 0 (IV 16)) (DLd 0 (IV 18)));
      SD 10 (DSub (DMul (DC 5 10) (DV 32)) (DMul (DC 8660254037844386 10000000000000000) (DV 33)));
      SD 11 (DAdd (DMul (DC 8660254037844386 10000000000000000) (DV 32)) (DMul (DC 5 10) (DV 33)));
      SI 19 (IAdd (IV 35) (IC 26));
      SI 20 (IAdd (IV 35) (IC 27));
      SI 21 (IAdd (IV 36) (IC 10));
      SI 22 (IAdd (IV 36) (IC 11));
      SD 34 (DAdd (DLd 0 (IV 19)) (DLd 0 (IV 21)));
      SD 35 (DSub (DLd 0 (IV 20)) (DLd 0 (IV 22)));
      SD 36 (DSub (DLd 0 (IV 19)) (DLd 0 (IV 21)));
      SD 37 (DAdd (DLd 0 (IV 20)) (DLd 0 (IV 22)));
      SD 12 (DAdd (DMul (DC 5 10) (DV 36)) (DMul (DC 8660254037844386 10000000000000000) (DV 37)));
      SD 13 (DSub (DMul (DC 8660254037844386 10000000000000000) (DV 36)) (DMul (DC 5 10) (DV 37)));
      SD 38 (DAdd (DV 30) (DV 34));
      SD 39 (DAdd (DV 31) (DV 35));
      SD 14 (DAdd (DV 26) (DV 38));
      SD 15 (DAdd (DV 27) (DV 39));
      SD 16 (DSub (DV 26) (DMul (DC 5 10) (DV 38)));
      SD 17 (DSub (DV 27) (DMul (DC 5 10) (DV 39)));
      SD 18 (DMul (DC 8660254037844386 10000000000000000) (DSub (DV 31) (DV 35)));
      SD 19 (DMul (DC 8660254037844386 10000000000000000) (DSub (DV 30) (DV 34)));
      SI 23 (IMul (IC 4) (IV 1));
      SI 24 (IAdd (IV 23) (IC 1));
      ST 4 (IAdd (IC 2) (IV 10)) (DSub (DMul (DLd 2 (IV 23)) (DV 14)) (DMul (DLd 2 (IV 24)) (DV 15)));
      ST 4 (IAdd (IC 3) (IV 10)) (DAdd (DMul (DLd 2 (IV 24)) (DV 14)) (DMul (DLd 2 (IV 23)) (DV 15)));
      SD 40 (DSub (DV 16) (DV 18));
      SD 41 (DAdd (DV 17) (DV 19));
      SD 42 (DAdd (DV 16) (DV 18));
      SD 43 (DSub (DV 17) (DV 19));
      SI 25 (IMul (IC 8) (IV 1));
      SI 26 (IAdd (IV 25) (IC 1));
      SI 27 (IAdd (IV 25) (IC 2));
      SI 28 (IAdd (IV 25) (IC 3));
      ST 4 (IAdd (IC 18) (IV 10)) (DSub (DMul (DLd 3 (IV 25)) (DV 40)) (DMul (DLd 3 (IV 26)) (DV 41)));
      ST 4 (IAdd (IC 19) (IV 10)) (DAdd (DMul (DLd 3 (IV 26)) (DV 40)) (DMul (DLd 3 (IV 25)) (DV 41)));
      ST 4 (IAdd (IC 34) (IV 10)) (DSub (DMul (DLd 3 (IV 27)) (DV 42)) (DMul (DLd 3 (IV 28)) (DV 43)));
      ST 4 (IAdd (IC 35) (IV 10)) (DAdd (DMul (DLd 3 (IV 28)) (DV 42)) (DMul (DLd 3 (IV 27)) (DV 43)));
      SD 44 (DSub (DV 10) (DV 12));
      SD 45 (DAdd (DV 11) (DV 13));
      SD 20 (DAdd (DV 28) (DV 44));
      SD 21 (DAdd (DV 29) (DV 45));
      SD 22 (DSub (DV 28) (DMul (DC 5 10) (DV 44)));
      SD 23 (DSub (DV 29) (DMul (DC 5 10) (DV 45)));
      SD 24 (DMul (DC 8660254037844386 10000000000000000) (DSub (DV 11) (DV 13)));
      SD 25 (DMul (DC 8660254037844386 10000000000000000) (DAdd (DV 10) (DV 12)));
      SI 29 (IAdd (IV 23) (IC 2));
      SI 30 (IAdd (IV 23) (IC 3));
      ST 4 (IAdd (IC 10) (IV 10)) (DSub (DMul (DLd 2 (IV 29)) (DV 20)) (DMul (DLd 2 (IV 30)) (DV 21)));
      ST 4 (IAdd (IC 11) (IV 10)) (DAdd (DMul (DLd 2 (IV 30)) (DV 20)) (DMul (DLd 2 (IV 29)) (DV 21)));
      SD 46 (DSub (DV 22) (DV 24));
      SD 47 (DAdd (DV 23) (DV 25));
      SD 48 (DAdd (DV 22) (DV 24));
      SD 49 (DSub (DV 23) (DV 25));
      SI 31 (IAdd (IV 25) (IC 4));
      SI 32 (IAdd (IV 25) (IC 5));
      SI 33 (IAdd (IV 25) (IC 6));
      SI 34 (IAdd (IV 25) (IC 7));
      ST 4 (IAdd (IC 26) (IV 10)) (DSub (DMul (DLd 3 (IV 31)) (DV 46)) (DMul (DLd 3 (IV 32)) (DV 47)));
      ST 4 (IAdd (IC 27) (IV 10)) (DAdd (DMul (DLd 3 (IV 32)) (DV 46)) (DMul (DLd 3 (IV 31)) (DV 47)));
      ST 4 (IAdd (IC 42) (IV 10)) (DSub (DMul (DLd 3 (IV 33)) (DV 48)) (DMul (DLd 3 (IV 34)) (DV 49)));
      ST 4 (IAdd (IC 43) (IV 10)) (DAdd (DMul (DLd 3 (IV 34)) (DV 48)) (DMul (DLd 3 (IV 33)) (DV 49)))]);
    SUndefD [50; 51; 52; 53; 54; 55; 56; 57; 58; 59];
    SUndefI [37; 38; 39; 40; 41; 42; 43];
    SI 37 (IMul (IC 38) (IV 0));
    SI 38 (IAdd (IV 37) (IC 6));
    SI 39 (IAdd (IV 37) (IC 7));
    SI 40 (IAdd (IV 37) (IC 30));
    SI 41 (IAdd (IV 37) (IC 31));
    SI 42 (IAdd (IV 37) (IC 18));
    SI 43 (IAdd (IV 37) (IC 19));
    SD 54 (DAdd (DLd 0 (IV 40)) (DLd 0 (IV 42)));
    SD 55 (DSub (DLd 0 (IV 41)) (DLd 0 (IV 43)));
    SD 50 (DSub (DLd 0 (IV 38)) (DMul (DC 5 10) (DV 54)));
    SD 51 (DSub (DLd 0 (IV 39)) (DMul (DC 5 10) (DV 55)));
    SD 52 (DMul (DC 8660254037844386 10000000000000000) (DAdd (DLd 0 (IV 41)) (DLd 0 (IV 43))));
    SD 53 (DMul (DC 8660254037844386 10000000000000000) (DSub (DLd 0 (IV 40)) (DLd 0 (IV 42))));
    SD 56 (DSub (DV 50) (DV 52));
    SD 57 (DAdd (DV 51) (DV 53));
    SD 58 (DAdd (DV 50) (DV 52));
    SD 59 (DSub (DV 51) (DV 53));
    ST 4 (IC 6) (DMul (DC 2 1) (DAdd (DLd 0 (IV 38)) (DV 54)));
    ST 4 (IC 30) (DNeg (DMul (DC 2 1) (DAdd (DLd 0 (IV 39)) (DV 55))));
    ST 4 (IC 14) (DSub (DMul (DC 17320508075688772 10000000000000000) (DV 56)) (DV 57));
    ST 4 (IC 38) (DNeg (DAdd (DV 56) (DMul (DC 17320508075688772 10000000000000000) (DV 57))));
    ST 4 (IC 22) (DSub (DV 58) (DMul (DC 17320508075688772 10000000000000000) (DV 59)));
    ST 4 (IC 46) (DNeg (DAdd (DMul (DC 17320508075688772 10000000000000000) (DV 58)) (DV 59)));
    SFor 51 5 (block [
      SUndefD [60; 61; 62; 63; 64; 65; 66; 67; 68; 69];
      SUndefI [44; 45; 46; 47; 48; 49; 50];
      SI 44 (IMul (IC 8) (IV 51));
      SI 45 (IAdd (IV 44) (IC 6));
      SD 60 (DAdd (DLd 4 (IV 44)) (DLd 4 (IV 45)));
      SD 61 (DSub (DLd 4 (IV 44)) (DLd 4 (IV 45)));
      SI 46 (IAdd (IV 44) (IC 2));
      SI 47 (IAdd (IV 44) (IC 3));
      SI 48 (IAdd (IV 44) (IC 4));
      SI 49 (IAdd (IV 44) (IC 5));
      SD 67 (DAdd (DLd 4 (IV 46)) (DLd 4 (IV 48)));
      SD 68 (DSub (DLd 4 (IV 46)) (DLd 4 (IV 48)));
      SD 69 (DAdd (DLd 4 (IV 47)) (DLd 4 (IV 49)));
      SD 62 (DSub (DMul (DC 5 10) (DV 68)) (DMul (DC 8660254037844386 10000000000000000) (DV 69)));
      SD 63 (DSub (DV 60) (DV 67));
      SD 64 (DMul (DC 17320508075688772 10000000000000000) (DSub (DLd 4 (IV 47)) (DLd 4 (IV 49))));
      SI 50 (IAdd (IMul (IC 36) (IV 0)) (IV 51));
      ST 1 (IV 50) (DAdd (DV 60) (DMul (DC 2 1) (DV 67)));
      ST 1 (IAdd (IC 12) (IV 50)) (DSub (DV 63) (DV 64));
      ST 1 (IAdd (IC 24) (IV 50)) (DAdd (DV 63) (DV 64));
      SD 65 (DSub (DV 61) (DV 62));
      SD 66 (DAdd (DMul (DC 14999999999999998 10000000000000000) (DV 68)) (DMul (DC 8660254037844386 10000000000000000) (DV 69)));
      ST 1 (IAdd (IC 6) (IV 50)) (DAdd (DV 61) (DMul (DC 2 1) (DV 62)));
      ST 1 (IAdd (IC 18) (IV 50)) (DSub (DV 65) (DV 66));
      ST 1 (IAdd (IC 30) (IV 50)) (DAdd (DV 65) (DV 66))])].
Definition c2r_36 : codelet := {| cd_n := 36; cd_lens := [(2, 8); (3, 16); (4, 48)]; cd_local := [4]; cd_init := c2r_36_init; cd_body := c2r_36_body |}.

(** third_party/fftx_codelets/lib_fftx_iprdftbat_cpu_srcs/fftx_iprdftbat_40_bat_72_APar_APar_CPU.cpp:8-211; the files for
    96, 120, 144, 168, 192, 216 transforms differ from it only in the names and in
    the bound of the loop over i1 (the transforms). *)
Definition c2r_40_init : stmt := block [
    SFor 1 1 (block [
      SFor 2 1 (block [
        SFor 3 1 (block [
          ST 2 (IAdd (IAdd (IMul (IC 16) (IV 1)) (IMul (IC 8) (IV 2))) (IMul (IC 4) (IV 3))) (DCospi (IMul (IC 2) (IMul (IAdd (IV 1) (IC 1)) (IAdd (IMul (IC 2) (IV 3)) (IV 2)))) 40);
          ST 2 (IAdd (IAdd (IAdd (IC 1) (IMul (IC 16) (IV 1))) (IMul (IC 8) (IV 2))) (IMul (IC 4) (IV 3))) (DSinpi (IMul (IC 2) (IMul (IAdd (IV 1) (IC 1)) (IAdd (IMul (IC 2) (IV 3)) (IV 2)))) 40);
          ST 2 (IAdd (IAdd (IAdd (IC 2) (IMul (IC 16) (IV 1))) (IMul (IC 8) (IV 2))) (IMul (IC 4) (IV 3))) (DCospi (IMul (IC 2) (IMul (IAdd (IV 1) (IC 1)) (IAdd (IAdd (IC 4) (IMul (IC 2) (IV 3))) (IV 2)))) 40);
          ST 2 (IAdd (IAdd (IAdd (IC 3) (IMul (IC 16) (IV 1))) (IMul (IC 8) (IV 2))) (IMul (IC 4) (IV 3))) (DSinpi (IMul (IC 2) (IMul (IAdd (IV 1) (IC 1)) (IAdd (IAdd (IC 4) (IMul (IC 2) (IV 3))) (IV 2)))) 40)])])])].
Definition c2r_40_body : stmt := block [
    SUndefD [0; 1; 2; 3; 4; 5; 6; 7; 8; 9; 10; 11; 12; 13];
    SUndefI [4; 5; 6; 7; 8; 9];
    SI 4 (IMul (IC 42) (IV 0));
    SI 5 (IAdd (IV 4) (IC 40));
    SD 2 (DAdd (DLd 0 (IV 4)) (DLd 0 (IV 5)));
    SD 3 (DSub (DLd 0 (IV 4)) (DLd 0 (IV 5)));
    SD 4 (DMul (DC 2 1) (DLd 0 (IAdd (IC 20) (IV 4))));
    SD 5 (DMul (DC 2 1) (DLd 0 (IAdd (IC 21) (IV 4))));
    SD 6 (DAdd (DV 2) (DV 4));
    SD 7 (DSub (DV 2) (DV 4));
    SD 8 (DSub (DV 3) (DV 5));
    SD 9 (DAdd (DV 3) (DV 5));
    SI 6 (IAdd (IV 4) (IC 10));
    SI 7 (IAdd (IV 4) (IC 11));
    SI 8 (IAdd (IV 4) (IC 30));
    SI 9 (IAdd (IV 4) (IC 31));
    SD 0 (DMul (DC 70710678118654757 100000000000000000) (DSub (DLd 0 (IV 6)) (DLd 0 (IV 8))));
    SD 1 (DMul (DC 70710678118654757 100000000000000000) (DAdd (DLd 0 (IV 7)) (DLd 0 (IV 9))));
    SD 10 (DMul (DC 2 1) (DAdd (DLd 0 (IV 6)) (DLd 0 (IV 8))));
    SD 11 (DMul (DC 2 1) (DSub (DLd 0 (IV 7)) (DLd 0 (IV 9))));
    SD 12 (DMul (DC 2 1) (DSub (DV 0) (DV 1)));
    SD 13 (DMul (DC 2 1) (DAdd (DV 0) (DV 1)));
    ST 3 (IC 0) (DAdd (DV 6) (DV 10));
    ST 3 (IC 24) (DSub (DV 6) (DV 10));
    ST 3 (IC 6) (DAdd (DV 8) (DV 12));
    ST 3 (IC 30) (DSub (DV 8) (DV 12));
    ST 3 (IC 12) (DSub (DV 7) (DV 11));
    ST 3 (IC 36) (DAdd (DV 7) (DV 11));
    ST 3 (IC 18) (DSub (DV 9) (DV 13));
    ST 3 (IC 42) (DAdd (DV 9) (DV 13));
    SFor 1 1 (block [
      SUndefD [14; 15; 16; 17; 18; 19; 20; 21; 22; 23; 24; 25; 26; 27; 28; 29; 30; 31; 32; 33; 34; 35; 36; 37; 38; 39; 40; 41; 42; 43; 44; 45; 46; 47; 48; 49; 50; 51; 52; 53; 54; 55; 56; 57; 58; 59; 60; 61; 62; 63; 64; 65];
      SUndefI [10; 11; 12; 13; 14; 15; 16; 17; 18; 19; 20; 21; 22; 23; 24; 25; 26; 27; 28; 29; 30; 31; 32; 33; 34; 35; 36; 37; 38; 39; 40; 41; 42; 43; 44; 45];
      SI 10 (IMul (IC 42) (IV 0));
      SI 11 (IMul (IC 2) (IV 1));
      SI 44 (IAdd (IV 10) (IV 11));
      SI 12 (IAdd (IV 44) (IC 2));
      SI 13 (IAdd (IV 44) (IC 3));
      SI 45 (ISub (IV 10) (IV 11));
      SI 14 (IAdd (IV 45) (IC 38));
      SI 15 (IAdd (IV 45) (IC 39));
      SD 22 (DAdd (DLd 0 (IV 12)) (DLd 0 (IV 14)));
      SD 23 (DSub (DLd 0 (IV 13)) (DLd 0 (IV 15)));
      SD 24 (DSub (DLd 0 (IV 12)) (DLd 0 (IV 14)));
      SD 25 (DAdd (DLd 0 (IV 13)) (DLd 0 (IV 15)));
      SI 16 (IAdd (IV 44) (IC 12));
      SI 17 (IAdd (IV 44) (IC 13));
      SI 18 (IAdd (IV 45) (IC 28));
      SI 19 (IAdd (IV 45) (IC 29));
      SD 26 (DAdd (DLd 0 (IV 16)) (DLd 0 (IV 18)));
      SD 27 (DSub (DLd 0 (IV 17)) (DLd 0 (IV 19)));
      SD 14 (DMul (DC 70710678118654757 100000000000000000) (DSub (DLd 0 (IV 16)) (DLd 0 (IV 18))));
      SD 15 (DMul (DC 70710678118654757 100000000000000000) (DAdd (DLd 0 (IV 17)) (DLd 0 (IV 19))));
      SD 18 (DSub (DV 14) (DV 15));
      SD 19 (DAdd (DV 14) (DV 15));
      SI 20 (IAdd (IV 44) (IC 22));
      SI 21 (IAdd (IV 44) (IC 23));
      SI 22 (IAdd (IV 45) (IC 18));
      SI 23 (IAdd (IV 45) (IC 19));
      SD 28 (DAdd (DLd 0 (IV 20)) (DLd 0 (IV 22)));
      SD 29 (DSub (DLd 0 (IV 21)) (DLd 0 (IV 23)));
      SD 30 (DSub (DLd 0 (IV 20)) (DLd 0 (IV 22)));
      SD 31 (DAdd (DLd 0 (IV 21)) (DLd 0 (IV 23)));
      SI 24 (IAdd (IV 44) (IC 32));
      SI 25 (IAdd (IV 44) (IC 33));
      SI 26 (IAdd (IV 45) (IC 8));
      SI 27 (IAdd (IV 45) (IC 9));
      SD 32 (DAdd (DLd 0 (IV 24)) (DLd 0 (IV 26)));
      SD 33 (DSub (DLd 0 (IV 25)) (DLd 0 (IV 27)));
      SD 16 (DMul (DC 70710678118654757 100000000000000000) (DSub (DLd 0 (IV 24)) (DLd 0 (IV 26))));
      SD 17 (DMul (DC 70710678118654757 100000000000000000) (DAdd (DLd 0 (IV 25)) (DLd 0 (IV 27))));
      SD 20 (DAdd (DV 16) (DV 17));
      SD 21 (DSub (DV 16) (DV 17));
      SD 34 (DAdd (DV 22) (DV 28));
      SD 35 (DAdd (DV 23) (DV 29));
      SD 36 (DSub (DV 22) (DV 28));
      SD 37 (DSub (DV 23) (DV 29));
      SD 38 (DAdd (DV 26) (DV 32));
      SD 39 (DAdd (DV 27) (DV 33));
      SD 40 (DSub (DV 26) (DV 32));
      SD 41 (DSub (DV 27) (DV 33));
      SD 42 (DAdd (DV 34) (DV 38));
      SD 43 (DAdd (DV 35) (DV 39));
      SD 44 (DSub (DV 34) (DV 38));
      SD 45 (DSub (DV 35) (DV 39));
      SI 28 (IMul (IC 16) (IV 1));
      SI 29 (IAdd (IV 28) (IC 1));
      SI 30 (IAdd (IV 28) (IC 2));
      SI 31 (IAdd (IV 28) (IC 3));
      ST 3 (IAdd (IC 2) (IV 11)) (DSub (DMul (DLd 2 (IV 28)) (DV 42)) (DMul (DLd 2 (IV 29)) (DV 43)));
      ST 3 (IAdd (IC 3) (IV 11)) (DAdd (DMul (DLd 2 (IV 29)) (DV 42)) (DMul (DLd 2 (IV 28)) (DV 43)));
      ST 3 (IAdd (IC 26) (IV 11)) (DSub (DMul (DLd 2 (IV 30)) (DV 44)) (DMul (DLd 2 (IV 31)) (DV 45)));
      ST 3 (IAdd (IC 27) (IV 11)) (DAdd (DMul (DLd 2 (IV 31)) (DV 44)) (DMul (DLd 2 (IV 30)) (DV 45)));
      SD 46 (DSub (DV 36) (DV 41));
      SD 47 (DAdd (DV 37) (DV 40));
      SD 48 (DAdd (DV 36) (DV 41));
      SD 49 (DSub (DV 37) (DV 40));
      SI 32 (IAdd (IV 28) (IC 4));
      SI 33 (IAdd (IV 28) (IC 5));
      SI 34 (IAdd (IV 28) (IC 6));
      SI 35 (IAdd (IV 28) (IC 7));
      ST 3 (IAdd (IC 14) (IV 11)) (DSub (DMul (DLd 2 (IV 32)) (DV 46)) (DMul (DLd 2 (IV 33)) (DV 47)));
      ST 3 (IAdd (IC 15) (IV 11)) (DAdd (DMul (DLd 2 (IV 33)) (DV 46)) (DMul (DLd 2 (IV 32)) (DV 47)));
      ST 3 (IAdd (IC 38) (IV 11)) (DSub (DMul (DLd 2 (IV 34)) (DV 48)) (DMul (DLd 2 (IV 35)) (DV 49)));
      ST 3 (IAdd (IC 39) (IV 11)) (DAdd (DMul (DLd 2 (IV 35)) (DV 48)) (DMul (DLd 2 (IV 34)) (DV 49)));
      SD 50 (DSub (DV 24) (DV 31));
      SD 51 (DAdd (DV 25) (DV 30));
      SD 52 (DAdd (DV 24) (DV 31));
      SD 53 (DSub (DV 25) (DV 30));
      SD 54 (DSub (DV 18) (DV 20));
      SD 55 (DAdd (DV 19) (DV 21));
      SD 56 (DAdd (DV 18) (DV 20));
      SD 57 (DSub (DV 19) (DV 21));
      SD 58 (DAdd (DV 50) (DV 54));
      SD 59 (DAdd (DV 51) (DV 55));
      SD 60 (DSub (DV 50) (DV 54));
      SD 61 (DSub (DV 51) (DV 55));
      SI 36 (IAdd (IV 28) (IC 8));
      SI 37 (IAdd (IV 28) (IC 9));
      SI 38 (IAdd (IV 28) (IC 10));
      SI 39 (IAdd (IV 28) (IC 11));
      ST 3 (IAdd (IC 8) (IV 11)) (DSub (DMul (DLd 2 (IV 36)) (DV 58)) (DMul (DLd 2 (IV 37)) (DV 59)));
      ST 3 (IAdd (IC 9) (IV 11)) (DAdd (DMul (DLd 2 (IV 37)) (DV 58)) (DMul (DLd 2 (IV 36)) (DV 59)));
      ST 3 (IAdd (IC 32) (IV 11)) (DSub (DMul (DLd 2 (IV 38)) (DV 60)) (DMul (DLd 2 (IV 39)) (DV 61)));
      ST 3 (IAdd (IC 33) (IV 11)) (DAdd (DMul (DLd 2 (IV 39)) (DV 60)) (DMul (DLd 2 (IV 38)) (DV 61)));
      SD 62 (DSub (DV 52) (DV 57));
      SD 63 (DAdd (DV 53) (DV 56));
      SD 64 (DAdd (DV 52) (DV 57));
      SD 65 (DSub (DV 53) (DV 56));
      SI 40 (IAdd (IV 28) (IC 12));
      SI 41 (IAdd (IV 28) (IC 13));
      SI 42 (IAdd (IV 28) (IC 14));
      SI 43 (IAdd (IV 28) (IC 15));
      ST 3 (IAdd (IC 20) (IV 11)) (DSub (DMul (DLd 2 (IV 40)) (DV 62)) (DMul (DLd 2 (IV 41)) (DV 63)));
      ST 3 (IAdd (IC 21) (IV 11)) (DAdd (DMul (DLd 2 (IV 41)) (DV 62)) (DMul (DLd 2 (IV 40)) (DV 63)));
      ST 3 (IAdd (IC 44) (IV 11)) (DSub (DMul (DLd 2 (IV 42)) (DV 64)) (DMul (DLd 2 (IV 43)) (DV 65)));
      ST 3 (IAdd (IC 45) (IV 11)) (DAdd (DMul (DLd 2 (IV 43)) (DV 64)) (DMul (DLd 2 (IV 42)) (DV 65)))]);
    SFor 52 7 (block [
      SUndefD [66; 67; 68; 69];
      SUndefI [46; 47; 48; 49; 50; 51];
      SI 46 (IMul (IC 6) (IV 52));
      SI 47 (IAdd (IV 46) (IC 2));
      SI 48 (IAdd (IV 46) (IC 3));
      SI 49 (IAdd (IV 46) (IC 4));
      SI 50 (IAdd (IV 46) (IC 5));
      SD 66 (DAdd (DSub (DMul (DC 61803398874989479 100000000000000000) (DLd 3 (IV 47))) (DMul (DC 16180339887498949 10000000000000000) (DLd 3 (IV 49)))) (DLd 3 (IV 46)));
      SD 67 (DAdd (DSub (DMul (DC 61803398874989479 100000000000000000) (DLd 3 (IV 49))) (DMul (DC 16180339887498949 10000000000000000) (DLd 3 (IV 47)))) (DLd 3 (IV 46)));
      SD 68 (DAdd (DMul (DC 19021130325903071 10000000000000000) (DLd 3 (IV 48))) (DMul (DC 11755705045849463 10000000000000000) (DLd 3 (IV 50))));
      SD 69 (DSub (DMul (DC 11755705045849463 10000000000000000) (DLd 3 (IV 48))) (DMul (DC 19021130325903071 10000000000000000) (DLd 3 (IV 50))));
      SI 51 (IAdd (IMul (IC 40) (IV 0)) (IV 52));
      ST 1 (IV 51) (DAdd (DAdd (DMul (DC 2 1) (DLd 3 (IV 47))) (DMul (DC 2 1) (DLd 3 (IV 49)))) (DLd 3 (IV 46)));
      ST 1 (IAdd (IC 8) (IV 51)) (DSub (DV 66) (DV 68));
      ST 1 (IAdd (IC 32) (IV 51)) (DAdd (DV 66) (DV 68));
      ST 1 (IAdd (IC 24) (IV 51)) (DAdd (DV 67) (DV 69));
      ST 1 (IAdd (IC 16) (IV 51)) (DSub (DV 67) (DV 69))])].
Definition c2r_40 : codelet := {| cd_n := 40; cd_lens := [(2, 32); (3, 48)]; cd_local := [3]; cd_init := c2r_40_init; cd_body := c2r_40_body |}.

(** third_party/fftx_codelets/lib_fftx_prdftbat_cpu_srcs/fftx_prdftbat_cpu_decls.h:729-742 (without the closing zero entry). *)
Definition r2c_sizes : list (Z * Z * Z * Z) := [(16, 72, 0, 0); (16, 96, 0, 0); (16, 120, 0, 0); (16, 144, 0, 0); (16, 168, 0, 0); (16, 192, 0, 0); (16, 216, 0, 0); (20, 72, 0, 0); (20, 96, 0, 0); (20, 120, 0, 0); (20, 144, 0, 0); (20, 168, 0, 0); (20, 192, 0, 0); (20, 216, 0, 0); (24, 72, 0, 0); (24, 96, 0, 0); (24, 120, 0, 0); (24, 144, 0, 0); (24, 168, 0, 0); (24, 192, 0, 0); (24, 216, 0, 0); (28, 72, 0, 0); (28, 96, 0, 0); (28, 120, 0, 0); (28, 144, 0, 0); (28, 168, 0, 0); (28, 192, 0, 0); (28, 216, 0, 0); (32, 72, 0, 0); (32, 96, 0, 0); (32, 120, 0, 0); (32, 144, 0, 0); (32, 168, 0, 0); (32, 192, 0, 0); (32, 216, 0, 0); (36, 72, 0, 0); (36, 96, 0, 0); (36, 120, 0, 0); (36, 144, 0, 0); (36, 168, 0, 0); (36, 192, 0, 0); (36, 216, 0, 0); (40, 72, 0, 0); (40, 96, 0, 0); (40, 120, 0, 0); (40, 144, 0, 0); (40, 168, 0, 0); (40, 192, 0, 0); (40, 216, 0, 0)].

(** third_party/fftx_codelets/lib_fftx_prdftbat_cpu_srcs/fftx_prdftbat_cpu_decls.h:576-728: routine and bound of its outer loop plus one. *)
Definition r2c_tuples : list (codelet * Z) := [(r2c_16, 72); (r2c_16, 96); (r2c_16, 120); (r2c_16, 144); (r2c_16, 168); (r2c_16, 192); (r2c_16, 216); (r2c_20, 72); (r2c_20, 96); (r2c_20, 120); (r2c_20, 144); (r2c_20, 168); (r2c_20, 192); (r2c_20, 216); (r2c_24, 72); (r2c_24, 96); (r2c_24, 120); (r2c_24, 144); (r2c_24, 168); (r2c_24, 192); (r2c_24, 216); (r2c_28, 72); (r2c_28, 96); (r2c_28, 120); (r2c_28, 144); (r2c_28, 168); (r2c_28, 192); (r2c_28, 216); (r2c_32, 72); (r2c_32, 96); (r2c_32, 120); (r2c_32, 144); (r2c_32, 168); (r2c_32, 192); (r2c_32, 216); (r2c_36, 72); (r2c_36, 96); (r2c_36, 120); (r2c_36, 144); (r2c_36, 168); (r2c_36, 192); (r2c_36, 216); (r2c_40, 72); (r2c_40, 96); (r2c_40, 120); (r2c_40, 144); (r2c_40, 168); (r2c_40, 192); (r2c_40, 216)].

(** third_party/fftx_codelets/lib_fftx_iprdftbat_cpu_srcs/fftx_iprdftbat_cpu_decls.h:729-742 (without the closing zero entry). *)
Definition c2r_sizes : list (Z * Z * Z * Z) := [(16, 72, 0, 0); (16, 96, 0, 0); (16, 120, 0, 0); (16, 144, 0, 0); (16, 168, 0, 0); (16, 192, 0, 0); (16, 216, 0, 0); (20, 72, 0, 0); (20, 96, 0, 0); (20, 120, 0, 0); (20, 144, 0, 0); (20, 168, 0, 0); (20, 192, 0, 0); (20, 216, 0, 0); (24, 72, 0, 0); (24, 96, 0, 0); (24, 120, 0, 0); (24, 144, 0, 0); (24, 168, 0, 0); (24, 192, 0, 0); (24, 216, 0, 0); (28, 72, 0, 0); (28, 96, 0, 0); (28, 120, 0, 0); (28, 144, 0, 0); (28, 168, 0, 0); (28, 192, 0, 0); (28, 216, 0, 0); (32, 72, 0, 0); (32, 96, 0, 0); (32, 120, 0, 0); (32, 144, 0, 0); (32, 168, 0, 0); (32, 192, 0, 0); (32, 216, 0, 0); (36, 72, 0, 0); (36, 96, 0, 0); (36, 120, 0, 0); (36, 144, 0, 0); (36, 168, 0, 0); (36, 192, 0, 0); (36, 216, 0, 0); (40, 72, 0, 0); (40, 96, 0, 0); (40, 120, 0, 0); (40, 144, 0, 0); (40, 168, 0, 0); (40, 192, 0, 0); (40, 216, 0, 0)].

(** third_party/fftx_codelets/lib_fftx_iprdftbat_cpu_srcs/fftx_iprdftbat_cpu_decls.h:576-728: routine and bound of its outer loop plus one. *)
Definition c2r_tuples : list (codelet * Z) := [(c2r_16, 72); (c2r_16, 96); (c2r_16, 120); (c2r_16, 144); (c2r_16, 168); (c2r_16, 192); (c2r_16, 216); (c2r_20, 72); (c2r_20, 96); (c2r_20, 120); (c2r_20, 144); (c2r_20, 168); (c2r_20, 192); (c2r_20, 216); (c2r_24, 72); (c2r_24, 96); (c2r_24, 120); (c2r_24, 144); (c2r_24, 168); (c2r_24, 192); (c2r_24, 216); (c2r_28, 72); (c2r_28, 96); (c2r_28, 120); (c2r_28, 144); (c2r_28, 168); (c2r_28, 192); (c2r_28, 216); (c2r_32, 72); (c2r_32, 96); (c2r_32, 120); (c2r_32, 144); (c2r_32, 168); (c2r_32, 192); (c2r_32, 216); (c2r_36, 72); (c2r_36, 96); (c2r_36, 120); (c2r_36, 144); (c2r_36, 168); (c2r_36, 192); (c2r_36, 216); (c2r_40, 72); (c2r_40, 96); (c2r_40, 120); (c2r_40, 144); (c2r_40, 168); (c2r_40, 192); (c2r_40, 216)].
