(** Lengths of the Fourier transforms: FFTlib/pfafft.c, FFTlib/pfaconst.h and FFTlib/optnumber.c. *)
From Coq Require Import ZArith List Lia.
Import ListNotations.
Local Open Scope Z_scope.

(** pfaconst.h:53-301: the table of lengths n and costs c.  The costs are in units of 10^-6. *)
Definition nctab : list (Z * Z) := [
   (1, 52); (2, 61); (3, 30); (4, 53); (5, 66); (6, 67); (7, 71); (8, 62);
   (9, 79); (10, 80); (11, 52); (12, 69); (13, 103); (14, 123); (15, 50); (16, 86);
   (18, 108); (20, 101); (21, 98); (22, 135); (24, 90); (26, 165); (28, 84); (30, 132);
   (33, 158); (35, 138); (36, 147); (39, 207); (40, 156); (42, 158); (44, 176); (45, 171);
   (48, 185); (52, 227); (55, 242); (56, 194); (60, 215); (63, 233); (65, 288); (66, 271);
   (70, 248); (72, 247); (77, 285); (78, 395); (80, 285); (84, 209); (88, 332); (90, 321);
   (91, 372); (99, 400); (104, 391); (105, 358); (110, 440); (112, 367); (117, 494); (120, 413);
   (126, 424); (130, 549); (132, 480); (140, 450); (143, 637); (144, 497); (154, 590); (156, 626);
   (165, 654); (168, 536); (176, 656); (180, 611); (182, 730); (195, 839); (198, 786); (208, 835);
   (210, 751); (220, 826); (231, 926); (234, 991); (240, 852); (252, 820); (260, 1053); (264, 987);
   (273, 1152); (280, 952); (286, 1299); (308, 1155); (312, 1270); (315, 1156); (330, 1397); (336, 1173);
   (360, 1259); (364, 1471); (385, 1569); (390, 1767); (396, 1552); (420, 1516); (429, 2015); (440, 1748);
   (455, 1988); (462, 1921); (468, 1956); (495, 2106); (504, 1769); (520, 2196); (528, 2127); (546, 2454);
   (560, 2099); (572, 2632); (585, 2665); (616, 2397); (624, 2711); (630, 2496); (660, 2812); (693, 2949);
   (715, 3571); (720, 2783); (728, 3060); (770, 3392); (780, 3553); (792, 3198); (819, 3726); (840, 3234);
   (858, 4354); (880, 3800); (910, 4304); (924, 3975); (936, 4123); (990, 4517); (1001, 5066); (1008, 3902);
   (1040, 4785); (1092, 5017); (1144, 5599); (1155, 5380); (1170, 5730); (1232, 5323); (1260, 5112); (1287, 6658);
   (1320, 5974); (1365, 6781); (1386, 6413); (1430, 7622); (1456, 6679); (1540, 7032); (1560, 7538); (1584, 7126);
   (1638, 7979); (1680, 7225); (1716, 8961); (1820, 8818); (1848, 8427); (1872, 9004); (1980, 9398); (2002, 10830);
   (2145, 12010); (2184, 10586); (2288, 12058); (2310, 11673); (2340, 11700); (2520, 11062); (2574, 14313); (2640, 13021);
   (2730, 14606); (2772, 13216); (2860, 15789); (3003, 16988); (3080, 14911); (3120, 16393); (3276, 16741); (3432, 18821);
   (3465, 18138); (3640, 18892); (3696, 18634); (3960, 20216); (4004, 22455); (4095, 22523); (4290, 26087); (4368, 23474);
   (4620, 24590); (4680, 25641); (5005, 30303); (5040, 25253); (5148, 30364); (5460, 31250); (5544, 29412); (5720, 34404);
   (6006, 37500); (6160, 34091); (6435, 40214); (6552, 37221); (6864, 42735); (6930, 40214); (7280, 42980); (7920, 45872);
   (8008, 49505); (8190, 49834); (8580, 55762); (9009, 57034); (9240, 54945); (9360, 56818); (10010, 66667); (10296, 65502);
   (10920, 68182); (11088, 65217); (11440, 75000); (12012, 78534); (12870, 87719); (13104, 81081); (13860, 84270); (15015, 102740);
   (16016, 106383); (16380, 105634); (17160, 119048); (18018, 123967); (18480, 119048); (20020, 137615); (20592, 140187); (21840, 154639);
   (24024, 168539); (25740, 180723); (27720, 180723); (30030, 220588); (32760, 241935); (34320, 254237); (36036, 254237); (40040, 288462);
   (45045, 357143); (48048, 357143); (51480, 384615); (55440, 384615); (60060, 454545); (65520, 517241); (72072, 576923); (80080, 625000);
   (90090, 833333); (102960, 789474); (120120, 1153846); (144144, 1153846); (180180, 1875000); (240240, 2500000); (360360, 3750000); (720720, 7500000)].

(** pfafft.c:23: for (i=0; i<NTAB-1 && nctab[i].n<nmin; ++i); the result is the rest of the table from
    entry i on, which is not empty. *)
Fixpoint seek (nmin : Z) (tab : list (Z * Z)) : list (Z * Z) :=
  match tab with
  | e :: ((_ :: _) as rest) => if fst e <? nmin then seek nmin rest else tab
  | _ => tab
  end.
(** pfafft.c:19-25: npfa *)
Definition npfa (nmin : Z) : Z := fst (hd (0, 0) (seek nmin nctab)).
(** pfafft.c:32-33: for (j=i+1; j<NTAB-1 && nctab[j].n<=nmax; ++j) if (nctab[j].c<nctab[i].c) i = j; on
    the rest of the table after entry i; the last entry of the table is never entry j. *)
Fixpoint cheapest (nmax : Z) (best : Z * Z) (rest : list (Z * Z)) : Z * Z :=
  match rest with
  | e :: ((_ :: _) as rest') => if fst e <=? nmax then cheapest nmax (if snd e <? snd best then e else best) rest' else best
  | _ => best
  end.
(** pfafft.c:27-35: npfao *)
Definition npfao (nmin nmax : Z) : Z :=
  match seek nmin nctab with
  | e :: rest => fst (cheapest nmax e rest)
  | [] => 0
  end.
(** pfafft.c:37-41 and 43-47: npfar, npfaro *)
Definition npfar (nmin : Z) : Z := 2 * npfa (Z.quot (nmin + 1) 2).
Definition npfaro (nmin nmax : Z) : Z := 2 * npfao (Z.quot (nmin + 1) 2) (Z.quot (nmax + 1) 2).

(** optnumber.c:34: (int)(log((float)n)/log(2.0)+0.9999), in exact arithmetic (C29_logarithm); so the
    rounding of n to single precision above 2^24 and that of the logarithms are left out. *)
Definition guess (n : Z) : Z := Z.log2 (n ^ 10000 * 2 ^ 9999) / 10000.
(** optnumber.c:27-44, without SGI: optncc *)
Definition optncc (n : Z) : Z :=
  let n2 := 2 ^ guess n in
  if n2 =? n then n else let n3 := npfa n in if n3 - n <? n2 - n then npfa n else n2.
(** optnumber.c:54-71 and 93-110: optncr and loptncr *)
Definition optncr (n : Z) : Z :=
  let n2 := 2 ^ guess n in
  if n2 =? n then n else let n3 := npfar n in if n3 - n <? n2 - n then npfar n else n2.
