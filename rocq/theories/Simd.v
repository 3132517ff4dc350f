(** * Simd: the four-lane vector type and its back ends.

    Models include/graphene-simd4f.h and src/graphene-simd4f.c.  Graphene picks a
    back end at configure time (include/graphene-config.h.meson:39-56); the model
    carries all of them, so a theorem quantified over [Backend F] speaks about
    every build.  Only the GCC-flavoured macros are modelled; the MSVC variants
    (graphene-simd4f.h:525-868, 1542-1893) repeat the same intrinsics. *)

From Coq Require Import ZArith Bool List.
From Verif Require Import Num.
Import ListNotations.
Local Open Scope f_scope.

(* graphene_simd4f_t: graphene-config.h.meson:84-112 *)
Record simd4f (F : Type) := V4 { vx : F; vy : F; vz : F; vw : F }.
Arguments V4 {F}. Arguments vx {F}. Arguments vy {F}. Arguments vz {F}. Arguments vw {F}.

(** The build-time choice of implementation, with its parameters.
    - [Scalar ieee]: src/graphene-simd4f.c:1096-1542; [ieee] is
      HAVE_IEEE_754_FLOAT_DIVISION.
    - [Gcc]: GRAPHENE_USE_INTRINSICS, graphene-simd4f.h:877-1196.
    - [Sse sse41 fma rcp rsq]: GRAPHENE_USE_SSE, graphene-simd4f.h:187-523;
      [rcp]/[rsq] are the hardware estimates of _mm_rcp_ps/_mm_rsqrt_ps, arbitrary
      functions here.
    - [Neon rec rsq sq]: GRAPHENE_USE_ARM_NEON, graphene-simd4f.h:1197-1541; the
      estimate-plus-Newton sequences for the reciprocal (1291-1296), the reciprocal
      square root (1319-1331) and the square root (1333-1339) are lane-wise and are
      abstracted to arbitrary lane functions. *)
Inductive bkind (F : Type) :=
| Scalar (ieee : bool)
| Gcc
| Sse (sse41 fma : bool) (rcp rsq : F -> F)
| Neon (rec rsq sq : F -> F).
Arguments Scalar {F}. Arguments Gcc {F}. Arguments Sse {F}. Arguments Neon {F}.
(* the back end compiled in: the #if cascade of include/graphene-simd4f.h:187, 198, 525, 877, 1197, 1908 *)
Class Backend (F : Type) := backend : bkind F.

Section Simd.
Context {F : Type} {O : FOps F} {B : Backend F}.
Notation V := (simd4f F).

(* lane-wise application; no C counterpart *)
Definition map1 (f : F -> F) (a : V) : V := V4 (f (vx a)) (f (vy a)) (f (vz a)) (f (vw a)).
(* lane-wise application; no C counterpart *)
Definition map2 (f : F -> F -> F) (a b : V) : V :=
  V4 (f (vx a) (vx b)) (f (vy a) (vy b)) (f (vz a) (vz b)) (f (vw a) (vw b)).
(* all four lanes satisfy f; no C counterpart *)
Definition all2 (f : F -> F -> bool) (a b : V) : bool :=
  f (vx a) (vx b) && f (vy a) (vy b) && f (vz a) (vz b) && f (vw a) (vw b).

(* simd4f.c:1098-1130; h:202-225, 891-914, 1211-1240: identical in every back end *)
(* include/graphene-simd4f.h:202-205, 529, 891-894, 1211-1215, 1544, 1912-1913,
   graphene_simd4f_init *)
Definition g_init (x y z w : F) : V := V4 x y z w.
(* include/graphene-simd4f.h:207-210, 538-539, 896-899, 1217-1220, 1552, 1914-1915,
   graphene_simd4f_init_zero *)
Definition g_init_zero : V := V4 fzero fzero fzero fzero.
(* include/graphene-simd4f.h:253-256, 578-579, 937-940, 1266-1269, 1586, 1938-1939,
   graphene_simd4f_splat *)
Definition g_splat (v : F) : V := V4 v v v v.                    (* simd4f.c:1196-1201 *)
(* An array of [float]s the caller passes is a list; reading past its end is
   undefined behaviour in C and [None] here.  simd4f.c:1114-1130 *)
(* include/graphene-simd4f.h:212-215, 541-542, 901-904, 1222-1226, 1554, 1916-1917,
   graphene_simd4f_init_4f *)
Definition g_init_4f (l : list F) : option V :=
  match l with a :: b :: c :: d :: _ => Some (V4 a b c d) | _ => None end.
(* include/graphene-simd4f.h:217-220, 544-545, 906-909, 1228-1231, 1556, 1918-1919,
   graphene_simd4f_init_3f *)
Definition g_init_3f (l : list F) : option V :=
  match l with a :: b :: c :: _ => Some (V4 a b c fzero) | _ => None end.
(* include/graphene-simd4f.h:222-225, 547-548, 911-914, 1233-1240, 1558, 1920-1921,
   graphene_simd4f_init_2f *)
Definition g_init_2f (l : list F) : option V :=
  match l with a :: b :: _ => Some (V4 a b fzero fzero) | _ => None end.
(* simd4f.c:1132-1151: store lanes into an array; the array's other cells keep
   their contents; an array that is too short is undefined behaviour. *)
(* include/graphene-simd4f.h:227-230, 550-551, 916-919, 1242-1245, 1569, 1922-1923,
   graphene_simd4f_dup_4f *)
Definition g_dup_4f (s : V) (dst : list F) : option (list F) :=
  match dst with _ :: _ :: _ :: _ :: r => Some (vx s :: vy s :: vz s :: vw s :: r) | _ => None end.
(* include/graphene-simd4f.h:232-235, 553-554, 921-924, 1247-1253, 1571, 1924-1925,
   graphene_simd4f_dup_3f *)
Definition g_dup_3f (s : V) (dst : list F) : option (list F) :=
  match dst with _ :: _ :: _ :: r => Some (vx s :: vy s :: vz s :: r) | _ => None end.
(* include/graphene-simd4f.h:237-240, 556-557, 926-929, 1255-1259, 1582, 1926-1927,
   graphene_simd4f_dup_2f *)
Definition g_dup_2f (s : V) (dst : list F) : option (list F) :=
  match dst with _ :: _ :: r => Some (vx s :: vy s :: r) | _ => None end.
(* simd4f.c:217-238 and 1153-1170: the out-of-line accessor *)
(* include/graphene-simd4f.h:242-246, 559, 931, 1261-1264, 1584, 1928-1929, graphene_simd4f_get *)
Definition g_get (s : V) (i : nat) : F :=
  match i with 0 => vx s | 1 => vy s | 2 => vz s | 3 => vw s | _ => fzero end%nat.
(* include/graphene-simd4f.h:248, 560, 932, 1903, 1930-1931, graphene_simd4f_get_x *)
Definition g_get_x (s : V) := vx s.
(* include/graphene-simd4f.h:249, 561, 933, 1904, 1932-1933, graphene_simd4f_get_y *)
Definition g_get_y (s : V) := vy s.
(* include/graphene-simd4f.h:250, 562, 934, 1905, 1934-1935, graphene_simd4f_get_z *)
Definition g_get_z (s : V) := vz s.
(* include/graphene-simd4f.h:251, 563, 935, 1906, 1936-1937, graphene_simd4f_get_w *)
Definition g_get_w (s : V) := vw s.
(* simd4f.c:1203-1229 *)
(* include/graphene-simd4f.h:258-261, 581-582, 942-946, 1271-1274, 1588, 1940-1941,
   graphene_simd4f_splat_x *)
Definition g_splat_x (s : V) := g_splat (vx s).
(* include/graphene-simd4f.h:263-266, 584-585, 948-952, 1276-1279, 1590, 1942-1943,
   graphene_simd4f_splat_y *)
Definition g_splat_y (s : V) := g_splat (vy s).
(* include/graphene-simd4f.h:268-271, 587-588, 954-958, 1281-1284, 1592, 1944-1945,
   graphene_simd4f_splat_z *)
Definition g_splat_z (s : V) := g_splat (vz s).
(* include/graphene-simd4f.h:273-276, 590-591, 960-964, 1286-1289, 1594, 1946-1947,
   graphene_simd4f_splat_w *)
Definition g_splat_w (s : V) := g_splat (vw s).

(* simd4f.c:1274-1311; h:278-291, 1000-1002, 1298-1311 *)
(* include/graphene-simd4f.h:278-281, 593-594, 1000, 1298-1301, 1605, 1948-1949,
   graphene_simd4f_add *)
Definition g_add (a b : V) : V := map2 fadd a b.
(* include/graphene-simd4f.h:283-286, 596-597, 1001, 1303-1306, 1607, 1950-1951,
   graphene_simd4f_sub *)
Definition g_sub (a b : V) : V := map2 fsub a b.
(* include/graphene-simd4f.h:288-291, 599-600, 1002, 1308-1311, 1609, 1952-1953,
   graphene_simd4f_mul *)
Definition g_mul (a b : V) : V := map2 fmul a b.

(* reciprocal: simd4f.c:1231-1248; h:966-974 (Gcc); h:303-312 (Sse); h:1291-1296 (Neon) *)
Definition rcp_guard (x : F) : F := if fabs x >. feps then fone /. x else fcopysign finf x.
(* one lane of graphene_simd4f_reciprocal *)
Definition lane_reciprocal (x : F) : F :=
  match backend with
  | Scalar true => fone /. x
  | Scalar false => rcp_guard x
  | Gcc => rcp_guard x
  | Sse _ _ rcp _ =>
      let s := rcp x in
      let m := x *. (if x ==. fzero then fzero else s) in
      s *. (ftwo -. m)
  | Neon rec _ _ => rec x
  end.
(* include/graphene-simd4f.h:303-312, 608, 966-974, 1291-1296, 1596, 1960-1961,
   graphene_simd4f_reciprocal *)
Definition g_reciprocal (v : V) : V := map1 lane_reciprocal v.

(* sqrt: simd4f.c:1250-1260; h:298-301, 976-984, 1333-1339 *)
Definition lane_sqrt (x : F) : F :=
  match backend with Neon _ _ sq => sq x | _ => fsqrt x end.
(* include/graphene-simd4f.h:298-301, 605-606, 976-984, 1333-1339, 1631, 1956-1957,
   graphene_simd4f_sqrt *)
Definition g_sqrt (v : V) : V := map1 lane_sqrt v.

(* rsqrt: simd4f.c:1262-1272; h:986-998 (Gcc); h:314-322 (Sse); h:1325-1331 (Neon) *)
Definition lane_rsqrt (x : F) : F :=
  match backend with
  | Scalar _ => if fabs x >. feps then fone /. fsqrt x else fzero
  | Gcc => if x ==. fzero then fzero else fone /. fsqrt x
  | Sse _ _ _ rsq => let s := rsq x in (s *. fhalf) *. (fthree -. s *. (x *. s))
  | Neon _ rsq _ => rsq x
  end.
(* include/graphene-simd4f.h:314-322, 622, 986-998, 1325-1331, 1621, 1958-1959,
   graphene_simd4f_rsqrt *)
Definition g_rsqrt (v : V) : V := map1 lane_rsqrt v.

(* div: simd4f.c:1313-1324; h:293-296, 1003, 1313-1317 *)
Definition lane_div (a b : F) : F :=
  match backend with
  | Scalar _ => if fabs b >. feps then a /. b else fzero
  | Gcc | Sse _ _ _ _ => a /. b
  | Neon rec _ _ => a *. rec b
  end.
(* include/graphene-simd4f.h:293-296, 602-603, 1003, 1313-1317, 1611, 1954-1955,
   graphene_simd4f_div *)
Definition g_div (a b : V) : V := map2 lane_div a b.

(* cross3: simd4f.c:1326-1334; h:1005-1013 (Gcc); h:324-331 (Sse); h:1341-1355 (Neon) *)
(* include/graphene-simd4f.h:324-331, 635-636, 1005-1013, 1341-1355, 1641, 1962-1963,
   graphene_simd4f_cross3 *)
Definition g_cross3 (a b : V) : V :=
  match backend with
  | Sse _ _ _ _ =>
      V4 (vy a *. vz b -. vz a *. vy b)
         (vz a *. vx b -. vx a *. vz b)
         (vx a *. vy b -. vy a *. vx b)
         (vw a *. vw b -. vw a *. vw b)
  | Neon _ _ _ =>
      V4 (vz b *. vy a -. vz a *. vy b)
         (vx b *. vz a -. vx a *. vz b)
         (vy b *. vx a -. vy a *. vx b)
         fzero
  | _ =>
      V4 (vy a *. vz b -. vz a *. vy b)
         (vz a *. vx b -. vx a *. vz b)
         (vx a *. vy b -. vy a *. vx b)
         fzero
  end.

(* dot3: simd4f.c:1336-1348; h:1015-1026 (Gcc); h:333-356 (Sse); h:1357-1367 (Neon) *)
(* include/graphene-simd4f.h:351-356, 671-672, 1023-1026, 1362-1367, 1662, 1966-1967,
   graphene_simd4f_dot3_scalar *)
Definition g_dot3_scalar (a b : V) : F :=
  match backend with
  | Sse true _ _ _ =>   (* _mm_dp_ps with mask 0x7f *)
      (vx a *. vx b +. vy a *. vy b) +. (vz a *. vz b +. fzero)
  | Sse false _ _ _ =>  (* mask w, add high half to low half, add lane 1 to lane 0 *)
      (vx a *. vx b +. vz a *. vz b) +. (vy a *. vy b +. fzero)
  | _ => (vx a *. vx b +. vy a *. vy b) +. vz a *. vz b
  end.
(* include/graphene-simd4f.h:334-337, 339-348, 650-651, 1015-1021, 1357-1360, 1660, 1964-1965,
   graphene_simd4f_dot3 *)
Definition g_dot3 (a b : V) : V := g_splat (g_dot3_scalar a b).

(* min/max: simd4f.c:1350-1368; h:358-366, 1028-1046 all compute a<b?a:b; Neon's
   vminq/vmaxq (h:1369-1377) propagate NaN and order -0 below +0 *)
Definition lane_min (a b : F) : F :=
  match backend with
  | Neon _ _ _ =>
      if fisnan a then a else if fisnan b then b else
      if a <. b then a else if b <. a then b else if fsignbit a then a else b
  | _ => if a <. b then a else b
  end.
(* one lane of graphene_simd4f_max *)
Definition lane_max (a b : F) : F :=
  match backend with
  | Neon _ _ _ =>
      if fisnan a then a else if fisnan b then b else
      if b <. a then a else if a <. b then b else if fsignbit a then b else a
  | _ => if a >. b then a else b
  end.
(* include/graphene-simd4f.h:358-361, 683-684, 1028-1036, 1369-1372, 1672, 1968-1969,
   graphene_simd4f_min *)
Definition g_min (a b : V) : V := map2 lane_min a b.
(* include/graphene-simd4f.h:363-366, 686-687, 1038-1046, 1374-1377, 1674, 1970-1971,
   graphene_simd4f_max *)
Definition g_max (a b : V) : V := map2 lane_max a b.

(* shuffles and merges: simd4f.c:1370-1431; h:368-435, 1048-1098, 1379-1451 *)
(* include/graphene-simd4f.h:368-371, 690-691, 1048-1051, 1379-1383, 1676, 1972-1973,
   graphene_simd4f_shuffle_wxyz *)
Definition g_shuffle_wxyz (s : V) : V := V4 (vw s) (vx s) (vy s) (vz s).
(* include/graphene-simd4f.h:373-376, 693-694, 1053-1056, 1385-1389, 1684, 1974-1975,
   graphene_simd4f_shuffle_zwxy *)
Definition g_shuffle_zwxy (s : V) : V := V4 (vz s) (vw s) (vx s) (vy s).
(* include/graphene-simd4f.h:378-381, 696-697, 1058-1061, 1391-1395, 1692, 1976-1977,
   graphene_simd4f_shuffle_yzwx *)
Definition g_shuffle_yzwx (s : V) : V := V4 (vy s) (vz s) (vw s) (vx s).
(* include/graphene-simd4f.h:383-387, 699-700, 1063-1066, 1397-1401, 1700, 1982-1983,
   graphene_simd4f_zero_w *)
Definition g_zero_w (s : V) : V := V4 (vx s) (vy s) (vz s) fzero.
(* include/graphene-simd4f.h:389-392, 702-703, 1068-1071, 1403-1407, 1708, 1984-1985,
   graphene_simd4f_zero_zw *)
Definition g_zero_zw (s : V) : V := V4 (vx s) (vy s) fzero fzero.
(* include/graphene-simd4f.h:394-398, 705-706, 1073-1076, 1409-1413, 1716, 1986-1987,
   graphene_simd4f_merge_w *)
Definition g_merge_w (s : V) (v : F) : V := V4 (vx s) (vy s) (vz s) v.
(* include/graphene-simd4f.h:400-403, 708-709, 1078-1081, 1415-1420, 1725, 1988-1989,
   graphene_simd4f_merge_high *)
Definition g_merge_high (a b : V) : V := V4 (vz a) (vw a) (vz b) (vw b).
(* include/graphene-simd4f.h:405-408, 711-712, 1083-1086, 1422-1427, 1735, 1990-1991,
   graphene_simd4f_merge_low *)
Definition g_merge_low (a b : V) : V := V4 (vx a) (vy a) (vx b) (vy b).
(* include/graphene-simd4f.h:415-424, 719, 1088-1092, 1429-1439, 1746, 1978-1979,
   graphene_simd4f_flip_sign_0101 *)
Definition g_flip_sign_0101 (s : V) : V := V4 (vx s) (-. vy s) (vz s) (-. vw s).
(* include/graphene-simd4f.h:426-435, 734, 1094-1098, 1441-1451, 1760, 1980-1981,
   graphene_simd4f_flip_sign_1010 *)
Definition g_flip_sign_1010 (s : V) : V := V4 (-. vx s) (vy s) (-. vz s) (vw s).

(* simd4f.c:1433-1454, approx_equal (scalar back end only) *)
(* src/graphene-simd4f.c:1433-1454, approx_equal *)
Definition approx_equal (a b eps : F) : bool :=
  if fisinf a && fisinf b then true
  else let diff := fabs (a -. b) in
    if fisnan diff then true
    else if diff <=. eps then true
    else let abs_a := fabs a in let abs_b := fabs b in
      let largest := if abs_b >. abs_a then abs_b else abs_a in
      diff <=. largest *. eps.

(* comparisons: simd4f.c:1456-1514; h:437-471, 1100-1165, 1453-1505 *)
Definition lane_eq (a b : F) : bool :=
  match backend with Scalar _ => approx_equal a b feps | _ => a ==. b end.
(* include/graphene-simd4f.h:437-441, 749, 1100-1111, 1453-1460, 1775, 1992-1993,
   graphene_simd4f_cmp_eq *)
Definition g_cmp_eq (a b : V) : bool := all2 lane_eq a b.
(* include/graphene-simd4f.h:443-447, 759, 1113, 1462-1469, 1787, 1994-1995,
   graphene_simd4f_cmp_neq *)
Definition g_cmp_neq (a b : V) : bool :=
  negb (lane_eq (vx a) (vx b)) || negb (lane_eq (vy a) (vy b)) ||
  negb (lane_eq (vz a) (vz b)) || negb (lane_eq (vw a) (vw b)).
(* include/graphene-simd4f.h:449-453, 769, 1115-1126, 1471-1478, 1799, 1996-1997,
   graphene_simd4f_cmp_lt *)
Definition g_cmp_lt (a b : V) : bool := all2 (fun x y => x <. y) a b.
(* include/graphene-simd4f.h:455-459, 779, 1128-1139, 1480-1487, 1811, 1998-1999,
   graphene_simd4f_cmp_le *)
Definition g_cmp_le (a b : V) : bool := all2 (fun x y => x <=. y) a b.
(* include/graphene-simd4f.h:461-465, 789, 1141-1152, 1489-1496, 1823, 2000-2001,
   graphene_simd4f_cmp_ge *)
Definition g_cmp_ge (a b : V) : bool := all2 (fun x y => x >=. y) a b.
(* include/graphene-simd4f.h:467-471, 799, 1154-1165, 1498-1505, 1835, 2002-2003,
   graphene_simd4f_cmp_gt *)
Definition g_cmp_gt (a b : V) : bool := all2 (fun x y => x >. y) a b.

(* neg: simd4f.c:1516-1520; h:473-482, 1507-1517 flip the sign bit, Gcc multiplies by -1
   (h:1167-1172) *)
Definition lane_neg (x : F) : F := match backend with Gcc => x *. fm1 | _ => -. x end.
(* include/graphene-simd4f.h:473-482, 809, 1167-1172, 1507-1517, 1847, 2004-2005,
   graphene_simd4f_neg *)
Definition g_neg (s : V) : V := map1 lane_neg s.
(* simd4f.c:1522-1532; h:484-510, 1174-1190, 1519-1535 *)
(* include/graphene-simd4f.h:485-488, 494-501, 824, 1174-1181, 1519-1526, 1861, 2006-2007,
   graphene_simd4f_ceil *)
Definition g_ceil (s : V) : V := map1 fceil s.
(* include/graphene-simd4f.h:489-492, 502-509, 825, 1183-1190, 1528-1535, 1862, 2008-2009,
   graphene_simd4f_floor *)
Definition g_floor (s : V) : V := map1 ffloor s.
(* simd4f.c:1534-1540; h:512-522 (fused when built for AVX), 1192-1195, 1537-1540 *)
(* include/graphene-simd4f.h:513-516, 518-521, 855, 1192-1195, 1537-1540, 1884, 2010-2011,
   graphene_simd4f_madd *)
Definition g_madd (a b c : V) : V :=
  match backend with
  | Sse _ true _ _ =>
      V4 (ffma (vx a) (vx b) (vx c)) (ffma (vy a) (vy b) (vy c))
         (ffma (vz a) (vz b) (vz c)) (ffma (vw a) (vw b) (vw c))
  | _ => g_add (g_mul a b) c
  end.

(** Functions defined once for all back ends: graphene-simd4f.h:2017-2376. *)
(* include/graphene-simd4f.h:2030-2040, graphene_simd4f_sum *)
Definition g_sum (v : V) : V :=
  g_add (g_add (g_splat_x v) (g_splat_y v)) (g_add (g_splat_z v) (g_splat_w v)).
(* include/graphene-simd4f.h:2053-2057, graphene_simd4f_sum_scalar *)
Definition g_sum_scalar (v : V) : F := g_get_x (g_sum v).
(* include/graphene-simd4f.h:2072-2077, graphene_simd4f_dot4 *)
Definition g_dot4 (a b : V) : V := g_sum (g_mul a b).
(* include/graphene-simd4f.h:2092-2101, graphene_simd4f_dot2 *)
Definition g_dot2 (a b : V) : V :=
  let m := g_mul a b in g_add (g_splat_x m) (g_splat_y m).
(* include/graphene-simd4f.h:2114-2118, graphene_simd4f_length4 *)
Definition g_length4 (v : V) : V := g_sqrt (g_dot4 v v).
(* include/graphene-simd4f.h:2131-2135, graphene_simd4f_length3 *)
Definition g_length3 (v : V) : V := g_sqrt (g_dot3 v v).
(* include/graphene-simd4f.h:2148-2152, graphene_simd4f_length2 *)
Definition g_length2 (v : V) : V := g_sqrt (g_dot2 v v).
(* include/graphene-simd4f.h:2165-2170, graphene_simd4f_normalize4 *)
Definition g_normalize4 (v : V) : V := g_mul v (g_rsqrt (g_dot4 v v)).
(* include/graphene-simd4f.h:2183-2188, graphene_simd4f_normalize3 *)
Definition g_normalize3 (v : V) : V := g_mul v (g_rsqrt (g_dot3 v v)).
(* include/graphene-simd4f.h:2201-2206, graphene_simd4f_normalize2 *)
Definition g_normalize2 (v : V) : V := g_mul v (g_rsqrt (g_dot2 v v)).
(* include/graphene-simd4f.h:2219-2224, graphene_simd4f_is_zero4 *)
Definition g_is_zero4 (v : V) : bool := g_cmp_eq v g_init_zero.
(* include/graphene-simd4f.h:2237-2243, graphene_simd4f_is_zero3 *)
Definition g_is_zero3 (v : V) : bool :=
  (fabs (vx v) <=. feps) && (fabs (vy v) <=. feps) && (fabs (vz v) <=. feps).
(* include/graphene-simd4f.h:2256-2261, graphene_simd4f_is_zero2 *)
Definition g_is_zero2 (v : V) : bool :=
  (fabs (vx v) <=. feps) && (fabs (vy v) <=. feps).
(* include/graphene-simd4f.h:2276-2286, graphene_simd4f_interpolate *)
Definition g_interpolate (a b : V) (f : F) : V :=
  let one_minus_f := g_sub (g_splat fone) (g_splat f) in
  g_add (g_mul one_minus_f a) (g_mul (g_splat f) b).
(* include/graphene-simd4f.h:2301-2309, graphene_simd4f_clamp *)
Definition g_clamp (v lo hi : V) : V := g_min (g_max lo v) hi.
(* include/graphene-simd4f.h:2324-2332, graphene_simd4f_clamp_scalar *)
Definition g_clamp_scalar (v : V) (lo hi : F) : V :=
  g_clamp v (g_splat lo) (g_splat hi).
(* include/graphene-simd4f.h:2345-2354, graphene_simd4f_min_val *)
Definition g_min_val (v : V) : V :=
  let s := g_min v (g_shuffle_wxyz v) in g_min s (g_shuffle_zwxy s).
(* include/graphene-simd4f.h:2367-2376, graphene_simd4f_max_val *)
Definition g_max_val (v : V) : V :=
  let s := g_max v (g_shuffle_wxyz v) in g_max s (g_shuffle_zwxy s).
End Simd.
