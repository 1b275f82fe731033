(** Model of src/kernels/particle_shapes.hpp: the particle shape functions of orders 1 to 11,
    their evaluation on the grid, and the pair of shapes used by the current deposit.
    Exact real arithmetic; literals such as [static_cast<real_t>(2.0 / 3.0)] and the constant
    [THIRD] of numeric.h (used in S7) stand for the rational number they name.
    C arrays are functions of an integer index. *)
From Coq Require Import ZArith Reals Bool.
Open Scope R_scope.

(** utils/numeric.h: the SQR and CUBE macros. *)
Definition sqr (x : R) : R := x * x.
Definition cube (x : R) : R := x * x * x.

(** particle_shapes.hpp 25-31. *)
Definition S1 (x : R) : R :=
  if Rlt_dec x 1 then
    1 - x
  else 0.

(** particle_shapes.hpp 38-46. *)
Definition S2 (x : R) : R :=
  if Rlt_dec x (1/2) then
    (3/4) - sqr x
  else if Rlt_dec x (3/2) then
    (1/2) * sqr ((3/2) - x)
  else 0.

(** particle_shapes.hpp 54-63. *)
Definition S3 (x : R) : R :=
  if Rlt_dec x 1 then
    (2/3) - sqr x + (1/2) * cube x
  else if Rlt_dec x 2 then
    (4/3) - 2 * x + sqr x - (1/6) * cube x
  else 0.

(** particle_shapes.hpp 71-90. *)
Definition S4 (x : R) : R :=
  if Rlt_dec x (1/2) then
    (115/192) - (5/8) * sqr x + (1/4) * sqr (sqr x)
  else if Rlt_dec x (3/2) then
    (55/96) + (5/24) * x - (5/4) * sqr x + (5/6) * cube x - (1/6) * sqr (sqr x)
  else if Rlt_dec x (5/2) then
    (625/384) - (125/48) * x + (25/16) * sqr x - (5/12) * cube x + (1/24) * sqr (sqr x)
  else 0.

(** particle_shapes.hpp 100-120. *)
Definition S5 (x : R) : R :=
  if Rle_dec x 1 then
    (11/20) - (1/2) * sqr x + (1/4) * sqr (sqr x) - (1/12) * cube x * sqr x
  else if Rlt_dec x 2 then
    (17/40) + (5/8) * x - (7/4) * sqr x + (5/4) * cube x - (3/8) * sqr (sqr x) + (1/24) * cube x * sqr x
  else if Rlt_dec x 3 then
    (81/40) - (27/8) * x + (9/4) * sqr x - (3/4) * cube x + (1/8) * sqr (sqr x) - (1/120) * cube x * sqr x
  else 0.

(** particle_shapes.hpp 133-166. *)
Definition S6 (x : R) : R :=
  if Rle_dec x (1/2) then
    (5887/11520) - (77/192) * sqr x + (7/48) * sqr (sqr x) - (1/36) * sqr (cube x)
  else if Rlt_dec x (3/2) then
    (7861/15360) - (7/768) * x - (91/256) * sqr x - (35/288) * cube x + (21/64) * sqr (sqr x) - (7/48) * cube x * sqr x + (1/48) * sqr (cube x)
  else if Rlt_dec x (5/2) then
    (1379/7680) + (1267/960) * x - (329/128) * sqr x + (133/72) * cube x - (21/32) * sqr (sqr x) + (7/60) * cube x * sqr x - (1/120) * sqr (cube x)
  else if Rlt_dec x (7/2) then
    (117649/46080) - (16807/3840) * x + (2401/768) * sqr x - (343/288) * cube x + (49/192) * sqr (sqr x) - (7/240) * cube x * sqr x + (1/720) * sqr (cube x)
  else 0.

(** particle_shapes.hpp 179-214. *)
Definition S7 (x : R) : R :=
  if Rlt_dec x 1 then
    (151/315) - (1/3) * sqr x + (1/9) * sqr (sqr x) - (1/36) * sqr (sqr x) * sqr x + (1/144) * sqr (sqr x) * cube x
  else if Rle_dec x 2 then
    (103/210) - (7/90) * x - (1/10) * sqr x - (7/18) * cube x + (1/2) * sqr (sqr x) - (7/30) * cube x * sqr x + (1/20) * sqr (sqr x) * sqr x - (1/240) * sqr (sqr x) * cube x
  else if Rlt_dec x 3 then
    (217/90) * x - (23/6) * sqr x + (49/18) * cube x - (19/18) * sqr (sqr x) + (7/30) * cube x * sqr x - (1/36) * sqr (sqr x) * sqr x + (1/720) * sqr (sqr x) * cube x - (139/630)
  else if Rlt_dec x 4 then
    (1024/315) - (256/45) * x + (64/15) * sqr x - (16/9) * cube x + (4/9) * sqr (sqr x) - (1/15) * cube x * sqr x + (1/180) * sqr (sqr x) * sqr x - (1/5040) * sqr (sqr x) * cube x
  else 0.

(** particle_shapes.hpp 229-279. *)
Definition S8 (x : R) : R :=
  if Rlt_dec x (1/2) then
    (259723/573440) - (289/1024) * sqr x + (43/512) * sqr (sqr x) - (1/64) * sqr (sqr x) * sqr x + (1/576) * sqr (sqr (sqr x))
  else if Rle_dec x (3/2) then
    (64929/143360) + (1/5120) * x - (363/1280) * sqr x + (7/1280) * cube x + (9/128) * sqr (sqr x) + (7/320) * cube x * sqr x - (3/80) * sqr (cube x) + (1/80) * sqr (sqr x) * cube x - (1/720) * sqr (sqr (sqr x))
  else if Rlt_dec x (5/2) then
    (145167/286720) - (1457/5120) * x + (195/512) * sqr x - (1127/1280) * cube x + (207/256) * sqr (sqr x) - (119/320) * cube x * sqr x + (3/32) * sqr (cube x) - (1/80) * sqr (sqr x) * cube x + (1/1440) * sqr (sqr (sqr x))
  else if Rlt_dec x (7/2) then
    (146051/35840) * x - (1465/256) * sqr x + (5123/1280) * cube x - (209/128) * sqr (sqr x) + (131/320) * cube x * sqr x - (1/16) * sqr (cube x) + (3/560) * sqr (sqr x) * cube x - (1/5040) * sqr (sqr (sqr x)) - (122729/143360)
  else if Rlt_dec x (9/2) then
    (4782969/1146880) - (531441/71680) * x + (59049/10240) * sqr x - (6561/2560) * cube x + (729/1024) * sqr (sqr x) - (81/640) * cube x * sqr x + (9/640) * sqr (cube x) - (1/1120) * sqr (sqr x) * cube x + (1/40320) * sqr (sqr (sqr x))
  else 0.

(** particle_shapes.hpp 294-349. *)
Definition S9 (x : R) : R :=
  if Rle_dec x 1 then
    (15619/36288) - (35/144) * sqr x + (19/288) * sqr (sqr x) - (5/432) * sqr (cube x) + (1/576) * sqr (sqr (sqr x)) - (1/2880) * sqr (sqr (sqr x)) * x
  else if Rlt_dec x 2 then
    (7799/18144) + (1/192) * x - (19/72) * sqr x + (7/144) * cube x - (1/144) * sqr (sqr x) + (7/96) * cube x * sqr x - (13/216) * sqr (cube x) + (1/48) * sqr (sqr x) * cube x - (1/288) * sqr (sqr (sqr x)) + (1/4320) * cube (cube x)
  else if Rle_dec x 3 then
    (1553/2592) - (339/448) * x + (635/504) * sqr x - (83/48) * cube x + (191/144) * sqr (sqr x) - (19/32) * cube x * sqr x + (35/216) * sqr (cube x) - (3/112) * sqr (sqr x) * cube x + (5/2016) * sqr (sqr (sqr x)) - (1/10080) * cube (cube x)
  else if Rlt_dec x 4 then
    (5883/896) * x - (2449/288) * sqr x + (563/96) * cube x - (1423/576) * sqr (sqr x) + (43/64) * cube x * sqr x - (103/864) * sqr (cube x) + (3/224) * sqr (sqr x) * cube x - (1/1152) * sqr (sqr (sqr x)) + (1/40320) * cube (cube x) - (133663/72576)
  else if Rlt_dec x 5 then
    (390625/72576) - (78125/8064) * x + (15625/2016) * sqr x - (3125/864) * cube x + (625/576) * sqr (sqr x) - (125/576) * cube x * sqr x + (25/864) * sqr (cube x) - (5/2016) * sqr (sqr x) * cube x + (1/8064) * sqr (sqr (sqr x)) - (1/362880) * cube (cube x)
  else 0.

(** particle_shapes.hpp 366-437. *)
Definition S10 (x : R) : R :=
  if Rlt_dec x (1/2) then
    (381773117/928972800) - (156409/737280) * sqr x + (14597/276480) * sqr (sqr x) - (583/69120) * sqr (cube x) + (11/11520) * sqr (sqr (sqr x)) - (1/14400) * sqr (sqr (sqr x)) * sqr x
  else if Rlt_dec x (3/2) then
    (152709293/371589120) - (11/4423680) * x - (62557/294912) * sqr x - (11/92160) * cube x + (5885/110592) * sqr (sqr x) - (77/76800) * cube x * sqr x - (187/27648) * sqr (cube x) - (11/5760) * sqr (cube x) * x + (11/4608) * sqr (sqr (sqr x)) - (11/17280) * sqr (sqr (sqr x)) * x + (1/17280) * sqr (sqr (sqr x)) * sqr x
  else if Rle_dec x (5/2) then
    (37690169/92897280) + (135311/3870720) * x - (163603/516096) * sqr x + (7513/40320) * cube x - (4543/27648) * sqr (sqr x) + (1661/9600) * cube x * sqr x - (715/6912) * sqr (cube x) + (11/315) * sqr (cube x) * x - (55/8064) * sqr (sqr (sqr x)) + (11/15120) * sqr (sqr (sqr x)) * x - (1/30240) * sqr (sqr (sqr x)) * sqr x
  else if Rlt_dec x (7/2) then
    (623786977/743178240) - (11695211/6881280) * x + (1654543/589824) * sqr x - (1352153/430080) * cube x + (479281/221184) * sqr (sqr x) - (48433/51200) * cube x * sqr x + (14905/55296) * sqr (cube x) - (451/8960) * sqr (cube x) * x + (55/9216) * sqr (sqr (sqr x)) - (11/26880) * sqr (sqr (sqr x)) * x + (1/80640) * sqr (sqr (sqr x)) * sqr x
  else if Rlt_dec x (9/2) then
    ((-1241720381)/371589120) + (237959711/23224320) * x - (3702215/294912) * sqr x + (2070343/241920) * cube x - (407429/110592) * sqr (sqr x) + (61061/57600) * cube x * sqr x - (5753/27648) * sqr (cube x) + (209/7560) * sqr (cube x) * x - (11/4608) * sqr (sqr (sqr x)) + (11/90720) * sqr (sqr (sqr x)) * x - (1/362880) * sqr (sqr (sqr x)) * sqr x
  else if Rlt_dec x (11/2) then
    (25937424601/3715891200) - (2357947691/185794560) * x + (214358881/20643840) * sqr x - (19487171/3870720) * cube x + (1771561/1105920) * sqr (sqr x) - (161051/460800) * cube x * sqr x + (14641/276480) * sqr (cube x) - (1331/241920) * sqr (cube x) * x + (121/322560) * sqr (sqr (sqr x)) - (11/725760) * sqr (sqr (sqr x)) * x + (1/3628800) * sqr (sqr (sqr x)) * sqr x
  else 0.

(** particle_shapes.hpp 465-542. *)
Definition S11 (x : R) : R :=
  if Rlt_dec x 1 then
    (655177/1663200) - (809/4320) * sqr x + (31/720) * sqr (sqr x) - (23/3600) * cube (sqr x) + (1/1440) * sqr (sqr (sqr x)) - (1/14400) * sqr (sqr (sqr x)) * sqr x + (1/86400) * sqr (sqr (sqr x)) * sqr x * x
  else if Rle_dec x 2 then
    (65521/166320) - (11/50400) * x - (563/3024) * sqr x - (11/3360) * cube x + (25/504) * sqr (sqr x) - (11/1200) * cube x * sqr x + (1/360) * sqr (cube x) - (11/1680) * sqr (cube x) * x + (1/252) * sqr (sqr (sqr x)) - (11/10080) * sqr (sqr (sqr x)) * x + (1/6720) * sqr (sqr (sqr x)) * sqr x - (1/120960) * sqr (sqr (sqr x)) * sqr x * x
  else if Rlt_dec x 3 then
    (61297/166320) + (781/5600) * x - (1619/3024) * sqr x + (583/1120) * cube x - (239/504) * sqr (sqr x) + (143/400) * cube x * sqr x - (13/72) * sqr (cube x) + (33/560) * sqr (cube x) * x - (25/2016) * sqr (sqr (sqr x)) + (11/6720) * sqr (sqr (sqr x)) * x - (1/8064) * sqr (sqr (sqr x)) * sqr x + (1/241920) * sqr (sqr (sqr x)) * sqr x * x
  else if Rle_dec x 4 then
    (894727/665280) - (38533/11200) * x + (9385/1728) * sqr x - (12199/2240) * cube x + (1009/288) * sqr (sqr x) - (1199/800) * cube x * sqr x + (631/1440) * sqr (cube x) - (99/1120) * sqr (cube x) * x + (7/576) * sqr (sqr (sqr x)) - (11/10080) * sqr (sqr (sqr x)) * x + (1/17280) * sqr (sqr (sqr x)) * sqr x - (1/725760) * sqr (sqr (sqr x)) * sqr x * x
  else if Rlt_dec x 5 then
    -(18595037/3326400) + (4726777/302400) * x - (1113317/60480) * sqr x + (250657/20160) * cube x - (54797/10080) * sqr (sqr x) + (11737/7200) * cube x * sqr x - (2477/7200) * sqr (cube x) + (517/10080) * sqr (cube x) * x - (107/20160) * sqr (sqr (sqr x)) + (11/30240) * sqr (sqr (sqr x)) * x - (1/67200) * sqr (sqr (sqr x)) * sqr x + (1/3628800) * sqr (sqr (sqr x)) * sqr x * x
  else if Rlt_dec x 6 then
    (17496/1925) - (2916/175) * x + (486/35) * sqr x - (243/35) * cube x + (81/35) * sqr (sqr x) - (27/50) * cube x * sqr x + (9/100) * sqr (cube x) - (3/280) * sqr (cube x) * x + (1/1120) * sqr (sqr (sqr x)) - (1/20160) * sqr (sqr (sqr x)) * x + (1/604800) * sqr (sqr (sqr x)) * sqr x - (1/39916800) * sqr (sqr (sqr x)) * sqr x * x
  else 0.

(** particle_shapes.hpp 544-932: [order<STAGGERED, O>(i, di, i_min, S)] returns the first node
    [i_min] and the array [S] of length O + 1.  Orders outside 1..11 raise a kernel error, here
    [None]. *)
Definition order (stag : bool) (o : nat) (i : Z) (di : R) : option (Z * (Z -> R)) :=
  match o with
  | 1%nat =>
      if negb stag then
        Some (i, fun n => if Z.eqb n 0 then 1 - di else di)
      else if Rlt_dec di (1/2) then
        let s0 := (1/2) - di in Some ((i - 1)%Z, fun n => if Z.eqb n 0 then s0 else 1 - s0)
      else
        let s0 := (3/2) - di in Some (i, fun n => if Z.eqb n 0 then s0 else 1 - s0)
  | 2%nat =>
      if negb stag then
        if Rlt_dec di (1/2) then
          let s0 := (1/2) * sqr ((1/2) - di) in let s1 := (3/4) - sqr di in
          Some ((i - 1)%Z, fun n => if Z.eqb n 0 then s0 else if Z.eqb n 1 then s1 else 1 - s0 - s1)
        else
          let s0 := (1/2) * sqr ((3/2) - di) in let s1 := (3/4) - sqr (1 - di) in
          Some (i, fun n => if Z.eqb n 0 then s0 else if Z.eqb n 1 then s1 else 1 - s0 - s1)
      else
        let s0 := (1/2) * sqr (1 - di) in let s2 := (1/2) * sqr di in
        Some ((i - 1)%Z, fun n => if Z.eqb n 0 then s0 else if Z.eqb n 1 then 1 - s0 - s2 else s2)
  | 3%nat =>
      if negb stag then
             Some ((i - 1)%Z, fun n => S3 (Rabs (1 + di - IZR n)))
      else   if Rlt_dec di (1/2) then Some ((i - 2)%Z, fun n => S3 (Rabs ((3/2) + di - IZR n)))
             else Some ((i - 1)%Z, fun n => S3 (Rabs ((1/2) + di - IZR n)))
  | 4%nat =>
      if negb stag then
             if Rlt_dec di (1/2) then Some ((i - 2)%Z, fun n => S4 (Rabs (2 + di - IZR n)))
             else Some ((i - 1)%Z, fun n => S4 (Rabs (1 + di - IZR n)))
      else   Some ((i - 2)%Z, fun n => S4 (Rabs ((3/2) + di - IZR n)))
  | 5%nat =>
      if negb stag then
             Some ((i - 2)%Z, fun n => S5 (Rabs (2 + di - IZR n)))
      else   if Rlt_dec di (1/2) then Some ((i - 3)%Z, fun n => S5 (Rabs ((5/2) + di - IZR n)))
             else Some ((i - 2)%Z, fun n => S5 (Rabs ((3/2) + di - IZR n)))
  | 6%nat =>
      if negb stag then
             if Rlt_dec di (1/2) then Some ((i - 3)%Z, fun n => S6 (Rabs (3 + di - IZR n)))
             else Some ((i - 2)%Z, fun n => S6 (Rabs (2 + di - IZR n)))
      else   Some ((i - 3)%Z, fun n => S6 (Rabs ((5/2) + di - IZR n)))
  | 7%nat =>
      if negb stag then
             Some ((i - 3)%Z, fun n => S7 (Rabs (3 + di - IZR n)))
      else   if Rlt_dec di (1/2) then Some ((i - 4)%Z, fun n => S7 (Rabs ((7/2) + di - IZR n)))
             else Some ((i - 3)%Z, fun n => S7 (Rabs ((5/2) + di - IZR n)))
  | 8%nat =>
      if negb stag then
             if Rlt_dec di (1/2) then Some ((i - 4)%Z, fun n => S8 (Rabs (4 + di - IZR n)))
             else Some ((i - 3)%Z, fun n => S8 (Rabs (3 + di - IZR n)))
      else   Some ((i - 4)%Z, fun n => S8 (Rabs ((7/2) + di - IZR n)))
  | 9%nat =>
      if negb stag then
             Some ((i - 4)%Z, fun n => S9 (Rabs (4 + di - IZR n)))
      else   if Rlt_dec di (1/2) then Some ((i - 5)%Z, fun n => S9 (Rabs ((9/2) + di - IZR n)))
             else Some ((i - 4)%Z, fun n => S9 (Rabs ((7/2) + di - IZR n)))
  | 10%nat =>
      if negb stag then
             if Rlt_dec di (1/2) then Some ((i - 5)%Z, fun n => S10 (Rabs (5 + di - IZR n)))
             else Some ((i - 4)%Z, fun n => S10 (Rabs (4 + di - IZR n)))
      else   Some ((i - 5)%Z, fun n => S10 (Rabs ((9/2) + di - IZR n)))
  | 11%nat =>
      if negb stag then
             Some ((i - 5)%Z, fun n => S11 (Rabs (5 + di - IZR n)))
      else   if Rlt_dec di (1/2) then Some ((i - 6)%Z, fun n => S11 (Rabs ((11/2) + di - IZR n)))
             else Some ((i - 5)%Z, fun n => S11 (Rabs ((9/2) + di - IZR n)))
  | _ => None
  end.

(** particle_shapes.hpp 934-1024: [for_deposit<O>]: the two shapes on a common window.  Returns
    [i_min], [i_max] and the arrays [iS], [fS] of length O + 2. *)
Definition for_deposit (o : nat) (i_init : Z) (di_init : R) (i_fin : Z) (di_fin : R)
  : option (Z * Z * (Z -> R) * (Z -> R)) :=
  let O := Z.of_nat o in
  match order false o i_init di_init, order false o i_fin di_fin with
  | Some (i_init_min, iS_), Some (i_fin_min, fS_) =>
      if Z.ltb i_init_min i_fin_min then
        Some (i_init_min, (i_init_min + O + 1)%Z,
              fun j => if Z.eqb j (O + 1) then 0 else iS_ j,
              fun j => if Z.eqb j 0 then 0 else fS_ (j - 1)%Z)
      else if Z.ltb i_fin_min i_init_min then
        Some (i_fin_min, (i_fin_min + O + 1)%Z,
              fun j => if Z.eqb j 0 then 0 else iS_ (j - 1)%Z,
              fun j => if Z.eqb j (O + 1) then 0 else fS_ j)
      else
        Some (i_init_min, (i_init_min + O)%Z,
              fun j => if Z.eqb j (O + 1) then 0 else iS_ j,
              fun j => if Z.eqb j (O + 1) then 0 else fS_ j)
  | _, _ => None
  end.
