(** The branches of the shape functions on closed intervals, and the recursion they satisfy. *)
From Coq Require Import ZArith Reals Lra.
From Verif Require Import ShapeModel ShapeSpec.
Open Scope R_scope.

Ltac piece F := intros x Hx; unfold F, sqr, cube;
  repeat match goal with
  | |- context [Rlt_dec ?a ?b] => destruct (Rlt_dec a b); [try lra|try lra]
  | |- context [Rle_dec ?a ?b] => destruct (Rle_dec a b); [try lra|try lra]
  end;
  (reflexivity || (exfalso; lra) || (match type of Hx with ?a <= _ <= ?b =>
     let E := fresh in (assert (E : x = a) by lra; subst x; lra) || (assert (E : x = b) by lra; subst x; lra) end)).

Lemma S1_0 : forall x, 0 <= x <= 1 -> S1 x = 1 - x.
Proof. piece S1. Qed.
Lemma S1_out : forall x, 1 <= x -> S1 x = 0.
Proof. intros x Hx. destruct (Req_dec x 1) as [->|Hn]; [rewrite S1_0 by lra; unfold sqr, cube; lra|].
  unfold S1. repeat match goal with |- context [Rlt_dec ?a ?b] => destruct (Rlt_dec a b); [lra|] | |- context [Rle_dec ?a ?b] => destruct (Rle_dec a b); [lra|] end. reflexivity. Qed.
Lemma S2_0 : forall x, 0 <= x <= (1/2) -> S2 x = (3/4) - sqr x.
Proof. piece S2. Qed.
Lemma S2_1 : forall x, (1/2) <= x <= (3/2) -> S2 x = (1/2) * sqr ((3/2) - x).
Proof. piece S2. Qed.
Lemma S2_out : forall x, (3/2) <= x -> S2 x = 0.
Proof. intros x Hx. destruct (Req_dec x (3/2)) as [->|Hn]; [rewrite S2_1 by lra; unfold sqr, cube; lra|].
  unfold S2. repeat match goal with |- context [Rlt_dec ?a ?b] => destruct (Rlt_dec a b); [lra|] | |- context [Rle_dec ?a ?b] => destruct (Rle_dec a b); [lra|] end. reflexivity. Qed.
Lemma S3_0 : forall x, 0 <= x <= 1 -> S3 x = (2/3) - sqr x + (1/2) * cube x.
Proof. piece S3. Qed.
Lemma S3_1 : forall x, 1 <= x <= 2 -> S3 x = (4/3) - 2 * x + sqr x - (1/6) * cube x.
Proof. piece S3. Qed.
Lemma S3_out : forall x, 2 <= x -> S3 x = 0.
Proof. intros x Hx. destruct (Req_dec x 2) as [->|Hn]; [rewrite S3_1 by lra; unfold sqr, cube; lra|].
  unfold S3. repeat match goal with |- context [Rlt_dec ?a ?b] => destruct (Rlt_dec a b); [lra|] | |- context [Rle_dec ?a ?b] => destruct (Rle_dec a b); [lra|] end. reflexivity. Qed.
Lemma S4_0 : forall x, 0 <= x <= (1/2) -> S4 x = (115/192) - (5/8) * sqr x + (1/4) * sqr (sqr x).
Proof. piece S4. Qed.
Lemma S4_1 : forall x, (1/2) <= x <= (3/2) -> S4 x = (55/96) + (5/24) * x - (5/4) * sqr x + (5/6) * cube x - (1/6) * sqr (sqr x).
Proof. piece S4. Qed.
Lemma S4_2 : forall x, (3/2) <= x <= (5/2) -> S4 x = (625/384) - (125/48) * x + (25/16) * sqr x - (5/12) * cube x + (1/24) * sqr (sqr x).
Proof. piece S4. Qed.
Lemma S4_out : forall x, (5/2) <= x -> S4 x = 0.
Proof. intros x Hx. destruct (Req_dec x (5/2)) as [->|Hn]; [rewrite S4_2 by lra; unfold sqr, cube; lra|].
  unfold S4. repeat match goal with |- context [Rlt_dec ?a ?b] => destruct (Rlt_dec a b); [lra|] | |- context [Rle_dec ?a ?b] => destruct (Rle_dec a b); [lra|] end. reflexivity. Qed.
Lemma S5_0 : forall x, 0 <= x <= 1 -> S5 x = (11/20) - (1/2) * sqr x + (1/4) * sqr (sqr x) - (1/12) * cube x * sqr x.
Proof. piece S5. Qed.
Lemma S5_1 : forall x, 1 <= x <= 2 -> S5 x = (17/40) + (5/8) * x - (7/4) * sqr x + (5/4) * cube x - (3/8) * sqr (sqr x) + (1/24) * cube x * sqr x.
Proof. piece S5. Qed.
Lemma S5_2 : forall x, 2 <= x <= 3 -> S5 x = (81/40) - (27/8) * x + (9/4) * sqr x - (3/4) * cube x + (1/8) * sqr (sqr x) - (1/120) * cube x * sqr x.
Proof. piece S5. Qed.
Lemma S5_out : forall x, 3 <= x -> S5 x = 0.
Proof. intros x Hx. destruct (Req_dec x 3) as [->|Hn]; [rewrite S5_2 by lra; unfold sqr, cube; lra|].
  unfold S5. repeat match goal with |- context [Rlt_dec ?a ?b] => destruct (Rlt_dec a b); [lra|] | |- context [Rle_dec ?a ?b] => destruct (Rle_dec a b); [lra|] end. reflexivity. Qed.
Lemma S6_0 : forall x, 0 <= x <= (1/2) -> S6 x = (5887/11520) - (77/192) * sqr x + (7/48) * sqr (sqr x) - (1/36) * sqr (cube x).
Proof. piece S6. Qed.
Lemma S6_1 : forall x, (1/2) <= x <= (3/2) -> S6 x = (7861/15360) - (7/768) * x - (91/256) * sqr x - (35/288) * cube x + (21/64) * sqr (sqr x) - (7/48) * cube x * sqr x + (1/48) * sqr (cube x).
Proof. piece S6. Qed.
Lemma S6_2 : forall x, (3/2) <= x <= (5/2) -> S6 x = (1379/7680) + (1267/960) * x - (329/128) * sqr x + (133/72) * cube x - (21/32) * sqr (sqr x) + (7/60) * cube x * sqr x - (1/120) * sqr (cube x).
Proof. piece S6. Qed.
Lemma S6_3 : forall x, (5/2) <= x <= (7/2) -> S6 x = (117649/46080) - (16807/3840) * x + (2401/768) * sqr x - (343/288) * cube x + (49/192) * sqr (sqr x) - (7/240) * cube x * sqr x + (1/720) * sqr (cube x).
Proof. piece S6. Qed.
Lemma S6_out : forall x, (7/2) <= x -> S6 x = 0.
Proof. intros x Hx. destruct (Req_dec x (7/2)) as [->|Hn]; [rewrite S6_3 by lra; unfold sqr, cube; lra|].
  unfold S6. repeat match goal with |- context [Rlt_dec ?a ?b] => destruct (Rlt_dec a b); [lra|] | |- context [Rle_dec ?a ?b] => destruct (Rle_dec a b); [lra|] end. reflexivity. Qed.
Lemma S7_0 : forall x, 0 <= x <= 1 -> S7 x = (151/315) - (1/3) * sqr x + (1/9) * sqr (sqr x) - (1/36) * sqr (sqr x) * sqr x + (1/144) * sqr (sqr x) * cube x.
Proof. piece S7. Qed.
Lemma S7_1 : forall x, 1 <= x <= 2 -> S7 x = (103/210) - (7/90) * x - (1/10) * sqr x - (7/18) * cube x + (1/2) * sqr (sqr x) - (7/30) * cube x * sqr x + (1/20) * sqr (sqr x) * sqr x - (1/240) * sqr (sqr x) * cube x.
Proof. piece S7. Qed.
Lemma S7_2 : forall x, 2 <= x <= 3 -> S7 x = (217/90) * x - (23/6) * sqr x + (49/18) * cube x - (19/18) * sqr (sqr x) + (7/30) * cube x * sqr x - (1/36) * sqr (sqr x) * sqr x + (1/720) * sqr (sqr x) * cube x - (139/630).
Proof. piece S7. Qed.
Lemma S7_3 : forall x, 3 <= x <= 4 -> S7 x = (1024/315) - (256/45) * x + (64/15) * sqr x - (16/9) * cube x + (4/9) * sqr (sqr x) - (1/15) * cube x * sqr x + (1/180) * sqr (sqr x) * sqr x - (1/5040) * sqr (sqr x) * cube x.
Proof. piece S7. Qed.
Lemma S7_out : forall x, 4 <= x -> S7 x = 0.
Proof. intros x Hx. destruct (Req_dec x 4) as [->|Hn]; [rewrite S7_3 by lra; unfold sqr, cube; lra|].
  unfold S7. repeat match goal with |- context [Rlt_dec ?a ?b] => destruct (Rlt_dec a b); [lra|] | |- context [Rle_dec ?a ?b] => destruct (Rle_dec a b); [lra|] end. reflexivity. Qed.
Lemma S8_0 : forall x, 0 <= x <= (1/2) -> S8 x = (259723/573440) - (289/1024) * sqr x + (43/512) * sqr (sqr x) - (1/64) * sqr (sqr x) * sqr x + (1/576) * sqr (sqr (sqr x)).
Proof. piece S8. Qed.
Lemma S8_1 : forall x, (1/2) <= x <= (3/2) -> S8 x = (64929/143360) + (1/5120) * x - (363/1280) * sqr x + (7/1280) * cube x + (9/128) * sqr (sqr x) + (7/320) * cube x * sqr x - (3/80) * sqr (cube x) + (1/80) * sqr (sqr x) * cube x - (1/720) * sqr (sqr (sqr x)).
Proof. piece S8. Qed.
Lemma S8_2 : forall x, (3/2) <= x <= (5/2) -> S8 x = (145167/286720) - (1457/5120) * x + (195/512) * sqr x - (1127/1280) * cube x + (207/256) * sqr (sqr x) - (119/320) * cube x * sqr x + (3/32) * sqr (cube x) - (1/80) * sqr (sqr x) * cube x + (1/1440) * sqr (sqr (sqr x)).
Proof. piece S8. Qed.
Lemma S8_3 : forall x, (5/2) <= x <= (7/2) -> S8 x = (146051/35840) * x - (1465/256) * sqr x + (5123/1280) * cube x - (209/128) * sqr (sqr x) + (131/320) * cube x * sqr x - (1/16) * sqr (cube x) + (3/560) * sqr (sqr x) * cube x - (1/5040) * sqr (sqr (sqr x)) - (122729/143360).
Proof. piece S8. Qed.
Lemma S8_4 : forall x, (7/2) <= x <= (9/2) -> S8 x = (4782969/1146880) - (531441/71680) * x + (59049/10240) * sqr x - (6561/2560) * cube x + (729/1024) * sqr (sqr x) - (81/640) * cube x * sqr x + (9/640) * sqr (cube x) - (1/1120) * sqr (sqr x) * cube x + (1/40320) * sqr (sqr (sqr x)).
Proof. piece S8. Qed.
Lemma S8_out : forall x, (9/2) <= x -> S8 x = 0.
Proof. intros x Hx. destruct (Req_dec x (9/2)) as [->|Hn]; [rewrite S8_4 by lra; unfold sqr, cube; lra|].
  unfold S8. repeat match goal with |- context [Rlt_dec ?a ?b] => destruct (Rlt_dec a b); [lra|] | |- context [Rle_dec ?a ?b] => destruct (Rle_dec a b); [lra|] end. reflexivity. Qed.
Lemma S9_0 : forall x, 0 <= x <= 1 -> S9 x = (15619/36288) - (35/144) * sqr x + (19/288) * sqr (sqr x) - (5/432) * sqr (cube x) + (1/576) * sqr (sqr (sqr x)) - (1/2880) * sqr (sqr (sqr x)) * x.
Proof. piece S9. Qed.
Lemma S9_1 : forall x, 1 <= x <= 2 -> S9 x = (7799/18144) + (1/192) * x - (19/72) * sqr x + (7/144) * cube x - (1/144) * sqr (sqr x) + (7/96) * cube x * sqr x - (13/216) * sqr (cube x) + (1/48) * sqr (sqr x) * cube x - (1/288) * sqr (sqr (sqr x)) + (1/4320) * cube (cube x).
Proof. piece S9. Qed.
Lemma S9_2 : forall x, 2 <= x <= 3 -> S9 x = (1553/2592) - (339/448) * x + (635/504) * sqr x - (83/48) * cube x + (191/144) * sqr (sqr x) - (19/32) * cube x * sqr x + (35/216) * sqr (cube x) - (3/112) * sqr (sqr x) * cube x + (5/2016) * sqr (sqr (sqr x)) - (1/10080) * cube (cube x).
Proof. piece S9. Qed.
Lemma S9_3 : forall x, 3 <= x <= 4 -> S9 x = (5883/896) * x - (2449/288) * sqr x + (563/96) * cube x - (1423/576) * sqr (sqr x) + (43/64) * cube x * sqr x - (103/864) * sqr (cube x) + (3/224) * sqr (sqr x) * cube x - (1/1152) * sqr (sqr (sqr x)) + (1/40320) * cube (cube x) - (133663/72576).
Proof. piece S9. Qed.
Lemma S9_4 : forall x, 4 <= x <= 5 -> S9 x = (390625/72576) - (78125/8064) * x + (15625/2016) * sqr x - (3125/864) * cube x + (625/576) * sqr (sqr x) - (125/576) * cube x * sqr x + (25/864) * sqr (cube x) - (5/2016) * sqr (sqr x) * cube x + (1/8064) * sqr (sqr (sqr x)) - (1/362880) * cube (cube x).
Proof. piece S9. Qed.
Lemma S9_out : forall x, 5 <= x -> S9 x = 0.
Proof. intros x Hx. destruct (Req_dec x 5) as [->|Hn]; [rewrite S9_4 by lra; unfold sqr, cube; lra|].
  unfold S9. repeat match goal with |- context [Rlt_dec ?a ?b] => destruct (Rlt_dec a b); [lra|] | |- context [Rle_dec ?a ?b] => destruct (Rle_dec a b); [lra|] end. reflexivity. Qed.
Lemma S10_0 : forall x, 0 <= x <= (1/2) -> S10 x = (381773117/928972800) - (156409/737280) * sqr x + (14597/276480) * sqr (sqr x) - (583/69120) * sqr (cube x) + (11/11520) * sqr (sqr (sqr x)) - (1/14400) * sqr (sqr (sqr x)) * sqr x.
Proof. piece S10. Qed.
Lemma S10_1 : forall x, (1/2) <= x <= (3/2) -> S10 x = (152709293/371589120) - (11/4423680) * x - (62557/294912) * sqr x - (11/92160) * cube x + (5885/110592) * sqr (sqr x) - (77/76800) * cube x * sqr x - (187/27648) * sqr (cube x) - (11/5760) * sqr (cube x) * x + (11/4608) * sqr (sqr (sqr x)) - (11/17280) * sqr (sqr (sqr x)) * x + (1/17280) * sqr (sqr (sqr x)) * sqr x.
Proof. piece S10. Qed.
Lemma S10_2 : forall x, (3/2) <= x <= (5/2) -> S10 x = (37690169/92897280) + (135311/3870720) * x - (163603/516096) * sqr x + (7513/40320) * cube x - (4543/27648) * sqr (sqr x) + (1661/9600) * cube x * sqr x - (715/6912) * sqr (cube x) + (11/315) * sqr (cube x) * x - (55/8064) * sqr (sqr (sqr x)) + (11/15120) * sqr (sqr (sqr x)) * x - (1/30240) * sqr (sqr (sqr x)) * sqr x.
Proof. piece S10. Qed.
Lemma S10_3 : forall x, (5/2) <= x <= (7/2) -> S10 x = (623786977/743178240) - (11695211/6881280) * x + (1654543/589824) * sqr x - (1352153/430080) * cube x + (479281/221184) * sqr (sqr x) - (48433/51200) * cube x * sqr x + (14905/55296) * sqr (cube x) - (451/8960) * sqr (cube x) * x + (55/9216) * sqr (sqr (sqr x)) - (11/26880) * sqr (sqr (sqr x)) * x + (1/80640) * sqr (sqr (sqr x)) * sqr x.
Proof. piece S10. Qed.
Lemma S10_4 : forall x, (7/2) <= x <= (9/2) -> S10 x = ((-1241720381)/371589120) + (237959711/23224320) * x - (3702215/294912) * sqr x + (2070343/241920) * cube x - (407429/110592) * sqr (sqr x) + (61061/57600) * cube x * sqr x - (5753/27648) * sqr (cube x) + (209/7560) * sqr (cube x) * x - (11/4608) * sqr (sqr (sqr x)) + (11/90720) * sqr (sqr (sqr x)) * x - (1/362880) * sqr (sqr (sqr x)) * sqr x.
Proof. piece S10. Qed.
Lemma S10_5 : forall x, (9/2) <= x <= (11/2) -> S10 x = (25937424601/3715891200) - (2357947691/185794560) * x + (214358881/20643840) * sqr x - (19487171/3870720) * cube x + (1771561/1105920) * sqr (sqr x) - (161051/460800) * cube x * sqr x + (14641/276480) * sqr (cube x) - (1331/241920) * sqr (cube x) * x + (121/322560) * sqr (sqr (sqr x)) - (11/725760) * sqr (sqr (sqr x)) * x + (1/3628800) * sqr (sqr (sqr x)) * sqr x.
Proof. piece S10. Qed.
Lemma S10_out : forall x, (11/2) <= x -> S10 x = 0.
Proof. intros x Hx. destruct (Req_dec x (11/2)) as [->|Hn]; [rewrite S10_5 by lra; unfold sqr, cube; lra|].
  unfold S10. repeat match goal with |- context [Rlt_dec ?a ?b] => destruct (Rlt_dec a b); [lra|] | |- context [Rle_dec ?a ?b] => destruct (Rle_dec a b); [lra|] end. reflexivity. Qed.
Lemma S11_0 : forall x, 0 <= x <= 1 -> S11 x = (655177/1663200) - (809/4320) * sqr x + (31/720) * sqr (sqr x) - (23/3600) * cube (sqr x) + (1/1440) * sqr (sqr (sqr x)) - (1/14400) * sqr (sqr (sqr x)) * sqr x + (1/86400) * sqr (sqr (sqr x)) * sqr x * x.
Proof. piece S11. Qed.
Lemma S11_1 : forall x, 1 <= x <= 2 -> S11 x = (65521/166320) - (11/50400) * x - (563/3024) * sqr x - (11/3360) * cube x + (25/504) * sqr (sqr x) - (11/1200) * cube x * sqr x + (1/360) * sqr (cube x) - (11/1680) * sqr (cube x) * x + (1/252) * sqr (sqr (sqr x)) - (11/10080) * sqr (sqr (sqr x)) * x + (1/6720) * sqr (sqr (sqr x)) * sqr x - (1/120960) * sqr (sqr (sqr x)) * sqr x * x.
Proof. piece S11. Qed.
Lemma S11_2 : forall x, 2 <= x <= 3 -> S11 x = (61297/166320) + (781/5600) * x - (1619/3024) * sqr x + (583/1120) * cube x - (239/504) * sqr (sqr x) + (143/400) * cube x * sqr x - (13/72) * sqr (cube x) + (33/560) * sqr (cube x) * x - (25/2016) * sqr (sqr (sqr x)) + (11/6720) * sqr (sqr (sqr x)) * x - (1/8064) * sqr (sqr (sqr x)) * sqr x + (1/241920) * sqr (sqr (sqr x)) * sqr x * x.
Proof. piece S11. Qed.
Lemma S11_3 : forall x, 3 <= x <= 4 -> S11 x = (894727/665280) - (38533/11200) * x + (9385/1728) * sqr x - (12199/2240) * cube x + (1009/288) * sqr (sqr x) - (1199/800) * cube x * sqr x + (631/1440) * sqr (cube x) - (99/1120) * sqr (cube x) * x + (7/576) * sqr (sqr (sqr x)) - (11/10080) * sqr (sqr (sqr x)) * x + (1/17280) * sqr (sqr (sqr x)) * sqr x - (1/725760) * sqr (sqr (sqr x)) * sqr x * x.
Proof. piece S11. Qed.
Lemma S11_4 : forall x, 4 <= x <= 5 -> S11 x = -(18595037/3326400) + (4726777/302400) * x - (1113317/60480) * sqr x + (250657/20160) * cube x - (54797/10080) * sqr (sqr x) + (11737/7200) * cube x * sqr x - (2477/7200) * sqr (cube x) + (517/10080) * sqr (cube x) * x - (107/20160) * sqr (sqr (sqr x)) + (11/30240) * sqr (sqr (sqr x)) * x - (1/67200) * sqr (sqr (sqr x)) * sqr x + (1/3628800) * sqr (sqr (sqr x)) * sqr x * x.
Proof. piece S11. Qed.
Lemma S11_5 : forall x, 5 <= x <= 6 -> S11 x = (17496/1925) - (2916/175) * x + (486/35) * sqr x - (243/35) * cube x + (81/35) * sqr (sqr x) - (27/50) * cube x * sqr x + (9/100) * sqr (cube x) - (3/280) * sqr (cube x) * x + (1/1120) * sqr (sqr (sqr x)) - (1/20160) * sqr (sqr (sqr x)) * x + (1/604800) * sqr (sqr (sqr x)) * sqr x - (1/39916800) * sqr (sqr (sqr x)) * sqr x * x.
Proof. piece S11. Qed.
Lemma S11_out : forall x, 6 <= x -> S11 x = 0.
Proof. intros x Hx. destruct (Req_dec x 6) as [->|Hn]; [rewrite S11_5 by lra; unfold sqr, cube; lra|].
  unfold S11. repeat match goal with |- context [Rlt_dec ?a ?b] => destruct (Rlt_dec a b); [lra|] | |- context [Rle_dec ?a ?b] => destruct (Rle_dec a b); [lra|] end. reflexivity. Qed.

Ltac same := unfold sqr, cube; lra.

Lemma S2_rec : forall x, 0 <= x -> S2 x = (((3/2) + x) * S1 (x + 1/2) + ((3/2) - x) * S1 (Rabs (x - 1/2))) / 2.
Proof.
  intros x Hx.
  destruct (Rle_dec x (1/2)) as [H0|H0].
  { rewrite Rabs_left1 by lra. rewrite S2_0, S1_0, S1_0 by lra. same. }
  rewrite Rabs_pos_eq by lra.
  destruct (Rle_dec x 1) as [H1|H1].
  { rewrite S2_1, S1_out, S1_0 by lra. same. }
  destruct (Rle_dec x (3/2)) as [H2|H2].
  { rewrite S2_1, S1_out, S1_0 by lra. same. }
  rewrite S2_out, S1_out, S1_out by lra. lra.
Qed.

Lemma S3_rec : forall x, 0 <= x -> S3 x = ((2 + x) * S2 (x + 1/2) + (2 - x) * S2 (Rabs (x - 1/2))) / 3.
Proof.
  intros x Hx.
  destruct (Rle_dec x (1/2)) as [H0|H0].
  { rewrite Rabs_left1 by lra. rewrite S3_0, S2_1, S2_0 by lra. same. }
  rewrite Rabs_pos_eq by lra.
  destruct (Rle_dec x 1) as [H1|H1].
  { rewrite S3_0, S2_1, S2_0 by lra. same. }
  destruct (Rle_dec x (3/2)) as [H2|H2].
  { rewrite S3_1, S2_out, S2_1 by lra. same. }
  destruct (Rle_dec x 2) as [H3|H3].
  { rewrite S3_1, S2_out, S2_1 by lra. same. }
  rewrite S3_out, S2_out, S2_out by lra. lra.
Qed.

Lemma S4_rec : forall x, 0 <= x -> S4 x = (((5/2) + x) * S3 (x + 1/2) + ((5/2) - x) * S3 (Rabs (x - 1/2))) / 4.
Proof.
  intros x Hx.
  destruct (Rle_dec x (1/2)) as [H0|H0].
  { rewrite Rabs_left1 by lra. rewrite S4_0, S3_0, S3_0 by lra. same. }
  rewrite Rabs_pos_eq by lra.
  destruct (Rle_dec x 1) as [H1|H1].
  { rewrite S4_1, S3_1, S3_0 by lra. same. }
  destruct (Rle_dec x (3/2)) as [H2|H2].
  { rewrite S4_1, S3_1, S3_0 by lra. same. }
  destruct (Rle_dec x 2) as [H3|H3].
  { rewrite S4_2, S3_out, S3_1 by lra. same. }
  destruct (Rle_dec x (5/2)) as [H4|H4].
  { rewrite S4_2, S3_out, S3_1 by lra. same. }
  rewrite S4_out, S3_out, S3_out by lra. lra.
Qed.

Lemma S5_rec : forall x, 0 <= x -> S5 x = ((3 + x) * S4 (x + 1/2) + (3 - x) * S4 (Rabs (x - 1/2))) / 5.
Proof.
  intros x Hx.
  destruct (Rle_dec x (1/2)) as [H0|H0].
  { rewrite Rabs_left1 by lra. rewrite S5_0, S4_1, S4_0 by lra. same. }
  rewrite Rabs_pos_eq by lra.
  destruct (Rle_dec x 1) as [H1|H1].
  { rewrite S5_0, S4_1, S4_0 by lra. same. }
  destruct (Rle_dec x (3/2)) as [H2|H2].
  { rewrite S5_1, S4_2, S4_1 by lra. same. }
  destruct (Rle_dec x 2) as [H3|H3].
  { rewrite S5_1, S4_2, S4_1 by lra. same. }
  destruct (Rle_dec x (5/2)) as [H4|H4].
  { rewrite S5_2, S4_out, S4_2 by lra. same. }
  destruct (Rle_dec x 3) as [H5|H5].
  { rewrite S5_2, S4_out, S4_2 by lra. same. }
  rewrite S5_out, S4_out, S4_out by lra. lra.
Qed.

Lemma S6_rec : forall x, 0 <= x -> S6 x = (((7/2) + x) * S5 (x + 1/2) + ((7/2) - x) * S5 (Rabs (x - 1/2))) / 6.
Proof.
  intros x Hx.
  destruct (Rle_dec x (1/2)) as [H0|H0].
  { rewrite Rabs_left1 by lra. rewrite S6_0, S5_0, S5_0 by lra. same. }
  rewrite Rabs_pos_eq by lra.
  destruct (Rle_dec x 1) as [H1|H1].
  { rewrite S6_1, S5_1, S5_0 by lra. same. }
  destruct (Rle_dec x (3/2)) as [H2|H2].
  { rewrite S6_1, S5_1, S5_0 by lra. same. }
  destruct (Rle_dec x 2) as [H3|H3].
  { rewrite S6_2, S5_2, S5_1 by lra. same. }
  destruct (Rle_dec x (5/2)) as [H4|H4].
  { rewrite S6_2, S5_2, S5_1 by lra. same. }
  destruct (Rle_dec x 3) as [H5|H5].
  { rewrite S6_3, S5_out, S5_2 by lra. same. }
  destruct (Rle_dec x (7/2)) as [H6|H6].
  { rewrite S6_3, S5_out, S5_2 by lra. same. }
  rewrite S6_out, S5_out, S5_out by lra. lra.
Qed.

Lemma S7_rec : forall x, 0 <= x -> S7 x = ((4 + x) * S6 (x + 1/2) + (4 - x) * S6 (Rabs (x - 1/2))) / 7.
Proof.
  intros x Hx.
  destruct (Rle_dec x (1/2)) as [H0|H0].
  { rewrite Rabs_left1 by lra. rewrite S7_0, S6_1, S6_0 by lra. same. }
  rewrite Rabs_pos_eq by lra.
  destruct (Rle_dec x 1) as [H1|H1].
  { rewrite S7_0, S6_1, S6_0 by lra. same. }
  destruct (Rle_dec x (3/2)) as [H2|H2].
  { rewrite S7_1, S6_2, S6_1 by lra. same. }
  destruct (Rle_dec x 2) as [H3|H3].
  { rewrite S7_1, S6_2, S6_1 by lra. same. }
  destruct (Rle_dec x (5/2)) as [H4|H4].
  { rewrite S7_2, S6_3, S6_2 by lra. same. }
  destruct (Rle_dec x 3) as [H5|H5].
  { rewrite S7_2, S6_3, S6_2 by lra. same. }
  destruct (Rle_dec x (7/2)) as [H6|H6].
  { rewrite S7_3, S6_out, S6_3 by lra. same. }
  destruct (Rle_dec x 4) as [H7|H7].
  { rewrite S7_3, S6_out, S6_3 by lra. same. }
  rewrite S7_out, S6_out, S6_out by lra. lra.
Qed.

Lemma S8_rec : forall x, 0 <= x -> S8 x = (((9/2) + x) * S7 (x + 1/2) + ((9/2) - x) * S7 (Rabs (x - 1/2))) / 8.
Proof.
  intros x Hx.
  destruct (Rle_dec x (1/2)) as [H0|H0].
  { rewrite Rabs_left1 by lra. rewrite S8_0, S7_0, S7_0 by lra. same. }
  rewrite Rabs_pos_eq by lra.
  destruct (Rle_dec x 1) as [H1|H1].
  { rewrite S8_1, S7_1, S7_0 by lra. same. }
  destruct (Rle_dec x (3/2)) as [H2|H2].
  { rewrite S8_1, S7_1, S7_0 by lra. same. }
  destruct (Rle_dec x 2) as [H3|H3].
  { rewrite S8_2, S7_2, S7_1 by lra. same. }
  destruct (Rle_dec x (5/2)) as [H4|H4].
  { rewrite S8_2, S7_2, S7_1 by lra. same. }
  destruct (Rle_dec x 3) as [H5|H5].
  { rewrite S8_3, S7_3, S7_2 by lra. same. }
  destruct (Rle_dec x (7/2)) as [H6|H6].
  { rewrite S8_3, S7_3, S7_2 by lra. same. }
  destruct (Rle_dec x 4) as [H7|H7].
  { rewrite S8_4, S7_out, S7_3 by lra. same. }
  destruct (Rle_dec x (9/2)) as [H8|H8].
  { rewrite S8_4, S7_out, S7_3 by lra. same. }
  rewrite S8_out, S7_out, S7_out by lra. lra.
Qed.

Lemma S9_rec : forall x, 0 <= x -> S9 x = ((5 + x) * S8 (x + 1/2) + (5 - x) * S8 (Rabs (x - 1/2))) / 9.
Proof.
  intros x Hx.
  destruct (Rle_dec x (1/2)) as [H0|H0].
  { rewrite Rabs_left1 by lra. rewrite S9_0, S8_1, S8_0 by lra. same. }
  rewrite Rabs_pos_eq by lra.
  destruct (Rle_dec x 1) as [H1|H1].
  { rewrite S9_0, S8_1, S8_0 by lra. same. }
  destruct (Rle_dec x (3/2)) as [H2|H2].
  { rewrite S9_1, S8_2, S8_1 by lra. same. }
  destruct (Rle_dec x 2) as [H3|H3].
  { rewrite S9_1, S8_2, S8_1 by lra. same. }
  destruct (Rle_dec x (5/2)) as [H4|H4].
  { rewrite S9_2, S8_3, S8_2 by lra. same. }
  destruct (Rle_dec x 3) as [H5|H5].
  { rewrite S9_2, S8_3, S8_2 by lra. same. }
  destruct (Rle_dec x (7/2)) as [H6|H6].
  { rewrite S9_3, S8_4, S8_3 by lra. same. }
  destruct (Rle_dec x 4) as [H7|H7].
  { rewrite S9_3, S8_4, S8_3 by lra. same. }
  destruct (Rle_dec x (9/2)) as [H8|H8].
  { rewrite S9_4, S8_out, S8_4 by lra. same. }
  destruct (Rle_dec x 5) as [H9|H9].
  { rewrite S9_4, S8_out, S8_4 by lra. same. }
  rewrite S9_out, S8_out, S8_out by lra. lra.
Qed.

Lemma S10_rec : forall x, 0 <= x -> S10 x = (((11/2) + x) * S9 (x + 1/2) + ((11/2) - x) * S9 (Rabs (x - 1/2))) / 10.
Proof.
  intros x Hx.
  destruct (Rle_dec x (1/2)) as [H0|H0].
  { rewrite Rabs_left1 by lra. rewrite S10_0, S9_0, S9_0 by lra. same. }
  rewrite Rabs_pos_eq by lra.
  destruct (Rle_dec x 1) as [H1|H1].
  { rewrite S10_1, S9_1, S9_0 by lra. same. }
  destruct (Rle_dec x (3/2)) as [H2|H2].
  { rewrite S10_1, S9_1, S9_0 by lra. same. }
  destruct (Rle_dec x 2) as [H3|H3].
  { rewrite S10_2, S9_2, S9_1 by lra. same. }
  destruct (Rle_dec x (5/2)) as [H4|H4].
  { rewrite S10_2, S9_2, S9_1 by lra. same. }
  destruct (Rle_dec x 3) as [H5|H5].
  { rewrite S10_3, S9_3, S9_2 by lra. same. }
  destruct (Rle_dec x (7/2)) as [H6|H6].
  { rewrite S10_3, S9_3, S9_2 by lra. same. }
  destruct (Rle_dec x 4) as [H7|H7].
  { rewrite S10_4, S9_4, S9_3 by lra. same. }
  destruct (Rle_dec x (9/2)) as [H8|H8].
  { rewrite S10_4, S9_4, S9_3 by lra. same. }
  destruct (Rle_dec x 5) as [H9|H9].
  { rewrite S10_5, S9_out, S9_4 by lra. same. }
  destruct (Rle_dec x (11/2)) as [H10|H10].
  { rewrite S10_5, S9_out, S9_4 by lra. same. }
  rewrite S10_out, S9_out, S9_out by lra. lra.
Qed.

Lemma S11_rec : forall x, 0 <= x -> S11 x = ((6 + x) * S10 (x + 1/2) + (6 - x) * S10 (Rabs (x - 1/2))) / 11.
Proof.
  intros x Hx.
  destruct (Rle_dec x (1/2)) as [H0|H0].
  { rewrite Rabs_left1 by lra. rewrite S11_0, S10_1, S10_0 by lra. same. }
  rewrite Rabs_pos_eq by lra.
  destruct (Rle_dec x 1) as [H1|H1].
  { rewrite S11_0, S10_1, S10_0 by lra. same. }
  destruct (Rle_dec x (3/2)) as [H2|H2].
  { rewrite S11_1, S10_2, S10_1 by lra. same. }
  destruct (Rle_dec x 2) as [H3|H3].
  { rewrite S11_1, S10_2, S10_1 by lra. same. }
  destruct (Rle_dec x (5/2)) as [H4|H4].
  { rewrite S11_2, S10_3, S10_2 by lra. same. }
  destruct (Rle_dec x 3) as [H5|H5].
  { rewrite S11_2, S10_3, S10_2 by lra. same. }
  destruct (Rle_dec x (7/2)) as [H6|H6].
  { rewrite S11_3, S10_4, S10_3 by lra. same. }
  destruct (Rle_dec x 4) as [H7|H7].
  { rewrite S11_3, S10_4, S10_3 by lra. same. }
  destruct (Rle_dec x (9/2)) as [H8|H8].
  { rewrite S11_4, S10_5, S10_4 by lra. same. }
  destruct (Rle_dec x 5) as [H9|H9].
  { rewrite S11_4, S10_5, S10_4 by lra. same. }
  destruct (Rle_dec x (11/2)) as [H10|H10].
  { rewrite S11_5, S10_out, S10_5 by lra. same. }
  destruct (Rle_dec x 6) as [H11|H11].
  { rewrite S11_5, S10_out, S10_5 by lra. same. }
  rewrite S11_out, S10_out, S10_out by lra. lra.
Qed.
