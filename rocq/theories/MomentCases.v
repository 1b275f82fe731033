(** Concrete cases for particle moments. *)
From Coq Require Import ZArith List Bool Reals Lra Lia Permutation.
From Verif Require Import Base ListLemmas ShapeModel ShapeSpec ShapeProofs HaloSpec SyncProofs GaussProofs
  MomentModel MomentSpec MomentProofs MomentTop.
Import ListNotations.
Open Scope R_scope.

(** Spherical coordinates, 4 x 4 cells, both axes, spline of order 1, unit volume. *)
Definition polar : mcfg := {|
  ghosts := 2; cartesian := false; axis_min := true; axis_max := true; ni2 := 4;
  inv_n0 := 1; use_weights := true; order_ := 1; method := SPLINE;
  sqrt_det_h := fun _ => 1; frame := cartesian_frame |}.
Definition one (i2 : Z) (x2 : R) : species := {|
  smass := 1; scharge := 1;
  sparts := [ {| ptag := 1; ppos := [(1%Z, 1/2); (i2, x2)]; pvel := (0, 0, 0); pweight := 1 |} ] |}.

Lemma polar_supported : supported polar.
Proof. split; cbn; [intros _; lia|]. change (window 1) with 1%Z. lia. Qed.
Lemma id_order : any_order (fun l => l).
Proof. intros l. apply Permutation_refl. Qed.
Lemma one_ok i2 x2 : Forall (species_ok Rho) [one i2 x2].
Proof. repeat constructor. cbn. lra. Qed.
Lemma one_inside i2 x2 : (0 <= i2 < 4)%Z -> 0 <= x2 <= 1 ->
  forall s p, In s [one i2 x2] -> In p (sparts s) -> live p = true -> inside [4; 4]%Z p.
Proof.
  intros H1 H2 s p [<-|[]] [<-|[]] _. split; cbn.
  - constructor; [lia|]. constructor; [lia|constructor].
  - constructor; [cbn; lra|]. constructor; [cbn; lra|constructor].
Qed.

(** A quarter of the mass of a particle in the last row is lost. *)
Lemma axis_loses : exists b', compute_moments polar Rho [one 3 (3/4)] [1%Z] 0 0 (fun l => l) (fun _ => 0) = Some b' /\
  total polar Rho [one 3 (3/4)] 0 0 = 1 /\ rsum (rows 2 [4; 4]%Z) b' = 3/4.
Proof.
  destruct (moments_axis polar Rho [one 3 (3/4)] [1%Z] 0 0 [one 3 (3/4)] (fun l => l) (fun _ => 0) [4; 4]%Z)
    as (b' & E & H).
  - apply polar_supported.
  - exact I.
  - repeat constructor.
  - apply one_ok.
  - apply id_order.
  - reflexivity.
  - reflexivity.
  - reflexivity.
  - cbn. lia.
  - reflexivity.
  - reflexivity.
  - apply one_inside; [lia|lra].
  - exists b'. split; [exact E|].
    assert (ET : total polar Rho [one 3 (3/4)] 0 0 = 1).
    { unfold total, rsum, contribution, quantity. cbn. lra. }
    split; [exact ET|]. change (ghosts polar) with 2%Z in H. rewrite H, ET, rsum_zero.
    unfold rsum. cbn [fold_right sparts one live ptag ppos]. unfold contribution, quantity, weight1.
    cbn [polar method order_ Nat.eqb ni2 use_weights inv_n0 sqrt_det_h smass one pweight negb Z.eqb].
    replace (IZR 3 + 3/4 - (IZR 4 + 1/2)) with (-(3/4)) by lra. rewrite bspline_1, Rabs_Ropp, Rabs_pos_eq by lra.
    unfold S1. unfold live. cbn [ptag negb Z.eqb]. destruct Rlt_dec; lra.
Qed.

(** Near the lower axis: a particle in the first row at a quarter of the cell.  A quarter of its
    mass belongs to the mirror image of the first row, but is added to the second. *)
Lemma mirror_wrong : exists b', compute_moments polar Rho [one 0 (1/4)] [1%Z] 0 0 (fun l => l) (fun _ => 0) = Some b' /\
  b' [3; 2]%Z = 3/4 /\ b' [3; 3]%Z = 1/4.
Proof.
  destruct (moments_at polar Rho [one 0 (1/4)] [1%Z] 0 0 [one 0 (1/4)] (fun l => l) (fun _ => 0)) as (b' & E & H).
  - apply polar_supported.
  - exact I.
  - repeat constructor.
  - apply one_ok.
  - apply id_order.
  - exists b'. split; [exact E|]. rewrite !H. unfold rsum. cbn [fold_right sparts one].
    unfold kadds. unfold live. cbn [ptag negb Z.eqb ppos]. cbn [length].
    change (offsets_d (window (order_ polar)) 2) with [[-1;-1];[0;-1];[1;-1];[-1;0];[0;0];[1;0];[-1;1];[0;1];[1;1]]%Z.
    cbn [map fold_right fst snd].
    assert (EC : forall a b, cell_index polar [(1%Z, 1/2); (0%Z, 1/4)] [a; b] = [1 + a + 2; index2 polar (0 + b)]%Z) by reflexivity.
    rewrite !EC. unfold index2. cbn [polar cartesian axis_min axis_max ni2 ghosts andb Z.ltb Z.leb Z.add Z.sub Z.compare Z.mul Pos.add Z.opp Z.pos_sub Pos.sub Z.double Z.pred_double Z.succ_double Pos.pred_double Pos.compare Pos.compare_cont Pos.succ Pos.mul].
    repeat match goal with |- context [list_eq_dec ?d ?x ?y] =>
      let E := fresh in destruct (list_eq_dec d x y) as [E|E]; [try discriminate E|try (exfalso; apply E; reflexivity)]; clear E end.
    assert (P : forall a b, prod_shape polar [(1%Z, 1/2); (0%Z, 1/4)] [a; b] =
      S1 (Rabs (1/2 - (IZR a + 1/2))) * (S1 (Rabs (1/4 - (IZR b + 1/2))) * 1)) by reflexivity.
    rewrite !P.
    replace (1/2 - (IZR 0 + 1/2)) with 0 by lra. replace (1/4 - (IZR 0 + 1/2)) with (-(1/4)) by lra.
    replace (1/4 - (IZR 1 + 1/2)) with (-(5/4)) by lra. replace (1/4 - (IZR (-1) + 1/2)) with (3/4) by lra.
    rewrite !Rabs_Ropp, Rabs_R0, !Rabs_pos_eq by lra.
    unfold contribution, quantity. cbn [polar use_weights inv_n0 sqrt_det_h smass one pweight].
    unfold S1. repeat destruct Rlt_dec; lra.
Qed.
