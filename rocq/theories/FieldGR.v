From Coq Require Import ZArith List Bool Lia Reals Lra Permutation FunctionalExtensionality.
From Verif Require Import Base FieldModel FieldSpec FieldProofs FieldTop.
Import ListNotations.
Open Scope R_scope.

Definition arr_eqb (a b : arr) : bool :=
  match a, b with Em, Em | Em0, Em0 | Aux, Aux => true | _, _ => false end.
Definition wr (p : comp -> bool) (a : arr) (k : arr * comp) : bool := arr_eqb (fst k) a && p (snd k).

Ltac ddg := cbv [body2 faraday_gr ampere_gr half set fst snd]; cbv [loc_eq_dec comp_eq_dec comp_rec comp_rect
  sumbool_rec sumbool_rect prod_rec prod_rect arr_rec arr_rect].
Ltac unw Hr :=
  repeat match goal with
  | |- context [?m (?a, ?c)] =>
     match type of Hr with context [m] => rewrite (functional_extensionality _ _ (fun y => Hr (a, c) y eq_refl)) end
  end.

Lemma faraday_gr_frames g mt ax_lo md c :
  frames (wr isB (snd (fst (far_args md)))) (body2 (let '(bin, bout, e) := far_args md in faraday_gr g mt ax_lo bin bout e c)).
Proof.
  intros m x [a c'] y H. destruct x as [|i1 [|i2 [|? ?]]]; try (destruct md; reflexivity).
  destruct md, a, c'; unfold far_args in *; ddg; bool_cases; field_cases; try reflexivity;
    destruct H as [H|H]; cbn in *; congruence.
Qed.
Lemma faraday_gr_local g mt ax_lo md c :
  local_body (wr isB (snd (fst (far_args md)))) (body2 (let '(bin, bout, e) := far_args md in faraday_gr g mt ax_lo bin bout e c)).
Proof.
  intros m m' [a c'] x _ Hr Ho'. assert (Ho : forall c', m c' x = m' c' x) by auto. clear Ho'.
  destruct x as [|i1 [|i2 [|? ?]]]; try (destruct md; apply Ho).
  destruct md, a, c'; unfold far_args in *; ddg; bool_cases; field_cases;
  rewrite ?Ho; try reflexivity; unw Hr; reflexivity.
Qed.

(** Elements of the array that the electric update overwrites without reading a neighbour. *)
Definition amp_good (g : Z) (ax_lo ax_hi : bool) (i2max : Z) (md : gr_ampere_mode) (k : arr * comp) (x : list Z) : Prop :=
  md = AmpMain \/ snd k <> Ex1 \/
  match x with [i1; i2] => node_inside g ax_lo ax_hi i2max i2 | _ => True end.

Lemma ampere_gr_frames g mt ax_lo ax_hi i2max md c :
  frames (wr isE (snd (fst (amp_args md)))) (body2 (let '(d, d', h) := amp_args md in ampere_gr g mt ax_lo ax_hi i2max d d' h c)).
Proof.
  intros m x [a c'] y H. destruct x as [|i1 [|i2 [|? ?]]]; try (destruct md; reflexivity).
  destruct md, a, c'; unfold amp_args in *; ddg; bool_cases; field_cases; try reflexivity;
    destruct H as [H|H]; cbn in *; congruence.
Qed.
Lemma inside_cases g ax_lo ax_hi i2max i2 : node_inside g ax_lo ax_hi i2max i2 ->
  (i2 =? g)%Z && ax_lo = false /\ (i2 =? i2max)%Z && ax_hi = false.
Proof.
  intros [N1 N2]. split; apply andb_false_iff.
  - destruct ax_lo; [left|auto]. apply Z.eqb_neq. tauto.
  - destruct ax_hi; [left|auto]. apply Z.eqb_neq. tauto.
Qed.
Lemma ampere_gr_local g mt ax_lo ax_hi i2max md c :
  local_on (wr isE (snd (fst (amp_args md)))) (body2 (let '(d, d', h) := amp_args md in ampere_gr g mt ax_lo ax_hi i2max d d' h c))
    (amp_good g ax_lo ax_hi i2max md).
Proof.
  intros m m' [a c'] x Hg Hr Ho.
  destruct x as [|i1 [|i2 [|? ?]]]; try (destruct md; apply Ho; assumption).
  assert (Hmain : md = AmpMain -> forall k, m k [i1; i2] = m' k [i1; i2]) by (intros; apply Ho; left; assumption).
  assert (H2 : forall a', m (a', Ex2) [i1; i2] = m' (a', Ex2) [i1; i2]) by (intros; apply Ho; right; left; cbn; discriminate).
  assert (H3 : forall a', m (a', Ex3) [i1; i2] = m' (a', Ex3) [i1; i2]) by (intros; apply Ho; right; left; cbn; discriminate).
  assert (H1 : forall a', node_inside g ax_lo ax_hi i2max i2 -> m (a', Ex1) [i1; i2] = m' (a', Ex1) [i1; i2])
    by (intros; apply Ho; right; right; assumption).
  destruct md.
  - destruct Hg as [Hg|Hg]; [discriminate|].
    destruct c'; destruct a; unfold amp_args in *; cbn [snd fst] in *;
     try (assert (Hin : node_inside g ax_lo ax_hi i2max i2) by (destruct Hg as [Hg|Hg]; [exfalso; apply Hg; reflexivity|exact Hg]);
          destruct (inside_cases _ _ _ _ _ Hin) as [B1 B2]; ddg; rewrite B1, B2; field_cases;
          rewrite ?(H1 _ Hin); unw Hr; reflexivity);
     ddg; bool_cases; field_cases; rewrite ?H2, ?H3; unw Hr; reflexivity.
  - specialize (Hmain eq_refl). destruct c'; destruct a; unfold amp_args in *; ddg; bool_cases; field_cases;
      rewrite ?Hmain; unw Hr; reflexivity.
  - destruct Hg as [Hg|Hg]; [discriminate|].
    destruct c'; destruct a; unfold amp_args in *; cbn [snd fst] in *;
     try (assert (Hin : node_inside g ax_lo ax_hi i2max i2) by (destruct Hg as [Hg|Hg]; [exfalso; apply Hg; reflexivity|exact Hg]);
          destruct (inside_cases _ _ _ _ _ Hin) as [B1 B2]; ddg; rewrite B1, B2; field_cases;
          rewrite ?(H1 _ Hin); unw Hr; reflexivity);
     ddg; bool_cases; field_cases; rewrite ?H2, ?H3; unw Hr; reflexivity.
Qed.
