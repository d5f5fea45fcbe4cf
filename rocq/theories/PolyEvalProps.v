(** * Properties C12, C13: polynomial evaluation *)
From Verif Require Import Base PolySpec PolyEvalModel PolyEvalProof Fields CDeriv PolyDeriv.
From Coq Require Import Reals.
From Coquelicot Require Import Coquelicot.

(** C12. For every field (exact arithmetic), degree, polynomial and list of
   points, and whatever the branch test [le1] answers (it must be true at 0):
   the first nz points are replaced by the polynomial's value, others are kept,
   and no access is out of bounds. *)
Theorem poly_eval_computes_value :
  forall (K : cfield) (le1 : K -> bool) deg p nz zs,
  length p = S deg -> (nz <= length zs)%nat ->
  (forall z : K, le1 z = false -> z <> f0) ->
  poly_eval le1 deg (Some p) nz (Some zs)
  = Ret (0%Z, Some (tabulate (length zs)
       (fun k => if k <? nz then peval p (nth k zs f0) else nth k zs f0))).
Proof. exact @poly_eval_spec. Qed.
Print Assumptions poly_eval_computes_value.

(** C13 *)
Theorem poly_evalderiv_computes_value_and_derivative :
  forall (K : cfield) (le1 : K -> bool) deg p nz zs ds,
  length p = S deg -> (0 < deg)%nat -> (nz <= length zs)%nat -> (nz <= length ds)%nat ->
  (forall z : K, le1 z = false -> z <> f0) ->
  poly_evalderiv le1 deg (Some p) nz (Some zs) (Some ds)
  = Ret (0%Z,
      Some (tabulate (length zs) (fun k => if k <? nz then peval p (nth k zs f0) else nth k zs f0)),
      Some (tabulate (length ds) (fun k => if k <? nz then pderiv p (nth k zs f0) else nth k ds f0))).
Proof. exact @poly_evalderiv_spec. Qed.
Print Assumptions poly_evalderiv_computes_value_and_derivative.

(** C12: NULL pointers are rejected and nothing is changed *)
Theorem poly_eval_null :
  forall (K : cfield) (le1 : K -> bool) deg p nz zs,
  p = None \/ zs = None -> poly_eval le1 deg p nz zs = Ret (2%Z, zs).
Proof. intros K le1 deg [p|] nz [zs|] [H|H]; try discriminate; reflexivity. Qed.
Print Assumptions poly_eval_null.

(** the branch hypothesis holds for the complex modulus *)
Definition le1_C (z : CF) : bool := if Rle_dec (Cmod z) 1 then true else false.
Theorem le1_C_zero : forall z : CF, le1_C z = false -> z <> f0.
Proof.
  intros z H ->. unfold le1_C in H. simpl in H. rewrite Cmod_0 in H.
  destruct (Rle_dec 0 1) as [_|n]; [discriminate|]. apply n. apply Rle_0_1.
Qed.
Print Assumptions le1_C_zero.

(** C13, meaning of [pderiv] over C: it is the complex derivative of [peval]. *)
Theorem pderiv_is_the_complex_derivative :
  forall (p : list C) (x : C),
  Cderive (fun z : C => peval (K := CF) p z) x (pderiv (K := CF) p x).
Proof. exact pderiv_is_derive. Qed.
Print Assumptions pderiv_is_the_complex_derivative.

(** Non-vacuity: p(z) = 3 z^2 + 2 z + 1 at z = 2 and z = 5 over Z/61 with both branches *)
Example poly_evalderiv_example :
  match poly_evalderiv (K := F61) (fun z => Z.leb (show61 z) 2) 2 (Some [z 3; z 2; z 1]) 2
          (Some [z 2; z 5; z 7]) (Some [z 0; z 0]) with
  | Ret (ec, Some v, Some d) => (ec, map show61 v, map show61 d)
  | _ => (99%Z, [], [])
  end = (0%Z, [17; 25; 7]%Z, [14; 32]%Z).
Proof. vm_compute. reflexivity. Qed.
