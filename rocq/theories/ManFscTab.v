(** * Tables of fnft__manakov_fscatter.c
   Generated from the C text by a line-by-line translation of the switch in manakov_fscatter.
   Every assignment pij[k] = ...; of the loop body for one sample is one list entry; the nine lists are
   p11[0..deg], p12[0..deg], ..., p33[0..deg] (highest power of z first); every entry is assigned exactly once.
   A matrix M of the code is an array of nine numbers, row by row; M[0],...,M[8] are c11 M,...,c33 M.
   The arguments of each step are the matrices exp(Bh a) in the order in which the code computes them
   (and E1, E2 for FTES4_4A).  Arithmetic is exact complex arithmetic instead of double precision. *)
From Coq Require Import Reals List.
From Coquelicot Require Import Coquelicot.
From Verif Require Import DiscTables ManFscSpec.
Import ListNotations.
Local Open Scope C_scope.

(** src/private/fnft__manakov_fscatter.c:208-298, case 2SPLIT3A (degree 6); e_1_3B is computed with step eps_t / 3, e_B is computed with step eps_t *)
Definition mstep_2SPLIT3A (e_1_3B e_B : mat3) : list (list C) :=
  [[RtoC 0;
    RtoC 0;
    (9 * c11 e_1_3B * c12 e_1_3B * c21 e_1_3B) / 8 + (9 * c11 e_1_3B * c13 e_1_3B * c31 e_1_3B) / 8 + (9 * c12 e_1_3B * c21 e_1_3B * c22 e_1_3B) / 8 + (9 * c12 e_1_3B * c23 e_1_3B * c31 e_1_3B) / 8 + (9 * c13 e_1_3B * c21 e_1_3B * c32 e_1_3B) / 8 + (9 * c13 e_1_3B * c31 e_1_3B * c33 e_1_3B) / 8;
    RtoC 0;
    RtoC 0;
    RtoC 0;
    (9 * c11 e_1_3B * c11 e_1_3B * c11 e_1_3B) / 8 - c11 e_B / 8 + (9 * c11 e_1_3B * c12 e_1_3B * c21 e_1_3B) / 8 + (9 * c11 e_1_3B * c13 e_1_3B * c31 e_1_3B) / 8];
   [RtoC 0;
    RtoC 0;
    (9 * c12 e_1_3B * c22 e_1_3B * c22 e_1_3B) / 8 + (9 * c11 e_1_3B * c12 e_1_3B * c22 e_1_3B) / 8 + (9 * c11 e_1_3B * c13 e_1_3B * c32 e_1_3B) / 8 + (9 * c12 e_1_3B * c23 e_1_3B * c32 e_1_3B) / 8 + (9 * c13 e_1_3B * c22 e_1_3B * c32 e_1_3B) / 8 + (9 * c13 e_1_3B * c32 e_1_3B * c33 e_1_3B) / 8;
    RtoC 0;
    RtoC 0;
    RtoC 0;
    (9 * c11 e_1_3B * c11 e_1_3B * c12 e_1_3B) / 8 + (9 * c21 e_1_3B * c12 e_1_3B * c12 e_1_3B) / 8 + (9 * c13 e_1_3B * c31 e_1_3B * c12 e_1_3B) / 8 - c12 e_B / 8];
   [RtoC 0;
    RtoC 0;
    (9 * c13 e_1_3B * c33 e_1_3B * c33 e_1_3B) / 8 + (9 * c11 e_1_3B * c12 e_1_3B * c23 e_1_3B) / 8 + (9 * c11 e_1_3B * c13 e_1_3B * c33 e_1_3B) / 8 + (9 * c12 e_1_3B * c22 e_1_3B * c23 e_1_3B) / 8 + (9 * c12 e_1_3B * c23 e_1_3B * c33 e_1_3B) / 8 + (9 * c13 e_1_3B * c23 e_1_3B * c32 e_1_3B) / 8;
    RtoC 0;
    RtoC 0;
    RtoC 0;
    (9 * c11 e_1_3B * c11 e_1_3B * c13 e_1_3B) / 8 + (9 * c31 e_1_3B * c13 e_1_3B * c13 e_1_3B) / 8 + (9 * c12 e_1_3B * c21 e_1_3B * c13 e_1_3B) / 8 - c13 e_B / 8];
   [(9 * c12 e_1_3B * c21 e_1_3B * c21 e_1_3B) / 8 - c21 e_B / 8 + (9 * c21 e_1_3B * c22 e_1_3B * c22 e_1_3B) / 8 + (9 * c13 e_1_3B * c21 e_1_3B * c31 e_1_3B) / 8 + (9 * c21 e_1_3B * c23 e_1_3B * c32 e_1_3B) / 8 + (9 * c22 e_1_3B * c23 e_1_3B * c31 e_1_3B) / 8 + (9 * c23 e_1_3B * c31 e_1_3B * c33 e_1_3B) / 8;
    RtoC 0;
    RtoC 0;
    RtoC 0;
    (9 * c11 e_1_3B * c11 e_1_3B * c21 e_1_3B) / 8 + (9 * c11 e_1_3B * c21 e_1_3B * c22 e_1_3B) / 8 + (9 * c11 e_1_3B * c23 e_1_3B * c31 e_1_3B) / 8;
    RtoC 0;
    RtoC 0];
   [(9 * c22 e_1_3B * c22 e_1_3B * c22 e_1_3B) / 8 - c22 e_B / 8 + (9 * c12 e_1_3B * c21 e_1_3B * c22 e_1_3B) / 8 + (9 * c13 e_1_3B * c21 e_1_3B * c32 e_1_3B) / 8 + (9 * c22 e_1_3B * c23 e_1_3B * c32 e_1_3B) / 4 + (9 * c23 e_1_3B * c32 e_1_3B * c33 e_1_3B) / 8;
    RtoC 0;
    RtoC 0;
    RtoC 0;
    (9 * c11 e_1_3B * c12 e_1_3B * c21 e_1_3B) / 8 + (9 * c12 e_1_3B * c21 e_1_3B * c22 e_1_3B) / 8 + (9 * c12 e_1_3B * c23 e_1_3B * c31 e_1_3B) / 8;
    RtoC 0;
    RtoC 0];
   [(9 * c22 e_1_3B * c22 e_1_3B * c23 e_1_3B) / 8 + (9 * c22 e_1_3B * c23 e_1_3B * c33 e_1_3B) / 8 + (9 * c32 e_1_3B * c23 e_1_3B * c23 e_1_3B) / 8 + (9 * c23 e_1_3B * c33 e_1_3B * c33 e_1_3B) / 8 + (9 * c12 e_1_3B * c21 e_1_3B * c23 e_1_3B) / 8 + (9 * c13 e_1_3B * c21 e_1_3B * c33 e_1_3B) / 8 - c23 e_B / 8;
    RtoC 0;
    RtoC 0;
    RtoC 0;
    (9 * c11 e_1_3B * c13 e_1_3B * c21 e_1_3B) / 8 + (9 * c13 e_1_3B * c21 e_1_3B * c22 e_1_3B) / 8 + (9 * c13 e_1_3B * c23 e_1_3B * c31 e_1_3B) / 8;
    RtoC 0;
    RtoC 0];
   [(9 * c13 e_1_3B * c31 e_1_3B * c31 e_1_3B) / 8 - c31 e_B / 8 + (9 * c31 e_1_3B * c33 e_1_3B * c33 e_1_3B) / 8 + (9 * c12 e_1_3B * c21 e_1_3B * c31 e_1_3B) / 8 + (9 * c21 e_1_3B * c22 e_1_3B * c32 e_1_3B) / 8 + (9 * c21 e_1_3B * c32 e_1_3B * c33 e_1_3B) / 8 + (9 * c23 e_1_3B * c31 e_1_3B * c32 e_1_3B) / 8;
    RtoC 0;
    RtoC 0;
    RtoC 0;
    (9 * c11 e_1_3B * c11 e_1_3B * c31 e_1_3B) / 8 + (9 * c11 e_1_3B * c21 e_1_3B * c32 e_1_3B) / 8 + (9 * c11 e_1_3B * c31 e_1_3B * c33 e_1_3B) / 8;
    RtoC 0;
    RtoC 0];
   [(9 * c22 e_1_3B * c22 e_1_3B * c32 e_1_3B) / 8 + (9 * c22 e_1_3B * c32 e_1_3B * c33 e_1_3B) / 8 + (9 * c12 e_1_3B * c31 e_1_3B * c22 e_1_3B) / 8 + (9 * c23 e_1_3B * c32 e_1_3B * c32 e_1_3B) / 8 + (9 * c32 e_1_3B * c33 e_1_3B * c33 e_1_3B) / 8 + (9 * c13 e_1_3B * c31 e_1_3B * c32 e_1_3B) / 8 - c32 e_B / 8;
    RtoC 0;
    RtoC 0;
    RtoC 0;
    (9 * c11 e_1_3B * c12 e_1_3B * c31 e_1_3B) / 8 + (9 * c12 e_1_3B * c21 e_1_3B * c32 e_1_3B) / 8 + (9 * c12 e_1_3B * c31 e_1_3B * c33 e_1_3B) / 8;
    RtoC 0;
    RtoC 0];
   [(9 * c33 e_1_3B * c33 e_1_3B * c33 e_1_3B) / 8 - c33 e_B / 8 + (9 * c12 e_1_3B * c23 e_1_3B * c31 e_1_3B) / 8 + (9 * c13 e_1_3B * c31 e_1_3B * c33 e_1_3B) / 8 + (9 * c22 e_1_3B * c23 e_1_3B * c32 e_1_3B) / 8 + (9 * c23 e_1_3B * c32 e_1_3B * c33 e_1_3B) / 4;
    RtoC 0;
    RtoC 0;
    RtoC 0;
    (9 * c11 e_1_3B * c13 e_1_3B * c31 e_1_3B) / 8 + (9 * c13 e_1_3B * c21 e_1_3B * c32 e_1_3B) / 8 + (9 * c13 e_1_3B * c31 e_1_3B * c33 e_1_3B) / 8;
    RtoC 0;
    RtoC 0]].

(** src/private/fnft__manakov_fscatter.c:301-393, case 2SPLIT3B (degree 6); e_1_3B is computed with step eps_t / 3, e_2_3B is computed with step eps_t * 2 / 3, e_B is computed with step eps_t *)
Definition mstep_2SPLIT3B (e_1_3B e_2_3B e_B : mat3) : list (list C) :=
  [[RtoC 0;
    RtoC 0;
    (9 * c12 e_1_3B * c21 e_2_3B) / 8 + (9 * c13 e_1_3B * c31 e_2_3B) / 8;
    RtoC 0;
    RtoC 0;
    RtoC 0;
    (9 * c11 e_1_3B * c11 e_2_3B) / 8 - c11 e_B / 8];
   [(9 * c12 e_1_3B * c22 e_2_3B) / 8 - c12 e_B / 8 + (9 * c13 e_1_3B * c32 e_2_3B) / 8;
    RtoC 0;
    RtoC 0;
    RtoC 0;
    (9 * c11 e_1_3B * c12 e_2_3B) / 8;
    RtoC 0;
    RtoC 0];
   [(9 * c12 e_1_3B * c23 e_2_3B) / 8 - c13 e_B / 8 + (9 * c13 e_1_3B * c33 e_2_3B) / 8;
    RtoC 0;
    RtoC 0;
    RtoC 0;
    (9 * c11 e_1_3B * c13 e_2_3B) / 8;
    RtoC 0;
    RtoC 0];
   [RtoC 0;
    RtoC 0;
    (9 * c22 e_1_3B * c21 e_2_3B) / 8 + (9 * c23 e_1_3B * c31 e_2_3B) / 8;
    RtoC 0;
    RtoC 0;
    RtoC 0;
    (9 * c21 e_1_3B * c11 e_2_3B) / 8 - c21 e_B / 8];
   [(9 * c22 e_1_3B * c22 e_2_3B) / 8 - c22 e_B / 8 + (9 * c23 e_1_3B * c32 e_2_3B) / 8;
    RtoC 0;
    RtoC 0;
    RtoC 0;
    (9 * c21 e_1_3B * c12 e_2_3B) / 8;
    RtoC 0;
    RtoC 0];
   [(9 * c22 e_1_3B * c23 e_2_3B) / 8 - c23 e_B / 8 + (9 * c23 e_1_3B * c33 e_2_3B) / 8;
    RtoC 0;
    RtoC 0;
    RtoC 0;
    (9 * c21 e_1_3B * c13 e_2_3B) / 8;
    RtoC 0;
    RtoC 0];
   [RtoC 0;
    RtoC 0;
    (9 * c32 e_1_3B * c21 e_2_3B) / 8 + (9 * c33 e_1_3B * c31 e_2_3B) / 8;
    RtoC 0;
    RtoC 0;
    RtoC 0;
    (9 * c31 e_1_3B * c11 e_2_3B) / 8 - c31 e_B / 8];
   [(9 * c32 e_1_3B * c22 e_2_3B) / 8 - c32 e_B / 8 + (9 * c33 e_1_3B * c32 e_2_3B) / 8;
    RtoC 0;
    RtoC 0;
    RtoC 0;
    (9 * c31 e_1_3B * c12 e_2_3B) / 8;
    RtoC 0;
    RtoC 0];
   [(9 * c32 e_1_3B * c23 e_2_3B) / 8 - c33 e_B / 8 + (9 * c33 e_1_3B * c33 e_2_3B) / 8;
    RtoC 0;
    RtoC 0;
    RtoC 0;
    (9 * c31 e_1_3B * c13 e_2_3B) / 8;
    RtoC 0;
    RtoC 0]].

(** src/private/fnft__manakov_fscatter.c:396-504, case 4SPLIT4A, 2SPLIT4A (degree 8); e_1_2B is computed with step eps_t / 2, e_B is computed with step eps_t *)
Definition mstep_2SPLIT4A (e_1_2B e_B : mat3) : list (list C) :=
  [[RtoC 0;
    RtoC 0;
    RtoC 0;
    RtoC 0;
    (4 * c12 e_1_2B * c21 e_1_2B) / 3 + (4 * c13 e_1_2B * c31 e_1_2B) / 3;
    RtoC 0;
    RtoC 0;
    RtoC 0;
    (4 * c11 e_1_2B * c11 e_1_2B) / 3 - c11 e_B / 3];
   [RtoC 0;
    RtoC 0;
    (4 * c12 e_1_2B * c22 e_1_2B) / 3 + (4 * c13 e_1_2B * c32 e_1_2B) / 3;
    RtoC 0;
    -c12 e_B / 3;
    RtoC 0;
    (4 * c11 e_1_2B * c12 e_1_2B) / 3;
    RtoC 0;
    RtoC 0];
   [RtoC 0;
    RtoC 0;
    (4 * c12 e_1_2B * c23 e_1_2B) / 3 + (4 * c13 e_1_2B * c33 e_1_2B) / 3;
    RtoC 0;
    -c13 e_B / 3;
    RtoC 0;
    (4 * c11 e_1_2B * c13 e_1_2B) / 3;
    RtoC 0;
    RtoC 0];
   [RtoC 0;
    RtoC 0;
    (4 * c21 e_1_2B * c22 e_1_2B) / 3 + (4 * c23 e_1_2B * c31 e_1_2B) / 3;
    RtoC 0;
    -c21 e_B / 3;
    RtoC 0;
    (4 * c11 e_1_2B * c21 e_1_2B) / 3;
    RtoC 0;
    RtoC 0];
   [(4 * c22 e_1_2B * c22 e_1_2B) / 3 - c22 e_B / 3 + (4 * c23 e_1_2B * c32 e_1_2B) / 3;
    RtoC 0;
    RtoC 0;
    RtoC 0;
    (4 * c12 e_1_2B * c21 e_1_2B) / 3;
    RtoC 0;
    RtoC 0;
    RtoC 0;
    RtoC 0];
   [(4 * c22 e_1_2B * c23 e_1_2B) / 3 - c23 e_B / 3 + (4 * c23 e_1_2B * c33 e_1_2B) / 3;
    RtoC 0;
    RtoC 0;
    RtoC 0;
    (4 * c13 e_1_2B * c21 e_1_2B) / 3;
    RtoC 0;
    RtoC 0;
    RtoC 0;
    RtoC 0];
   [RtoC 0;
    RtoC 0;
    (4 * c21 e_1_2B * c32 e_1_2B) / 3 + (4 * c31 e_1_2B * c33 e_1_2B) / 3;
    RtoC 0;
    -c31 e_B / 3;
    RtoC 0;
    (4 * c11 e_1_2B * c31 e_1_2B) / 3;
    RtoC 0;
    RtoC 0];
   [(4 * c22 e_1_2B * c32 e_1_2B) / 3 - c32 e_B / 3 + (4 * c32 e_1_2B * c33 e_1_2B) / 3;
    RtoC 0;
    RtoC 0;
    RtoC 0;
    (4 * c12 e_1_2B * c31 e_1_2B) / 3;
    RtoC 0;
    RtoC 0;
    RtoC 0;
    RtoC 0];
   [(4 * c33 e_1_2B * c33 e_1_2B) / 3 - c33 e_B / 3 + (4 * c23 e_1_2B * c32 e_1_2B) / 3;
    RtoC 0;
    RtoC 0;
    RtoC 0;
    (4 * c13 e_1_2B * c31 e_1_2B) / 3;
    RtoC 0;
    RtoC 0;
    RtoC 0;
    RtoC 0]].

(** src/private/fnft__manakov_fscatter.c:508-580, case 4SPLIT4B, 2SPLIT4B (degree 4); e_1_2B is computed with step eps_t / 2, e_1_4B is computed with step eps_t / 4 *)
Definition mstep_2SPLIT4B (e_1_2B e_1_4B : mat3) : list (list C) :=
  [[(4 * c22 e_1_2B * c12 e_1_4B * c21 e_1_4B) / 3 - (c13 e_1_2B * c31 e_1_2B) / 3 - (c12 e_1_2B * c21 e_1_2B) / 3 + (4 * c23 e_1_2B * c12 e_1_4B * c31 e_1_4B) / 3 + (4 * c32 e_1_2B * c13 e_1_4B * c21 e_1_4B) / 3 + (4 * c33 e_1_2B * c13 e_1_4B * c31 e_1_4B) / 3;
    RtoC 0;
    (4 * c12 e_1_2B * c11 e_1_4B * c21 e_1_4B) / 3 + (4 * c21 e_1_2B * c11 e_1_4B * c12 e_1_4B) / 3 + (4 * c13 e_1_2B * c11 e_1_4B * c31 e_1_4B) / 3 + (4 * c31 e_1_2B * c11 e_1_4B * c13 e_1_4B) / 3;
    RtoC 0;
    -c11 e_1_2B * c11 e_1_2B / 3 + (4 * c11 e_1_2B * c11 e_1_4B * c11 e_1_4B) / 3];
   [(4 * c22 e_1_2B * c12 e_1_4B * c22 e_1_4B) / 3 - (c13 e_1_2B * c32 e_1_2B) / 3 - (c12 e_1_2B * c22 e_1_2B) / 3 + (4 * c23 e_1_2B * c12 e_1_4B * c32 e_1_4B) / 3 + (4 * c32 e_1_2B * c13 e_1_4B * c22 e_1_4B) / 3 + (4 * c33 e_1_2B * c13 e_1_4B * c32 e_1_4B) / 3;
    RtoC 0;
    (4 * c21 e_1_2B * c12 e_1_4B * c12 e_1_4B) / 3 + (4 * c31 e_1_2B * c13 e_1_4B * c12 e_1_4B) / 3 + (4 * c12 e_1_2B * c11 e_1_4B * c22 e_1_4B) / 3 + (4 * c13 e_1_2B * c11 e_1_4B * c32 e_1_4B) / 3;
    RtoC 0;
    (4 * c11 e_1_2B * c11 e_1_4B * c12 e_1_4B) / 3 - (c11 e_1_2B * c12 e_1_2B) / 3];
   [(4 * c22 e_1_2B * c12 e_1_4B * c23 e_1_4B) / 3 - (c13 e_1_2B * c33 e_1_2B) / 3 - (c12 e_1_2B * c23 e_1_2B) / 3 + (4 * c23 e_1_2B * c12 e_1_4B * c33 e_1_4B) / 3 + (4 * c32 e_1_2B * c13 e_1_4B * c23 e_1_4B) / 3 + (4 * c33 e_1_2B * c13 e_1_4B * c33 e_1_4B) / 3;
    RtoC 0;
    (4 * c31 e_1_2B * c13 e_1_4B * c13 e_1_4B) / 3 + (4 * c21 e_1_2B * c12 e_1_4B * c13 e_1_4B) / 3 + (4 * c12 e_1_2B * c11 e_1_4B * c23 e_1_4B) / 3 + (4 * c13 e_1_2B * c11 e_1_4B * c33 e_1_4B) / 3;
    RtoC 0;
    (4 * c11 e_1_2B * c11 e_1_4B * c13 e_1_4B) / 3 - (c11 e_1_2B * c13 e_1_2B) / 3];
   [(4 * c22 e_1_2B * c21 e_1_4B * c22 e_1_4B) / 3 - (c23 e_1_2B * c31 e_1_2B) / 3 - (c21 e_1_2B * c22 e_1_2B) / 3 + (4 * c23 e_1_2B * c22 e_1_4B * c31 e_1_4B) / 3 + (4 * c32 e_1_2B * c21 e_1_4B * c23 e_1_4B) / 3 + (4 * c33 e_1_2B * c23 e_1_4B * c31 e_1_4B) / 3;
    RtoC 0;
    (4 * c12 e_1_2B * c21 e_1_4B * c21 e_1_4B) / 3 + (4 * c13 e_1_2B * c31 e_1_4B * c21 e_1_4B) / 3 + (4 * c21 e_1_2B * c11 e_1_4B * c22 e_1_4B) / 3 + (4 * c31 e_1_2B * c11 e_1_4B * c23 e_1_4B) / 3;
    RtoC 0;
    (4 * c11 e_1_2B * c11 e_1_4B * c21 e_1_4B) / 3 - (c11 e_1_2B * c21 e_1_2B) / 3];
   [(4 * c22 e_1_2B * c22 e_1_4B * c22 e_1_4B) / 3 - c22 e_1_2B * c22 e_1_2B / 3 - (c23 e_1_2B * c32 e_1_2B) / 3 + (4 * c23 e_1_2B * c22 e_1_4B * c32 e_1_4B) / 3 + (4 * c32 e_1_2B * c22 e_1_4B * c23 e_1_4B) / 3 + (4 * c33 e_1_2B * c23 e_1_4B * c32 e_1_4B) / 3;
    RtoC 0;
    (4 * c12 e_1_2B * c21 e_1_4B * c22 e_1_4B) / 3 + (4 * c21 e_1_2B * c12 e_1_4B * c22 e_1_4B) / 3 + (4 * c13 e_1_2B * c21 e_1_4B * c32 e_1_4B) / 3 + (4 * c31 e_1_2B * c12 e_1_4B * c23 e_1_4B) / 3;
    RtoC 0;
    (4 * c11 e_1_2B * c12 e_1_4B * c21 e_1_4B) / 3 - (c12 e_1_2B * c21 e_1_2B) / 3];
   [(4 * c32 e_1_2B * c23 e_1_4B * c23 e_1_4B) / 3 - (c22 e_1_2B * c23 e_1_2B) / 3 - (c23 e_1_2B * c33 e_1_2B) / 3 + (4 * c22 e_1_2B * c22 e_1_4B * c23 e_1_4B) / 3 + (4 * c23 e_1_2B * c22 e_1_4B * c33 e_1_4B) / 3 + (4 * c33 e_1_2B * c23 e_1_4B * c33 e_1_4B) / 3;
    RtoC 0;
    (4 * c12 e_1_2B * c21 e_1_4B * c23 e_1_4B) / 3 + (4 * c21 e_1_2B * c13 e_1_4B * c22 e_1_4B) / 3 + (4 * c13 e_1_2B * c21 e_1_4B * c33 e_1_4B) / 3 + (4 * c31 e_1_2B * c13 e_1_4B * c23 e_1_4B) / 3;
    RtoC 0;
    (4 * c11 e_1_2B * c13 e_1_4B * c21 e_1_4B) / 3 - (c13 e_1_2B * c21 e_1_2B) / 3];
   [(4 * c22 e_1_2B * c21 e_1_4B * c32 e_1_4B) / 3 - (c31 e_1_2B * c33 e_1_2B) / 3 - (c21 e_1_2B * c32 e_1_2B) / 3 + (4 * c23 e_1_2B * c31 e_1_4B * c32 e_1_4B) / 3 + (4 * c32 e_1_2B * c21 e_1_4B * c33 e_1_4B) / 3 + (4 * c33 e_1_2B * c31 e_1_4B * c33 e_1_4B) / 3;
    RtoC 0;
    (4 * c13 e_1_2B * c31 e_1_4B * c31 e_1_4B) / 3 + (4 * c12 e_1_2B * c21 e_1_4B * c31 e_1_4B) / 3 + (4 * c21 e_1_2B * c11 e_1_4B * c32 e_1_4B) / 3 + (4 * c31 e_1_2B * c11 e_1_4B * c33 e_1_4B) / 3;
    RtoC 0;
    (4 * c11 e_1_2B * c11 e_1_4B * c31 e_1_4B) / 3 - (c11 e_1_2B * c31 e_1_2B) / 3];
   [(4 * c23 e_1_2B * c32 e_1_4B * c32 e_1_4B) / 3 - (c22 e_1_2B * c32 e_1_2B) / 3 - (c32 e_1_2B * c33 e_1_2B) / 3 + (4 * c22 e_1_2B * c22 e_1_4B * c32 e_1_4B) / 3 + (4 * c32 e_1_2B * c22 e_1_4B * c33 e_1_4B) / 3 + (4 * c33 e_1_2B * c32 e_1_4B * c33 e_1_4B) / 3;
    RtoC 0;
    (4 * c12 e_1_2B * c22 e_1_4B * c31 e_1_4B) / 3 + (4 * c21 e_1_2B * c12 e_1_4B * c32 e_1_4B) / 3 + (4 * c13 e_1_2B * c31 e_1_4B * c32 e_1_4B) / 3 + (4 * c31 e_1_2B * c12 e_1_4B * c33 e_1_4B) / 3;
    RtoC 0;
    (4 * c11 e_1_2B * c12 e_1_4B * c31 e_1_4B) / 3 - (c12 e_1_2B * c31 e_1_2B) / 3];
   [(4 * c33 e_1_2B * c33 e_1_4B * c33 e_1_4B) / 3 - c33 e_1_2B * c33 e_1_2B / 3 - (c23 e_1_2B * c32 e_1_2B) / 3 + (4 * c22 e_1_2B * c23 e_1_4B * c32 e_1_4B) / 3 + (4 * c23 e_1_2B * c32 e_1_4B * c33 e_1_4B) / 3 + (4 * c32 e_1_2B * c23 e_1_4B * c33 e_1_4B) / 3;
    RtoC 0;
    (4 * c12 e_1_2B * c23 e_1_4B * c31 e_1_4B) / 3 + (4 * c21 e_1_2B * c13 e_1_4B * c32 e_1_4B) / 3 + (4 * c13 e_1_2B * c31 e_1_4B * c33 e_1_4B) / 3 + (4 * c31 e_1_2B * c13 e_1_4B * c33 e_1_4B) / 3;
    RtoC 0;
    (4 * c11 e_1_2B * c13 e_1_4B * c31 e_1_4B) / 3 - (c13 e_1_2B * c31 e_1_2B) / 3]].

(** src/private/fnft__manakov_fscatter.c:584-732, case 4SPLIT6B, 2SPLIT6B (degree 12); e_1_2B is computed with step eps_t / 2, e_1_3B is computed with step eps_t / 3, e_1_4B is computed with step eps_t / 4, e_1_6B is computed with step eps_t / 6 *)
Definition mstep_2SPLIT6B (e_1_2B e_1_3B e_1_4B e_1_6B : mat3) : list (list C) :=
  [[(c12 e_1_2B * c21 e_1_2B) / 24 + (c13 e_1_2B * c31 e_1_2B) / 24 - (16 * c22 e_1_2B * c12 e_1_4B * c21 e_1_4B) / 15 - (16 * c23 e_1_2B * c12 e_1_4B * c31 e_1_4B) / 15 - (16 * c32 e_1_2B * c13 e_1_4B * c21 e_1_4B) / 15 - (16 * c33 e_1_2B * c13 e_1_4B * c31 e_1_4B) / 15 + (81 * c22 e_1_3B * c22 e_1_3B * c12 e_1_6B * c21 e_1_6B) / 40 + (81 * c33 e_1_3B * c33 e_1_3B * c13 e_1_6B * c31 e_1_6B) / 40 + (81 * c22 e_1_3B * c23 e_1_3B * c12 e_1_6B * c31 e_1_6B) / 40 + (81 * c22 e_1_3B * c32 e_1_3B * c13 e_1_6B * c21 e_1_6B) / 40 + (81 * c23 e_1_3B * c32 e_1_3B * c12 e_1_6B * c21 e_1_6B) / 40 + (81 * c23 e_1_3B * c32 e_1_3B * c13 e_1_6B * c31 e_1_6B) / 40 + (81 * c23 e_1_3B * c33 e_1_3B * c12 e_1_6B * c31 e_1_6B) / 40 + (81 * c32 e_1_3B * c33 e_1_3B * c13 e_1_6B * c21 e_1_6B) / 40;
    RtoC 0;
    RtoC 0;
    RtoC 0;
    (81 * c12 e_1_3B * c21 e_1_3B * c12 e_1_6B * c21 e_1_6B) / 40 + (81 * c12 e_1_3B * c22 e_1_3B * c11 e_1_6B * c21 e_1_6B) / 40 + (81 * c21 e_1_3B * c22 e_1_3B * c11 e_1_6B * c12 e_1_6B) / 40 + (81 * c12 e_1_3B * c23 e_1_3B * c11 e_1_6B * c31 e_1_6B) / 40 + (81 * c12 e_1_3B * c31 e_1_3B * c13 e_1_6B * c21 e_1_6B) / 40 + (81 * c13 e_1_3B * c21 e_1_3B * c12 e_1_6B * c31 e_1_6B) / 40 + (81 * c13 e_1_3B * c32 e_1_3B * c11 e_1_6B * c21 e_1_6B) / 40 + (81 * c21 e_1_3B * c32 e_1_3B * c11 e_1_6B * c13 e_1_6B) / 40 + (81 * c23 e_1_3B * c31 e_1_3B * c11 e_1_6B * c12 e_1_6B) / 40 + (81 * c13 e_1_3B * c31 e_1_3B * c13 e_1_6B * c31 e_1_6B) / 40 + (81 * c13 e_1_3B * c33 e_1_3B * c11 e_1_6B * c31 e_1_6B) / 40 + (81 * c31 e_1_3B * c33 e_1_3B * c11 e_1_6B * c13 e_1_6B) / 40;
    RtoC 0;
    -(16 * c12 e_1_2B * c11 e_1_4B * c21 e_1_4B) / 15 - (16 * c21 e_1_2B * c11 e_1_4B * c12 e_1_4B) / 15 - (16 * c13 e_1_2B * c11 e_1_4B * c31 e_1_4B) / 15 - (16 * c31 e_1_2B * c11 e_1_4B * c13 e_1_4B) / 15;
    RtoC 0;
    (81 * c12 e_1_3B * c21 e_1_3B * c11 e_1_6B * c11 e_1_6B) / 40 + (81 * c13 e_1_3B * c31 e_1_3B * c11 e_1_6B * c11 e_1_6B) / 40 + (81 * c11 e_1_3B * c12 e_1_3B * c11 e_1_6B * c21 e_1_6B) / 40 + (81 * c11 e_1_3B * c21 e_1_3B * c11 e_1_6B * c12 e_1_6B) / 40 + (81 * c11 e_1_3B * c13 e_1_3B * c11 e_1_6B * c31 e_1_6B) / 40 + (81 * c11 e_1_3B * c31 e_1_3B * c11 e_1_6B * c13 e_1_6B) / 40;
    RtoC 0;
    RtoC 0;
    RtoC 0;
    c11 e_1_2B * c11 e_1_2B / 24 - (16 * c11 e_1_4B * c11 e_1_4B * c11 e_1_2B) / 15 + (81 * c11 e_1_3B * c11 e_1_3B * c11 e_1_6B * c11 e_1_6B) / 40];
   [(c12 e_1_2B * c22 e_1_2B) / 24 + (c13 e_1_2B * c32 e_1_2B) / 24 - (16 * c22 e_1_2B * c12 e_1_4B * c22 e_1_4B) / 15 - (16 * c23 e_1_2B * c12 e_1_4B * c32 e_1_4B) / 15 - (16 * c32 e_1_2B * c13 e_1_4B * c22 e_1_4B) / 15 - (16 * c33 e_1_2B * c13 e_1_4B * c32 e_1_4B) / 15 + (81 * c22 e_1_3B * c22 e_1_3B * c12 e_1_6B * c22 e_1_6B) / 40 + (81 * c33 e_1_3B * c33 e_1_3B * c13 e_1_6B * c32 e_1_6B) / 40 + (81 * c22 e_1_3B * c23 e_1_3B * c12 e_1_6B * c32 e_1_6B) / 40 + (81 * c22 e_1_3B * c32 e_1_3B * c13 e_1_6B * c22 e_1_6B) / 40 + (81 * c23 e_1_3B * c32 e_1_3B * c12 e_1_6B * c22 e_1_6B) / 40 + (81 * c23 e_1_3B * c32 e_1_3B * c13 e_1_6B * c32 e_1_6B) / 40 + (81 * c23 e_1_3B * c33 e_1_3B * c12 e_1_6B * c32 e_1_6B) / 40 + (81 * c32 e_1_3B * c33 e_1_3B * c13 e_1_6B * c22 e_1_6B) / 40;
    RtoC 0;
    RtoC 0;
    RtoC 0;
    (81 * c21 e_1_3B * c22 e_1_3B * c12 e_1_6B * c12 e_1_6B) / 40 + (81 * c23 e_1_3B * c31 e_1_3B * c12 e_1_6B * c12 e_1_6B) / 40 + (81 * c12 e_1_3B * c21 e_1_3B * c12 e_1_6B * c22 e_1_6B) / 40 + (81 * c12 e_1_3B * c22 e_1_3B * c11 e_1_6B * c22 e_1_6B) / 40 + (81 * c12 e_1_3B * c23 e_1_3B * c11 e_1_6B * c32 e_1_6B) / 40 + (81 * c12 e_1_3B * c31 e_1_3B * c13 e_1_6B * c22 e_1_6B) / 40 + (81 * c13 e_1_3B * c21 e_1_3B * c12 e_1_6B * c32 e_1_6B) / 40 + (81 * c13 e_1_3B * c32 e_1_3B * c11 e_1_6B * c22 e_1_6B) / 40 + (81 * c21 e_1_3B * c32 e_1_3B * c12 e_1_6B * c13 e_1_6B) / 40 + (81 * c13 e_1_3B * c31 e_1_3B * c13 e_1_6B * c32 e_1_6B) / 40 + (81 * c13 e_1_3B * c33 e_1_3B * c11 e_1_6B * c32 e_1_6B) / 40 + (81 * c31 e_1_3B * c33 e_1_3B * c12 e_1_6B * c13 e_1_6B) / 40;
    RtoC 0;
    -(16 * c21 e_1_2B * c12 e_1_4B * c12 e_1_4B) / 15 - (16 * c12 e_1_2B * c11 e_1_4B * c22 e_1_4B) / 15 - (16 * c13 e_1_2B * c11 e_1_4B * c32 e_1_4B) / 15 - (16 * c31 e_1_2B * c12 e_1_4B * c13 e_1_4B) / 15;
    RtoC 0;
    (81 * c11 e_1_3B * c21 e_1_3B * c12 e_1_6B * c12 e_1_6B) / 40 + (81 * c11 e_1_3B * c12 e_1_3B * c11 e_1_6B * c22 e_1_6B) / 40 + (81 * c12 e_1_3B * c21 e_1_3B * c11 e_1_6B * c12 e_1_6B) / 40 + (81 * c11 e_1_3B * c13 e_1_3B * c11 e_1_6B * c32 e_1_6B) / 40 + (81 * c11 e_1_3B * c31 e_1_3B * c12 e_1_6B * c13 e_1_6B) / 40 + (81 * c13 e_1_3B * c31 e_1_3B * c11 e_1_6B * c12 e_1_6B) / 40;
    RtoC 0;
    RtoC 0;
    RtoC 0;
    (81 * c11 e_1_6B * c12 e_1_6B * c11 e_1_3B * c11 e_1_3B) / 40 + (c11 e_1_2B * c12 e_1_2B) / 24 - (16 * c11 e_1_2B * c11 e_1_4B * c12 e_1_4B) / 15];
   [(c12 e_1_2B * c23 e_1_2B) / 24 + (c13 e_1_2B * c33 e_1_2B) / 24 - (16 * c22 e_1_2B * c12 e_1_4B * c23 e_1_4B) / 15 - (16 * c23 e_1_2B * c12 e_1_4B * c33 e_1_4B) / 15 - (16 * c32 e_1_2B * c13 e_1_4B * c23 e_1_4B) / 15 - (16 * c33 e_1_2B * c13 e_1_4B * c33 e_1_4B) / 15 + (81 * c22 e_1_3B * c22 e_1_3B * c12 e_1_6B * c23 e_1_6B) / 40 + (81 * c33 e_1_3B * c33 e_1_3B * c13 e_1_6B * c33 e_1_6B) / 40 + (81 * c22 e_1_3B * c23 e_1_3B * c12 e_1_6B * c33 e_1_6B) / 40 + (81 * c22 e_1_3B * c32 e_1_3B * c13 e_1_6B * c23 e_1_6B) / 40 + (81 * c23 e_1_3B * c32 e_1_3B * c12 e_1_6B * c23 e_1_6B) / 40 + (81 * c23 e_1_3B * c32 e_1_3B * c13 e_1_6B * c33 e_1_6B) / 40 + (81 * c23 e_1_3B * c33 e_1_3B * c12 e_1_6B * c33 e_1_6B) / 40 + (81 * c32 e_1_3B * c33 e_1_3B * c13 e_1_6B * c23 e_1_6B) / 40;
    RtoC 0;
    RtoC 0;
    RtoC 0;
    (81 * c21 e_1_3B * c32 e_1_3B * c13 e_1_6B * c13 e_1_6B) / 40 + (81 * c31 e_1_3B * c33 e_1_3B * c13 e_1_6B * c13 e_1_6B) / 40 + (81 * c12 e_1_3B * c21 e_1_3B * c12 e_1_6B * c23 e_1_6B) / 40 + (81 * c12 e_1_3B * c22 e_1_3B * c11 e_1_6B * c23 e_1_6B) / 40 + (81 * c21 e_1_3B * c22 e_1_3B * c12 e_1_6B * c13 e_1_6B) / 40 + (81 * c12 e_1_3B * c23 e_1_3B * c11 e_1_6B * c33 e_1_6B) / 40 + (81 * c12 e_1_3B * c31 e_1_3B * c13 e_1_6B * c23 e_1_6B) / 40 + (81 * c13 e_1_3B * c21 e_1_3B * c12 e_1_6B * c33 e_1_6B) / 40 + (81 * c13 e_1_3B * c32 e_1_3B * c11 e_1_6B * c23 e_1_6B) / 40 + (81 * c23 e_1_3B * c31 e_1_3B * c12 e_1_6B * c13 e_1_6B) / 40 + (81 * c13 e_1_3B * c31 e_1_3B * c13 e_1_6B * c33 e_1_6B) / 40 + (81 * c13 e_1_3B * c33 e_1_3B * c11 e_1_6B * c33 e_1_6B) / 40;
    RtoC 0;
    -(16 * c31 e_1_2B * c13 e_1_4B * c13 e_1_4B) / 15 - (16 * c12 e_1_2B * c11 e_1_4B * c23 e_1_4B) / 15 - (16 * c21 e_1_2B * c12 e_1_4B * c13 e_1_4B) / 15 - (16 * c13 e_1_2B * c11 e_1_4B * c33 e_1_4B) / 15;
    RtoC 0;
    (81 * c11 e_1_3B * c31 e_1_3B * c13 e_1_6B * c13 e_1_6B) / 40 + (81 * c11 e_1_3B * c12 e_1_3B * c11 e_1_6B * c23 e_1_6B) / 40 + (81 * c11 e_1_3B * c21 e_1_3B * c12 e_1_6B * c13 e_1_6B) / 40 + (81 * c12 e_1_3B * c21 e_1_3B * c11 e_1_6B * c13 e_1_6B) / 40 + (81 * c11 e_1_3B * c13 e_1_3B * c11 e_1_6B * c33 e_1_6B) / 40 + (81 * c13 e_1_3B * c31 e_1_3B * c11 e_1_6B * c13 e_1_6B) / 40;
    RtoC 0;
    RtoC 0;
    RtoC 0;
    (81 * c11 e_1_6B * c13 e_1_6B * c11 e_1_3B * c11 e_1_3B) / 40 + (c11 e_1_2B * c13 e_1_2B) / 24 - (16 * c11 e_1_2B * c11 e_1_4B * c13 e_1_4B) / 15];
   [(c21 e_1_2B * c22 e_1_2B) / 24 + (c23 e_1_2B * c31 e_1_2B) / 24 - (16 * c22 e_1_2B * c21 e_1_4B * c22 e_1_4B) / 15 - (16 * c23 e_1_2B * c22 e_1_4B * c31 e_1_4B) / 15 - (16 * c32 e_1_2B * c21 e_1_4B * c23 e_1_4B) / 15 - (16 * c33 e_1_2B * c23 e_1_4B * c31 e_1_4B) / 15 + (81 * c22 e_1_3B * c22 e_1_3B * c21 e_1_6B * c22 e_1_6B) / 40 + (81 * c33 e_1_3B * c33 e_1_3B * c23 e_1_6B * c31 e_1_6B) / 40 + (81 * c22 e_1_3B * c23 e_1_3B * c22 e_1_6B * c31 e_1_6B) / 40 + (81 * c22 e_1_3B * c32 e_1_3B * c21 e_1_6B * c23 e_1_6B) / 40 + (81 * c23 e_1_3B * c32 e_1_3B * c21 e_1_6B * c22 e_1_6B) / 40 + (81 * c23 e_1_3B * c32 e_1_3B * c23 e_1_6B * c31 e_1_6B) / 40 + (81 * c23 e_1_3B * c33 e_1_3B * c22 e_1_6B * c31 e_1_6B) / 40 + (81 * c32 e_1_3B * c33 e_1_3B * c21 e_1_6B * c23 e_1_6B) / 40;
    RtoC 0;
    RtoC 0;
    RtoC 0;
    (81 * c12 e_1_3B * c22 e_1_3B * c21 e_1_6B * c21 e_1_6B) / 40 + (81 * c13 e_1_3B * c32 e_1_3B * c21 e_1_6B * c21 e_1_6B) / 40 + (81 * c12 e_1_3B * c21 e_1_3B * c21 e_1_6B * c22 e_1_6B) / 40 + (81 * c21 e_1_3B * c22 e_1_3B * c11 e_1_6B * c22 e_1_6B) / 40 + (81 * c12 e_1_3B * c23 e_1_3B * c21 e_1_6B * c31 e_1_6B) / 40 + (81 * c12 e_1_3B * c31 e_1_3B * c21 e_1_6B * c23 e_1_6B) / 40 + (81 * c13 e_1_3B * c21 e_1_3B * c22 e_1_6B * c31 e_1_6B) / 40 + (81 * c21 e_1_3B * c32 e_1_3B * c11 e_1_6B * c23 e_1_6B) / 40 + (81 * c23 e_1_3B * c31 e_1_3B * c11 e_1_6B * c22 e_1_6B) / 40 + (81 * c13 e_1_3B * c31 e_1_3B * c23 e_1_6B * c31 e_1_6B) / 40 + (81 * c13 e_1_3B * c33 e_1_3B * c21 e_1_6B * c31 e_1_6B) / 40 + (81 * c31 e_1_3B * c33 e_1_3B * c11 e_1_6B * c23 e_1_6B) / 40;
    RtoC 0;
    -(16 * c12 e_1_2B * c21 e_1_4B * c21 e_1_4B) / 15 - (16 * c21 e_1_2B * c11 e_1_4B * c22 e_1_4B) / 15 - (16 * c13 e_1_2B * c21 e_1_4B * c31 e_1_4B) / 15 - (16 * c31 e_1_2B * c11 e_1_4B * c23 e_1_4B) / 15;
    RtoC 0;
    (81 * c11 e_1_3B * c12 e_1_3B * c21 e_1_6B * c21 e_1_6B) / 40 + (81 * c11 e_1_3B * c21 e_1_3B * c11 e_1_6B * c22 e_1_6B) / 40 + (81 * c12 e_1_3B * c21 e_1_3B * c11 e_1_6B * c21 e_1_6B) / 40 + (81 * c11 e_1_3B * c13 e_1_3B * c21 e_1_6B * c31 e_1_6B) / 40 + (81 * c11 e_1_3B * c31 e_1_3B * c11 e_1_6B * c23 e_1_6B) / 40 + (81 * c13 e_1_3B * c31 e_1_3B * c11 e_1_6B * c21 e_1_6B) / 40;
    RtoC 0;
    RtoC 0;
    RtoC 0;
    (81 * c11 e_1_6B * c21 e_1_6B * c11 e_1_3B * c11 e_1_3B) / 40 + (c11 e_1_2B * c21 e_1_2B) / 24 - (16 * c11 e_1_2B * c11 e_1_4B * c21 e_1_4B) / 15];
   [c22 e_1_2B * c22 e_1_2B / 24 - (16 * c22 e_1_2B * c22 e_1_4B * c22 e_1_4B) / 15 + (81 * c22 e_1_3B * c22 e_1_3B * c22 e_1_6B * c22 e_1_6B) / 40 + (c23 e_1_2B * c32 e_1_2B) / 24 - (16 * c23 e_1_2B * c22 e_1_4B * c32 e_1_4B) / 15 - (16 * c32 e_1_2B * c22 e_1_4B * c23 e_1_4B) / 15 - (16 * c33 e_1_2B * c23 e_1_4B * c32 e_1_4B) / 15 + (81 * c23 e_1_3B * c32 e_1_3B * c22 e_1_6B * c22 e_1_6B) / 40 + (81 * c33 e_1_3B * c33 e_1_3B * c23 e_1_6B * c32 e_1_6B) / 40 + (81 * c22 e_1_3B * c23 e_1_3B * c22 e_1_6B * c32 e_1_6B) / 40 + (81 * c22 e_1_3B * c32 e_1_3B * c22 e_1_6B * c23 e_1_6B) / 40 + (81 * c23 e_1_3B * c32 e_1_3B * c23 e_1_6B * c32 e_1_6B) / 40 + (81 * c23 e_1_3B * c33 e_1_3B * c22 e_1_6B * c32 e_1_6B) / 40 + (81 * c32 e_1_3B * c33 e_1_3B * c22 e_1_6B * c23 e_1_6B) / 40;
    RtoC 0;
    RtoC 0;
    RtoC 0;
    (81 * c12 e_1_3B * c21 e_1_3B * c22 e_1_6B * c22 e_1_6B) / 40 + (81 * c12 e_1_3B * c22 e_1_3B * c21 e_1_6B * c22 e_1_6B) / 40 + (81 * c21 e_1_3B * c22 e_1_3B * c12 e_1_6B * c22 e_1_6B) / 40 + (81 * c12 e_1_3B * c23 e_1_3B * c21 e_1_6B * c32 e_1_6B) / 40 + (81 * c12 e_1_3B * c31 e_1_3B * c22 e_1_6B * c23 e_1_6B) / 40 + (81 * c13 e_1_3B * c21 e_1_3B * c22 e_1_6B * c32 e_1_6B) / 40 + (81 * c13 e_1_3B * c32 e_1_3B * c21 e_1_6B * c22 e_1_6B) / 40 + (81 * c21 e_1_3B * c32 e_1_3B * c12 e_1_6B * c23 e_1_6B) / 40 + (81 * c23 e_1_3B * c31 e_1_3B * c12 e_1_6B * c22 e_1_6B) / 40 + (81 * c13 e_1_3B * c31 e_1_3B * c23 e_1_6B * c32 e_1_6B) / 40 + (81 * c13 e_1_3B * c33 e_1_3B * c21 e_1_6B * c32 e_1_6B) / 40 + (81 * c31 e_1_3B * c33 e_1_3B * c12 e_1_6B * c23 e_1_6B) / 40;
    RtoC 0;
    -(16 * c12 e_1_2B * c21 e_1_4B * c22 e_1_4B) / 15 - (16 * c21 e_1_2B * c12 e_1_4B * c22 e_1_4B) / 15 - (16 * c13 e_1_2B * c21 e_1_4B * c32 e_1_4B) / 15 - (16 * c31 e_1_2B * c12 e_1_4B * c23 e_1_4B) / 15;
    RtoC 0;
    (81 * c11 e_1_3B * c12 e_1_3B * c21 e_1_6B * c22 e_1_6B) / 40 + (81 * c11 e_1_3B * c21 e_1_3B * c12 e_1_6B * c22 e_1_6B) / 40 + (81 * c12 e_1_3B * c21 e_1_3B * c12 e_1_6B * c21 e_1_6B) / 40 + (81 * c11 e_1_3B * c13 e_1_3B * c21 e_1_6B * c32 e_1_6B) / 40 + (81 * c11 e_1_3B * c31 e_1_3B * c12 e_1_6B * c23 e_1_6B) / 40 + (81 * c13 e_1_3B * c31 e_1_3B * c12 e_1_6B * c21 e_1_6B) / 40;
    RtoC 0;
    RtoC 0;
    RtoC 0;
    (81 * c12 e_1_6B * c21 e_1_6B * c11 e_1_3B * c11 e_1_3B) / 40 + (c12 e_1_2B * c21 e_1_2B) / 24 - (16 * c11 e_1_2B * c12 e_1_4B * c21 e_1_4B) / 15];
   [(c22 e_1_2B * c23 e_1_2B) / 24 - (16 * c32 e_1_2B * c23 e_1_4B * c23 e_1_4B) / 15 + (c23 e_1_2B * c33 e_1_2B) / 24 - (16 * c22 e_1_2B * c22 e_1_4B * c23 e_1_4B) / 15 - (16 * c23 e_1_2B * c22 e_1_4B * c33 e_1_4B) / 15 - (16 * c33 e_1_2B * c23 e_1_4B * c33 e_1_4B) / 15 + (81 * c22 e_1_3B * c32 e_1_3B * c23 e_1_6B * c23 e_1_6B) / 40 + (81 * c32 e_1_3B * c33 e_1_3B * c23 e_1_6B * c23 e_1_6B) / 40 + (81 * c22 e_1_3B * c22 e_1_3B * c22 e_1_6B * c23 e_1_6B) / 40 + (81 * c33 e_1_3B * c33 e_1_3B * c23 e_1_6B * c33 e_1_6B) / 40 + (81 * c22 e_1_3B * c23 e_1_3B * c22 e_1_6B * c33 e_1_6B) / 40 + (81 * c23 e_1_3B * c32 e_1_3B * c22 e_1_6B * c23 e_1_6B) / 40 + (81 * c23 e_1_3B * c32 e_1_3B * c23 e_1_6B * c33 e_1_6B) / 40 + (81 * c23 e_1_3B * c33 e_1_3B * c22 e_1_6B * c33 e_1_6B) / 40;
    RtoC 0;
    RtoC 0;
    RtoC 0;
    (81 * c12 e_1_3B * c31 e_1_3B * c23 e_1_6B * c23 e_1_6B) / 40 + (81 * c12 e_1_3B * c21 e_1_3B * c22 e_1_6B * c23 e_1_6B) / 40 + (81 * c12 e_1_3B * c22 e_1_3B * c21 e_1_6B * c23 e_1_6B) / 40 + (81 * c21 e_1_3B * c22 e_1_3B * c13 e_1_6B * c22 e_1_6B) / 40 + (81 * c12 e_1_3B * c23 e_1_3B * c21 e_1_6B * c33 e_1_6B) / 40 + (81 * c13 e_1_3B * c21 e_1_3B * c22 e_1_6B * c33 e_1_6B) / 40 + (81 * c13 e_1_3B * c32 e_1_3B * c21 e_1_6B * c23 e_1_6B) / 40 + (81 * c21 e_1_3B * c32 e_1_3B * c13 e_1_6B * c23 e_1_6B) / 40 + (81 * c23 e_1_3B * c31 e_1_3B * c13 e_1_6B * c22 e_1_6B) / 40 + (81 * c13 e_1_3B * c31 e_1_3B * c23 e_1_6B * c33 e_1_6B) / 40 + (81 * c13 e_1_3B * c33 e_1_3B * c21 e_1_6B * c33 e_1_6B) / 40 + (81 * c31 e_1_3B * c33 e_1_3B * c13 e_1_6B * c23 e_1_6B) / 40;
    RtoC 0;
    -(16 * c12 e_1_2B * c21 e_1_4B * c23 e_1_4B) / 15 - (16 * c21 e_1_2B * c13 e_1_4B * c22 e_1_4B) / 15 - (16 * c13 e_1_2B * c21 e_1_4B * c33 e_1_4B) / 15 - (16 * c31 e_1_2B * c13 e_1_4B * c23 e_1_4B) / 15;
    RtoC 0;
    (81 * c11 e_1_3B * c12 e_1_3B * c21 e_1_6B * c23 e_1_6B) / 40 + (81 * c11 e_1_3B * c21 e_1_3B * c13 e_1_6B * c22 e_1_6B) / 40 + (81 * c12 e_1_3B * c21 e_1_3B * c13 e_1_6B * c21 e_1_6B) / 40 + (81 * c11 e_1_3B * c13 e_1_3B * c21 e_1_6B * c33 e_1_6B) / 40 + (81 * c11 e_1_3B * c31 e_1_3B * c13 e_1_6B * c23 e_1_6B) / 40 + (81 * c13 e_1_3B * c31 e_1_3B * c13 e_1_6B * c21 e_1_6B) / 40;
    RtoC 0;
    RtoC 0;
    RtoC 0;
    (81 * c13 e_1_6B * c21 e_1_6B * c11 e_1_3B * c11 e_1_3B) / 40 + (c13 e_1_2B * c21 e_1_2B) / 24 - (16 * c11 e_1_2B * c13 e_1_4B * c21 e_1_4B) / 15];
   [(c21 e_1_2B * c32 e_1_2B) / 24 + (c31 e_1_2B * c33 e_1_2B) / 24 - (16 * c22 e_1_2B * c21 e_1_4B * c32 e_1_4B) / 15 - (16 * c23 e_1_2B * c31 e_1_4B * c32 e_1_4B) / 15 - (16 * c32 e_1_2B * c21 e_1_4B * c33 e_1_4B) / 15 - (16 * c33 e_1_2B * c31 e_1_4B * c33 e_1_4B) / 15 + (81 * c22 e_1_3B * c22 e_1_3B * c21 e_1_6B * c32 e_1_6B) / 40 + (81 * c33 e_1_3B * c33 e_1_3B * c31 e_1_6B * c33 e_1_6B) / 40 + (81 * c22 e_1_3B * c23 e_1_3B * c31 e_1_6B * c32 e_1_6B) / 40 + (81 * c22 e_1_3B * c32 e_1_3B * c21 e_1_6B * c33 e_1_6B) / 40 + (81 * c23 e_1_3B * c32 e_1_3B * c21 e_1_6B * c32 e_1_6B) / 40 + (81 * c23 e_1_3B * c32 e_1_3B * c31 e_1_6B * c33 e_1_6B) / 40 + (81 * c23 e_1_3B * c33 e_1_3B * c31 e_1_6B * c32 e_1_6B) / 40 + (81 * c32 e_1_3B * c33 e_1_3B * c21 e_1_6B * c33 e_1_6B) / 40;
    RtoC 0;
    RtoC 0;
    RtoC 0;
    (81 * c12 e_1_3B * c23 e_1_3B * c31 e_1_6B * c31 e_1_6B) / 40 + (81 * c13 e_1_3B * c33 e_1_3B * c31 e_1_6B * c31 e_1_6B) / 40 + (81 * c12 e_1_3B * c21 e_1_3B * c21 e_1_6B * c32 e_1_6B) / 40 + (81 * c12 e_1_3B * c22 e_1_3B * c21 e_1_6B * c31 e_1_6B) / 40 + (81 * c21 e_1_3B * c22 e_1_3B * c11 e_1_6B * c32 e_1_6B) / 40 + (81 * c12 e_1_3B * c31 e_1_3B * c21 e_1_6B * c33 e_1_6B) / 40 + (81 * c13 e_1_3B * c21 e_1_3B * c31 e_1_6B * c32 e_1_6B) / 40 + (81 * c13 e_1_3B * c32 e_1_3B * c21 e_1_6B * c31 e_1_6B) / 40 + (81 * c21 e_1_3B * c32 e_1_3B * c11 e_1_6B * c33 e_1_6B) / 40 + (81 * c23 e_1_3B * c31 e_1_3B * c11 e_1_6B * c32 e_1_6B) / 40 + (81 * c13 e_1_3B * c31 e_1_3B * c31 e_1_6B * c33 e_1_6B) / 40 + (81 * c31 e_1_3B * c33 e_1_3B * c11 e_1_6B * c33 e_1_6B) / 40;
    RtoC 0;
    -(16 * c13 e_1_2B * c31 e_1_4B * c31 e_1_4B) / 15 - (16 * c12 e_1_2B * c21 e_1_4B * c31 e_1_4B) / 15 - (16 * c21 e_1_2B * c11 e_1_4B * c32 e_1_4B) / 15 - (16 * c31 e_1_2B * c11 e_1_4B * c33 e_1_4B) / 15;
    RtoC 0;
    (81 * c11 e_1_3B * c13 e_1_3B * c31 e_1_6B * c31 e_1_6B) / 40 + (81 * c11 e_1_3B * c12 e_1_3B * c21 e_1_6B * c31 e_1_6B) / 40 + (81 * c11 e_1_3B * c21 e_1_3B * c11 e_1_6B * c32 e_1_6B) / 40 + (81 * c12 e_1_3B * c21 e_1_3B * c11 e_1_6B * c31 e_1_6B) / 40 + (81 * c11 e_1_3B * c31 e_1_3B * c11 e_1_6B * c33 e_1_6B) / 40 + (81 * c13 e_1_3B * c31 e_1_3B * c11 e_1_6B * c31 e_1_6B) / 40;
    RtoC 0;
    RtoC 0;
    RtoC 0;
    (81 * c11 e_1_6B * c31 e_1_6B * c11 e_1_3B * c11 e_1_3B) / 40 + (c11 e_1_2B * c31 e_1_2B) / 24 - (16 * c11 e_1_2B * c11 e_1_4B * c31 e_1_4B) / 15];
   [(c22 e_1_2B * c32 e_1_2B) / 24 - (16 * c23 e_1_2B * c32 e_1_4B * c32 e_1_4B) / 15 + (c32 e_1_2B * c33 e_1_2B) / 24 - (16 * c22 e_1_2B * c22 e_1_4B * c32 e_1_4B) / 15 - (16 * c32 e_1_2B * c22 e_1_4B * c33 e_1_4B) / 15 - (16 * c33 e_1_2B * c32 e_1_4B * c33 e_1_4B) / 15 + (81 * c22 e_1_3B * c23 e_1_3B * c32 e_1_6B * c32 e_1_6B) / 40 + (81 * c23 e_1_3B * c33 e_1_3B * c32 e_1_6B * c32 e_1_6B) / 40 + (81 * c22 e_1_3B * c22 e_1_3B * c22 e_1_6B * c32 e_1_6B) / 40 + (81 * c33 e_1_3B * c33 e_1_3B * c32 e_1_6B * c33 e_1_6B) / 40 + (81 * c22 e_1_3B * c32 e_1_3B * c22 e_1_6B * c33 e_1_6B) / 40 + (81 * c23 e_1_3B * c32 e_1_3B * c22 e_1_6B * c32 e_1_6B) / 40 + (81 * c23 e_1_3B * c32 e_1_3B * c32 e_1_6B * c33 e_1_6B) / 40 + (81 * c32 e_1_3B * c33 e_1_3B * c22 e_1_6B * c33 e_1_6B) / 40;
    RtoC 0;
    RtoC 0;
    RtoC 0;
    (81 * c13 e_1_3B * c21 e_1_3B * c32 e_1_6B * c32 e_1_6B) / 40 + (81 * c12 e_1_3B * c21 e_1_3B * c22 e_1_6B * c32 e_1_6B) / 40 + (81 * c12 e_1_3B * c22 e_1_3B * c22 e_1_6B * c31 e_1_6B) / 40 + (81 * c21 e_1_3B * c22 e_1_3B * c12 e_1_6B * c32 e_1_6B) / 40 + (81 * c12 e_1_3B * c23 e_1_3B * c31 e_1_6B * c32 e_1_6B) / 40 + (81 * c12 e_1_3B * c31 e_1_3B * c22 e_1_6B * c33 e_1_6B) / 40 + (81 * c13 e_1_3B * c32 e_1_3B * c22 e_1_6B * c31 e_1_6B) / 40 + (81 * c21 e_1_3B * c32 e_1_3B * c12 e_1_6B * c33 e_1_6B) / 40 + (81 * c23 e_1_3B * c31 e_1_3B * c12 e_1_6B * c32 e_1_6B) / 40 + (81 * c13 e_1_3B * c31 e_1_3B * c32 e_1_6B * c33 e_1_6B) / 40 + (81 * c13 e_1_3B * c33 e_1_3B * c31 e_1_6B * c32 e_1_6B) / 40 + (81 * c31 e_1_3B * c33 e_1_3B * c12 e_1_6B * c33 e_1_6B) / 40;
    RtoC 0;
    -(16 * c12 e_1_2B * c22 e_1_4B * c31 e_1_4B) / 15 - (16 * c21 e_1_2B * c12 e_1_4B * c32 e_1_4B) / 15 - (16 * c13 e_1_2B * c31 e_1_4B * c32 e_1_4B) / 15 - (16 * c31 e_1_2B * c12 e_1_4B * c33 e_1_4B) / 15;
    RtoC 0;
    (81 * c11 e_1_3B * c12 e_1_3B * c22 e_1_6B * c31 e_1_6B) / 40 + (81 * c11 e_1_3B * c21 e_1_3B * c12 e_1_6B * c32 e_1_6B) / 40 + (81 * c12 e_1_3B * c21 e_1_3B * c12 e_1_6B * c31 e_1_6B) / 40 + (81 * c11 e_1_3B * c13 e_1_3B * c31 e_1_6B * c32 e_1_6B) / 40 + (81 * c11 e_1_3B * c31 e_1_3B * c12 e_1_6B * c33 e_1_6B) / 40 + (81 * c13 e_1_3B * c31 e_1_3B * c12 e_1_6B * c31 e_1_6B) / 40;
    RtoC 0;
    RtoC 0;
    RtoC 0;
    (81 * c12 e_1_6B * c31 e_1_6B * c11 e_1_3B * c11 e_1_3B) / 40 + (c12 e_1_2B * c31 e_1_2B) / 24 - (16 * c11 e_1_2B * c12 e_1_4B * c31 e_1_4B) / 15];
   [c33 e_1_2B * c33 e_1_2B / 24 - (16 * c33 e_1_2B * c33 e_1_4B * c33 e_1_4B) / 15 + (81 * c33 e_1_3B * c33 e_1_3B * c33 e_1_6B * c33 e_1_6B) / 40 + (c23 e_1_2B * c32 e_1_2B) / 24 - (16 * c22 e_1_2B * c23 e_1_4B * c32 e_1_4B) / 15 - (16 * c23 e_1_2B * c32 e_1_4B * c33 e_1_4B) / 15 - (16 * c32 e_1_2B * c23 e_1_4B * c33 e_1_4B) / 15 + (81 * c23 e_1_3B * c32 e_1_3B * c33 e_1_6B * c33 e_1_6B) / 40 + (81 * c22 e_1_3B * c22 e_1_3B * c23 e_1_6B * c32 e_1_6B) / 40 + (81 * c22 e_1_3B * c23 e_1_3B * c32 e_1_6B * c33 e_1_6B) / 40 + (81 * c22 e_1_3B * c32 e_1_3B * c23 e_1_6B * c33 e_1_6B) / 40 + (81 * c23 e_1_3B * c32 e_1_3B * c23 e_1_6B * c32 e_1_6B) / 40 + (81 * c23 e_1_3B * c33 e_1_3B * c32 e_1_6B * c33 e_1_6B) / 40 + (81 * c32 e_1_3B * c33 e_1_3B * c23 e_1_6B * c33 e_1_6B) / 40;
    RtoC 0;
    RtoC 0;
    RtoC 0;
    (81 * c13 e_1_3B * c31 e_1_3B * c33 e_1_6B * c33 e_1_6B) / 40 + (81 * c12 e_1_3B * c21 e_1_3B * c23 e_1_6B * c32 e_1_6B) / 40 + (81 * c12 e_1_3B * c22 e_1_3B * c23 e_1_6B * c31 e_1_6B) / 40 + (81 * c21 e_1_3B * c22 e_1_3B * c13 e_1_6B * c32 e_1_6B) / 40 + (81 * c12 e_1_3B * c23 e_1_3B * c31 e_1_6B * c33 e_1_6B) / 40 + (81 * c12 e_1_3B * c31 e_1_3B * c23 e_1_6B * c33 e_1_6B) / 40 + (81 * c13 e_1_3B * c21 e_1_3B * c32 e_1_6B * c33 e_1_6B) / 40 + (81 * c13 e_1_3B * c32 e_1_3B * c23 e_1_6B * c31 e_1_6B) / 40 + (81 * c21 e_1_3B * c32 e_1_3B * c13 e_1_6B * c33 e_1_6B) / 40 + (81 * c23 e_1_3B * c31 e_1_3B * c13 e_1_6B * c32 e_1_6B) / 40 + (81 * c13 e_1_3B * c33 e_1_3B * c31 e_1_6B * c33 e_1_6B) / 40 + (81 * c31 e_1_3B * c33 e_1_3B * c13 e_1_6B * c33 e_1_6B) / 40;
    RtoC 0;
    -(16 * c12 e_1_2B * c23 e_1_4B * c31 e_1_4B) / 15 - (16 * c21 e_1_2B * c13 e_1_4B * c32 e_1_4B) / 15 - (16 * c13 e_1_2B * c31 e_1_4B * c33 e_1_4B) / 15 - (16 * c31 e_1_2B * c13 e_1_4B * c33 e_1_4B) / 15;
    RtoC 0;
    (81 * c11 e_1_3B * c12 e_1_3B * c23 e_1_6B * c31 e_1_6B) / 40 + (81 * c11 e_1_3B * c21 e_1_3B * c13 e_1_6B * c32 e_1_6B) / 40 + (81 * c12 e_1_3B * c21 e_1_3B * c13 e_1_6B * c31 e_1_6B) / 40 + (81 * c11 e_1_3B * c13 e_1_3B * c31 e_1_6B * c33 e_1_6B) / 40 + (81 * c11 e_1_3B * c31 e_1_3B * c13 e_1_6B * c33 e_1_6B) / 40 + (81 * c13 e_1_3B * c31 e_1_3B * c13 e_1_6B * c31 e_1_6B) / 40;
    RtoC 0;
    RtoC 0;
    RtoC 0;
    (81 * c13 e_1_6B * c31 e_1_6B * c11 e_1_3B * c11 e_1_3B) / 40 + (c13 e_1_2B * c31 e_1_2B) / 24 - (16 * c11 e_1_2B * c13 e_1_4B * c31 e_1_4B) / 15]].

(** src/private/fnft__manakov_fscatter.c:735-876, case FTES4_4A (degree 8); e_1_2B is computed with step eps_t / 2, e_B is computed with step eps_t *)
Definition mstep_FTES4_4A (e_1_2B e_B E1 E2 : mat3) : list (list C) :=
  [[(4 * c22 e_1_2B * c22 e_1_2B * c12 E1 * c21 E2) / 3 - (c23 e_B * c12 E1 * c31 E2) / 3 - (c32 e_B * c13 E1 * c21 E2) / 3 - (c33 e_B * c13 E1 * c31 E2) / 3 - (c22 e_B * c12 E1 * c21 E2) / 3 + (4 * c33 e_1_2B * c33 e_1_2B * c13 E1 * c31 E2) / 3 + (4 * c22 e_1_2B * c23 e_1_2B * c12 E1 * c31 E2) / 3 + (4 * c22 e_1_2B * c32 e_1_2B * c13 E1 * c21 E2) / 3 + (4 * c23 e_1_2B * c32 e_1_2B * c12 E1 * c21 E2) / 3 + (4 * c23 e_1_2B * c32 e_1_2B * c13 E1 * c31 E2) / 3 + (4 * c23 e_1_2B * c33 e_1_2B * c12 E1 * c31 E2) / 3 + (4 * c32 e_1_2B * c33 e_1_2B * c13 E1 * c21 E2) / 3;
    RtoC 0;
    (4 * c12 e_1_2B * c22 e_1_2B * c11 E1 * c21 E2) / 3 + (4 * c21 e_1_2B * c22 e_1_2B * c12 E1 * c11 E2) / 3 + (4 * c12 e_1_2B * c23 e_1_2B * c11 E1 * c31 E2) / 3 + (4 * c13 e_1_2B * c32 e_1_2B * c11 E1 * c21 E2) / 3 + (4 * c21 e_1_2B * c32 e_1_2B * c13 E1 * c11 E2) / 3 + (4 * c23 e_1_2B * c31 e_1_2B * c12 E1 * c11 E2) / 3 + (4 * c13 e_1_2B * c33 e_1_2B * c11 E1 * c31 E2) / 3 + (4 * c31 e_1_2B * c33 e_1_2B * c13 E1 * c11 E2) / 3;
    RtoC 0;
    (4 * c12 e_1_2B * c21 e_1_2B * c11 E1 * c11 E2) / 3 - (c21 e_B * c12 E1 * c11 E2) / 3 - (c13 e_B * c11 E1 * c31 E2) / 3 - (c31 e_B * c13 E1 * c11 E2) / 3 - (c12 e_B * c11 E1 * c21 E2) / 3 + (4 * c12 e_1_2B * c21 e_1_2B * c12 E1 * c21 E2) / 3 + (4 * c13 e_1_2B * c31 e_1_2B * c11 E1 * c11 E2) / 3 + (4 * c12 e_1_2B * c31 e_1_2B * c13 E1 * c21 E2) / 3 + (4 * c13 e_1_2B * c21 e_1_2B * c12 E1 * c31 E2) / 3 + (4 * c13 e_1_2B * c31 e_1_2B * c13 E1 * c31 E2) / 3;
    RtoC 0;
    (4 * c11 e_1_2B * c12 e_1_2B * c11 E1 * c21 E2) / 3 + (4 * c11 e_1_2B * c21 e_1_2B * c12 E1 * c11 E2) / 3 + (4 * c11 e_1_2B * c13 e_1_2B * c11 E1 * c31 E2) / 3 + (4 * c11 e_1_2B * c31 e_1_2B * c13 E1 * c11 E2) / 3;
    RtoC 0;
    (4 * c11 E1 * c11 E2 * c11 e_1_2B * c11 e_1_2B) / 3 - (c11 e_B * c11 E1 * c11 E2) / 3];
   [(4 * c22 e_1_2B * c22 e_1_2B * c12 E1 * c22 E2) / 3 - (c23 e_B * c12 E1 * c32 E2) / 3 - (c32 e_B * c13 E1 * c22 E2) / 3 - (c33 e_B * c13 E1 * c32 E2) / 3 - (c22 e_B * c12 E1 * c22 E2) / 3 + (4 * c33 e_1_2B * c33 e_1_2B * c13 E1 * c32 E2) / 3 + (4 * c22 e_1_2B * c23 e_1_2B * c12 E1 * c32 E2) / 3 + (4 * c22 e_1_2B * c32 e_1_2B * c13 E1 * c22 E2) / 3 + (4 * c23 e_1_2B * c32 e_1_2B * c12 E1 * c22 E2) / 3 + (4 * c23 e_1_2B * c32 e_1_2B * c13 E1 * c32 E2) / 3 + (4 * c23 e_1_2B * c33 e_1_2B * c12 E1 * c32 E2) / 3 + (4 * c32 e_1_2B * c33 e_1_2B * c13 E1 * c22 E2) / 3;
    RtoC 0;
    (4 * c12 e_1_2B * c22 e_1_2B * c11 E1 * c22 E2) / 3 + (4 * c21 e_1_2B * c22 e_1_2B * c12 E1 * c12 E2) / 3 + (4 * c12 e_1_2B * c23 e_1_2B * c11 E1 * c32 E2) / 3 + (4 * c13 e_1_2B * c32 e_1_2B * c11 E1 * c22 E2) / 3 + (4 * c21 e_1_2B * c32 e_1_2B * c13 E1 * c12 E2) / 3 + (4 * c23 e_1_2B * c31 e_1_2B * c12 E1 * c12 E2) / 3 + (4 * c13 e_1_2B * c33 e_1_2B * c11 E1 * c32 E2) / 3 + (4 * c31 e_1_2B * c33 e_1_2B * c13 E1 * c12 E2) / 3;
    RtoC 0;
    (4 * c12 e_1_2B * c21 e_1_2B * c11 E1 * c12 E2) / 3 - (c21 e_B * c12 E1 * c12 E2) / 3 - (c13 e_B * c11 E1 * c32 E2) / 3 - (c31 e_B * c13 E1 * c12 E2) / 3 - (c12 e_B * c11 E1 * c22 E2) / 3 + (4 * c12 e_1_2B * c21 e_1_2B * c12 E1 * c22 E2) / 3 + (4 * c13 e_1_2B * c31 e_1_2B * c11 E1 * c12 E2) / 3 + (4 * c12 e_1_2B * c31 e_1_2B * c13 E1 * c22 E2) / 3 + (4 * c13 e_1_2B * c21 e_1_2B * c12 E1 * c32 E2) / 3 + (4 * c13 e_1_2B * c31 e_1_2B * c13 E1 * c32 E2) / 3;
    RtoC 0;
    (4 * c11 e_1_2B * c12 e_1_2B * c11 E1 * c22 E2) / 3 + (4 * c11 e_1_2B * c21 e_1_2B * c12 E1 * c12 E2) / 3 + (4 * c11 e_1_2B * c13 e_1_2B * c11 E1 * c32 E2) / 3 + (4 * c11 e_1_2B * c31 e_1_2B * c13 E1 * c12 E2) / 3;
    RtoC 0;
    (4 * c11 E1 * c12 E2 * c11 e_1_2B * c11 e_1_2B) / 3 - (c11 e_B * c11 E1 * c12 E2) / 3];
   [(4 * c22 e_1_2B * c22 e_1_2B * c12 E1 * c23 E2) / 3 - (c23 e_B * c12 E1 * c33 E2) / 3 - (c32 e_B * c13 E1 * c23 E2) / 3 - (c33 e_B * c13 E1 * c33 E2) / 3 - (c22 e_B * c12 E1 * c23 E2) / 3 + (4 * c33 e_1_2B * c33 e_1_2B * c13 E1 * c33 E2) / 3 + (4 * c22 e_1_2B * c23 e_1_2B * c12 E1 * c33 E2) / 3 + (4 * c22 e_1_2B * c32 e_1_2B * c13 E1 * c23 E2) / 3 + (4 * c23 e_1_2B * c32 e_1_2B * c12 E1 * c23 E2) / 3 + (4 * c23 e_1_2B * c32 e_1_2B * c13 E1 * c33 E2) / 3 + (4 * c23 e_1_2B * c33 e_1_2B * c12 E1 * c33 E2) / 3 + (4 * c32 e_1_2B * c33 e_1_2B * c13 E1 * c23 E2) / 3;
    RtoC 0;
    (4 * c12 e_1_2B * c22 e_1_2B * c11 E1 * c23 E2) / 3 + (4 * c21 e_1_2B * c22 e_1_2B * c12 E1 * c13 E2) / 3 + (4 * c12 e_1_2B * c23 e_1_2B * c11 E1 * c33 E2) / 3 + (4 * c13 e_1_2B * c32 e_1_2B * c11 E1 * c23 E2) / 3 + (4 * c21 e_1_2B * c32 e_1_2B * c13 E1 * c13 E2) / 3 + (4 * c23 e_1_2B * c31 e_1_2B * c12 E1 * c13 E2) / 3 + (4 * c13 e_1_2B * c33 e_1_2B * c11 E1 * c33 E2) / 3 + (4 * c31 e_1_2B * c33 e_1_2B * c13 E1 * c13 E2) / 3;
    RtoC 0;
    (4 * c12 e_1_2B * c21 e_1_2B * c11 E1 * c13 E2) / 3 - (c21 e_B * c12 E1 * c13 E2) / 3 - (c13 e_B * c11 E1 * c33 E2) / 3 - (c31 e_B * c13 E1 * c13 E2) / 3 - (c12 e_B * c11 E1 * c23 E2) / 3 + (4 * c12 e_1_2B * c21 e_1_2B * c12 E1 * c23 E2) / 3 + (4 * c13 e_1_2B * c31 e_1_2B * c11 E1 * c13 E2) / 3 + (4 * c12 e_1_2B * c31 e_1_2B * c13 E1 * c23 E2) / 3 + (4 * c13 e_1_2B * c21 e_1_2B * c12 E1 * c33 E2) / 3 + (4 * c13 e_1_2B * c31 e_1_2B * c13 E1 * c33 E2) / 3;
    RtoC 0;
    (4 * c11 e_1_2B * c12 e_1_2B * c11 E1 * c23 E2) / 3 + (4 * c11 e_1_2B * c21 e_1_2B * c12 E1 * c13 E2) / 3 + (4 * c11 e_1_2B * c13 e_1_2B * c11 E1 * c33 E2) / 3 + (4 * c11 e_1_2B * c31 e_1_2B * c13 E1 * c13 E2) / 3;
    RtoC 0;
    (4 * c11 E1 * c13 E2 * c11 e_1_2B * c11 e_1_2B) / 3 - (c11 e_B * c11 E1 * c13 E2) / 3];
   [(4 * c22 e_1_2B * c22 e_1_2B * c22 E1 * c21 E2) / 3 - (c23 e_B * c22 E1 * c31 E2) / 3 - (c32 e_B * c23 E1 * c21 E2) / 3 - (c33 e_B * c23 E1 * c31 E2) / 3 - (c22 e_B * c22 E1 * c21 E2) / 3 + (4 * c33 e_1_2B * c33 e_1_2B * c23 E1 * c31 E2) / 3 + (4 * c22 e_1_2B * c23 e_1_2B * c22 E1 * c31 E2) / 3 + (4 * c22 e_1_2B * c32 e_1_2B * c23 E1 * c21 E2) / 3 + (4 * c23 e_1_2B * c32 e_1_2B * c22 E1 * c21 E2) / 3 + (4 * c23 e_1_2B * c32 e_1_2B * c23 E1 * c31 E2) / 3 + (4 * c23 e_1_2B * c33 e_1_2B * c22 E1 * c31 E2) / 3 + (4 * c32 e_1_2B * c33 e_1_2B * c23 E1 * c21 E2) / 3;
    RtoC 0;
    (4 * c12 e_1_2B * c22 e_1_2B * c21 E1 * c21 E2) / 3 + (4 * c21 e_1_2B * c22 e_1_2B * c22 E1 * c11 E2) / 3 + (4 * c12 e_1_2B * c23 e_1_2B * c21 E1 * c31 E2) / 3 + (4 * c13 e_1_2B * c32 e_1_2B * c21 E1 * c21 E2) / 3 + (4 * c21 e_1_2B * c32 e_1_2B * c23 E1 * c11 E2) / 3 + (4 * c23 e_1_2B * c31 e_1_2B * c22 E1 * c11 E2) / 3 + (4 * c13 e_1_2B * c33 e_1_2B * c21 E1 * c31 E2) / 3 + (4 * c31 e_1_2B * c33 e_1_2B * c23 E1 * c11 E2) / 3;
    RtoC 0;
    (4 * c12 e_1_2B * c21 e_1_2B * c21 E1 * c11 E2) / 3 - (c21 e_B * c22 E1 * c11 E2) / 3 - (c13 e_B * c21 E1 * c31 E2) / 3 - (c31 e_B * c23 E1 * c11 E2) / 3 - (c12 e_B * c21 E1 * c21 E2) / 3 + (4 * c12 e_1_2B * c21 e_1_2B * c22 E1 * c21 E2) / 3 + (4 * c13 e_1_2B * c31 e_1_2B * c21 E1 * c11 E2) / 3 + (4 * c12 e_1_2B * c31 e_1_2B * c23 E1 * c21 E2) / 3 + (4 * c13 e_1_2B * c21 e_1_2B * c22 E1 * c31 E2) / 3 + (4 * c13 e_1_2B * c31 e_1_2B * c23 E1 * c31 E2) / 3;
    RtoC 0;
    (4 * c11 e_1_2B * c12 e_1_2B * c21 E1 * c21 E2) / 3 + (4 * c11 e_1_2B * c21 e_1_2B * c22 E1 * c11 E2) / 3 + (4 * c11 e_1_2B * c13 e_1_2B * c21 E1 * c31 E2) / 3 + (4 * c11 e_1_2B * c31 e_1_2B * c23 E1 * c11 E2) / 3;
    RtoC 0;
    (4 * c21 E1 * c11 E2 * c11 e_1_2B * c11 e_1_2B) / 3 - (c11 e_B * c21 E1 * c11 E2) / 3];
   [(4 * c22 e_1_2B * c22 e_1_2B * c22 E1 * c22 E2) / 3 - (c23 e_B * c22 E1 * c32 E2) / 3 - (c32 e_B * c23 E1 * c22 E2) / 3 - (c33 e_B * c23 E1 * c32 E2) / 3 - (c22 e_B * c22 E1 * c22 E2) / 3 + (4 * c33 e_1_2B * c33 e_1_2B * c23 E1 * c32 E2) / 3 + (4 * c22 e_1_2B * c23 e_1_2B * c22 E1 * c32 E2) / 3 + (4 * c22 e_1_2B * c32 e_1_2B * c23 E1 * c22 E2) / 3 + (4 * c23 e_1_2B * c32 e_1_2B * c22 E1 * c22 E2) / 3 + (4 * c23 e_1_2B * c32 e_1_2B * c23 E1 * c32 E2) / 3 + (4 * c23 e_1_2B * c33 e_1_2B * c22 E1 * c32 E2) / 3 + (4 * c32 e_1_2B * c33 e_1_2B * c23 E1 * c22 E2) / 3;
    RtoC 0;
    (4 * c12 e_1_2B * c22 e_1_2B * c21 E1 * c22 E2) / 3 + (4 * c21 e_1_2B * c22 e_1_2B * c22 E1 * c12 E2) / 3 + (4 * c12 e_1_2B * c23 e_1_2B * c21 E1 * c32 E2) / 3 + (4 * c13 e_1_2B * c32 e_1_2B * c21 E1 * c22 E2) / 3 + (4 * c21 e_1_2B * c32 e_1_2B * c23 E1 * c12 E2) / 3 + (4 * c23 e_1_2B * c31 e_1_2B * c22 E1 * c12 E2) / 3 + (4 * c13 e_1_2B * c33 e_1_2B * c21 E1 * c32 E2) / 3 + (4 * c31 e_1_2B * c33 e_1_2B * c23 E1 * c12 E2) / 3;
    RtoC 0;
    (4 * c12 e_1_2B * c21 e_1_2B * c21 E1 * c12 E2) / 3 - (c21 e_B * c22 E1 * c12 E2) / 3 - (c13 e_B * c21 E1 * c32 E2) / 3 - (c31 e_B * c23 E1 * c12 E2) / 3 - (c12 e_B * c21 E1 * c22 E2) / 3 + (4 * c12 e_1_2B * c21 e_1_2B * c22 E1 * c22 E2) / 3 + (4 * c13 e_1_2B * c31 e_1_2B * c21 E1 * c12 E2) / 3 + (4 * c12 e_1_2B * c31 e_1_2B * c23 E1 * c22 E2) / 3 + (4 * c13 e_1_2B * c21 e_1_2B * c22 E1 * c32 E2) / 3 + (4 * c13 e_1_2B * c31 e_1_2B * c23 E1 * c32 E2) / 3;
    RtoC 0;
    (4 * c11 e_1_2B * c12 e_1_2B * c21 E1 * c22 E2) / 3 + (4 * c11 e_1_2B * c21 e_1_2B * c22 E1 * c12 E2) / 3 + (4 * c11 e_1_2B * c13 e_1_2B * c21 E1 * c32 E2) / 3 + (4 * c11 e_1_2B * c31 e_1_2B * c23 E1 * c12 E2) / 3;
    RtoC 0;
    (4 * c21 E1 * c12 E2 * c11 e_1_2B * c11 e_1_2B) / 3 - (c11 e_B * c21 E1 * c12 E2) / 3];
   [(4 * c22 e_1_2B * c22 e_1_2B * c22 E1 * c23 E2) / 3 - (c23 e_B * c22 E1 * c33 E2) / 3 - (c32 e_B * c23 E1 * c23 E2) / 3 - (c33 e_B * c23 E1 * c33 E2) / 3 - (c22 e_B * c22 E1 * c23 E2) / 3 + (4 * c33 e_1_2B * c33 e_1_2B * c23 E1 * c33 E2) / 3 + (4 * c22 e_1_2B * c23 e_1_2B * c22 E1 * c33 E2) / 3 + (4 * c22 e_1_2B * c32 e_1_2B * c23 E1 * c23 E2) / 3 + (4 * c23 e_1_2B * c32 e_1_2B * c22 E1 * c23 E2) / 3 + (4 * c23 e_1_2B * c32 e_1_2B * c23 E1 * c33 E2) / 3 + (4 * c23 e_1_2B * c33 e_1_2B * c22 E1 * c33 E2) / 3 + (4 * c32 e_1_2B * c33 e_1_2B * c23 E1 * c23 E2) / 3;
    RtoC 0;
    (4 * c12 e_1_2B * c22 e_1_2B * c21 E1 * c23 E2) / 3 + (4 * c21 e_1_2B * c22 e_1_2B * c22 E1 * c13 E2) / 3 + (4 * c12 e_1_2B * c23 e_1_2B * c21 E1 * c33 E2) / 3 + (4 * c13 e_1_2B * c32 e_1_2B * c21 E1 * c23 E2) / 3 + (4 * c21 e_1_2B * c32 e_1_2B * c23 E1 * c13 E2) / 3 + (4 * c23 e_1_2B * c31 e_1_2B * c22 E1 * c13 E2) / 3 + (4 * c13 e_1_2B * c33 e_1_2B * c21 E1 * c33 E2) / 3 + (4 * c31 e_1_2B * c33 e_1_2B * c23 E1 * c13 E2) / 3;
    RtoC 0;
    (4 * c12 e_1_2B * c21 e_1_2B * c21 E1 * c13 E2) / 3 - (c21 e_B * c22 E1 * c13 E2) / 3 - (c13 e_B * c21 E1 * c33 E2) / 3 - (c31 e_B * c23 E1 * c13 E2) / 3 - (c12 e_B * c21 E1 * c23 E2) / 3 + (4 * c12 e_1_2B * c21 e_1_2B * c22 E1 * c23 E2) / 3 + (4 * c13 e_1_2B * c31 e_1_2B * c21 E1 * c13 E2) / 3 + (4 * c12 e_1_2B * c31 e_1_2B * c23 E1 * c23 E2) / 3 + (4 * c13 e_1_2B * c21 e_1_2B * c22 E1 * c33 E2) / 3 + (4 * c13 e_1_2B * c31 e_1_2B * c23 E1 * c33 E2) / 3;
    RtoC 0;
    (4 * c11 e_1_2B * c12 e_1_2B * c21 E1 * c23 E2) / 3 + (4 * c11 e_1_2B * c21 e_1_2B * c22 E1 * c13 E2) / 3 + (4 * c11 e_1_2B * c13 e_1_2B * c21 E1 * c33 E2) / 3 + (4 * c11 e_1_2B * c31 e_1_2B * c23 E1 * c13 E2) / 3;
    RtoC 0;
    (4 * c21 E1 * c13 E2 * c11 e_1_2B * c11 e_1_2B) / 3 - (c11 e_B * c21 E1 * c13 E2) / 3];
   [(4 * c22 e_1_2B * c22 e_1_2B * c32 E1 * c21 E2) / 3 - (c23 e_B * c32 E1 * c31 E2) / 3 - (c32 e_B * c33 E1 * c21 E2) / 3 - (c33 e_B * c33 E1 * c31 E2) / 3 - (c22 e_B * c32 E1 * c21 E2) / 3 + (4 * c33 e_1_2B * c33 e_1_2B * c33 E1 * c31 E2) / 3 + (4 * c22 e_1_2B * c23 e_1_2B * c32 E1 * c31 E2) / 3 + (4 * c22 e_1_2B * c32 e_1_2B * c33 E1 * c21 E2) / 3 + (4 * c23 e_1_2B * c32 e_1_2B * c32 E1 * c21 E2) / 3 + (4 * c23 e_1_2B * c32 e_1_2B * c33 E1 * c31 E2) / 3 + (4 * c23 e_1_2B * c33 e_1_2B * c32 E1 * c31 E2) / 3 + (4 * c32 e_1_2B * c33 e_1_2B * c33 E1 * c21 E2) / 3;
    RtoC 0;
    (4 * c12 e_1_2B * c22 e_1_2B * c31 E1 * c21 E2) / 3 + (4 * c21 e_1_2B * c22 e_1_2B * c32 E1 * c11 E2) / 3 + (4 * c12 e_1_2B * c23 e_1_2B * c31 E1 * c31 E2) / 3 + (4 * c13 e_1_2B * c32 e_1_2B * c31 E1 * c21 E2) / 3 + (4 * c21 e_1_2B * c32 e_1_2B * c33 E1 * c11 E2) / 3 + (4 * c23 e_1_2B * c31 e_1_2B * c32 E1 * c11 E2) / 3 + (4 * c13 e_1_2B * c33 e_1_2B * c31 E1 * c31 E2) / 3 + (4 * c31 e_1_2B * c33 e_1_2B * c33 E1 * c11 E2) / 3;
    RtoC 0;
    (4 * c12 e_1_2B * c21 e_1_2B * c31 E1 * c11 E2) / 3 - (c21 e_B * c32 E1 * c11 E2) / 3 - (c13 e_B * c31 E1 * c31 E2) / 3 - (c31 e_B * c33 E1 * c11 E2) / 3 - (c12 e_B * c31 E1 * c21 E2) / 3 + (4 * c12 e_1_2B * c21 e_1_2B * c32 E1 * c21 E2) / 3 + (4 * c13 e_1_2B * c31 e_1_2B * c31 E1 * c11 E2) / 3 + (4 * c12 e_1_2B * c31 e_1_2B * c33 E1 * c21 E2) / 3 + (4 * c13 e_1_2B * c21 e_1_2B * c32 E1 * c31 E2) / 3 + (4 * c13 e_1_2B * c31 e_1_2B * c33 E1 * c31 E2) / 3;
    RtoC 0;
    (4 * c11 e_1_2B * c12 e_1_2B * c31 E1 * c21 E2) / 3 + (4 * c11 e_1_2B * c21 e_1_2B * c32 E1 * c11 E2) / 3 + (4 * c11 e_1_2B * c13 e_1_2B * c31 E1 * c31 E2) / 3 + (4 * c11 e_1_2B * c31 e_1_2B * c33 E1 * c11 E2) / 3;
    RtoC 0;
    (4 * c31 E1 * c11 E2 * c11 e_1_2B * c11 e_1_2B) / 3 - (c11 e_B * c31 E1 * c11 E2) / 3];
   [(4 * c22 e_1_2B * c22 e_1_2B * c32 E1 * c22 E2) / 3 - (c23 e_B * c32 E1 * c32 E2) / 3 - (c32 e_B * c33 E1 * c22 E2) / 3 - (c33 e_B * c33 E1 * c32 E2) / 3 - (c22 e_B * c32 E1 * c22 E2) / 3 + (4 * c33 e_1_2B * c33 e_1_2B * c33 E1 * c32 E2) / 3 + (4 * c22 e_1_2B * c23 e_1_2B * c32 E1 * c32 E2) / 3 + (4 * c22 e_1_2B * c32 e_1_2B * c33 E1 * c22 E2) / 3 + (4 * c23 e_1_2B * c32 e_1_2B * c32 E1 * c22 E2) / 3 + (4 * c23 e_1_2B * c32 e_1_2B * c33 E1 * c32 E2) / 3 + (4 * c23 e_1_2B * c33 e_1_2B * c32 E1 * c32 E2) / 3 + (4 * c32 e_1_2B * c33 e_1_2B * c33 E1 * c22 E2) / 3;
    RtoC 0;
    (4 * c12 e_1_2B * c22 e_1_2B * c31 E1 * c22 E2) / 3 + (4 * c21 e_1_2B * c22 e_1_2B * c32 E1 * c12 E2) / 3 + (4 * c12 e_1_2B * c23 e_1_2B * c31 E1 * c32 E2) / 3 + (4 * c13 e_1_2B * c32 e_1_2B * c31 E1 * c22 E2) / 3 + (4 * c21 e_1_2B * c32 e_1_2B * c33 E1 * c12 E2) / 3 + (4 * c23 e_1_2B * c31 e_1_2B * c32 E1 * c12 E2) / 3 + (4 * c13 e_1_2B * c33 e_1_2B * c31 E1 * c32 E2) / 3 + (4 * c31 e_1_2B * c33 e_1_2B * c33 E1 * c12 E2) / 3;
    RtoC 0;
    (4 * c12 e_1_2B * c21 e_1_2B * c31 E1 * c12 E2) / 3 - (c21 e_B * c32 E1 * c12 E2) / 3 - (c13 e_B * c31 E1 * c32 E2) / 3 - (c31 e_B * c33 E1 * c12 E2) / 3 - (c12 e_B * c31 E1 * c22 E2) / 3 + (4 * c12 e_1_2B * c21 e_1_2B * c32 E1 * c22 E2) / 3 + (4 * c13 e_1_2B * c31 e_1_2B * c31 E1 * c12 E2) / 3 + (4 * c12 e_1_2B * c31 e_1_2B * c33 E1 * c22 E2) / 3 + (4 * c13 e_1_2B * c21 e_1_2B * c32 E1 * c32 E2) / 3 + (4 * c13 e_1_2B * c31 e_1_2B * c33 E1 * c32 E2) / 3;
    RtoC 0;
    (4 * c11 e_1_2B * c12 e_1_2B * c31 E1 * c22 E2) / 3 + (4 * c11 e_1_2B * c21 e_1_2B * c32 E1 * c12 E2) / 3 + (4 * c11 e_1_2B * c13 e_1_2B * c31 E1 * c32 E2) / 3 + (4 * c11 e_1_2B * c31 e_1_2B * c33 E1 * c12 E2) / 3;
    RtoC 0;
    (4 * c31 E1 * c12 E2 * c11 e_1_2B * c11 e_1_2B) / 3 - (c11 e_B * c31 E1 * c12 E2) / 3];
   [(4 * c22 e_1_2B * c22 e_1_2B * c32 E1 * c23 E2) / 3 - (c23 e_B * c32 E1 * c33 E2) / 3 - (c32 e_B * c33 E1 * c23 E2) / 3 - (c33 e_B * c33 E1 * c33 E2) / 3 - (c22 e_B * c32 E1 * c23 E2) / 3 + (4 * c33 e_1_2B * c33 e_1_2B * c33 E1 * c33 E2) / 3 + (4 * c22 e_1_2B * c23 e_1_2B * c32 E1 * c33 E2) / 3 + (4 * c22 e_1_2B * c32 e_1_2B * c33 E1 * c23 E2) / 3 + (4 * c23 e_1_2B * c32 e_1_2B * c32 E1 * c23 E2) / 3 + (4 * c23 e_1_2B * c32 e_1_2B * c33 E1 * c33 E2) / 3 + (4 * c23 e_1_2B * c33 e_1_2B * c32 E1 * c33 E2) / 3 + (4 * c32 e_1_2B * c33 e_1_2B * c33 E1 * c23 E2) / 3;
    RtoC 0;
    (4 * c12 e_1_2B * c22 e_1_2B * c31 E1 * c23 E2) / 3 + (4 * c21 e_1_2B * c22 e_1_2B * c32 E1 * c13 E2) / 3 + (4 * c12 e_1_2B * c23 e_1_2B * c31 E1 * c33 E2) / 3 + (4 * c13 e_1_2B * c32 e_1_2B * c31 E1 * c23 E2) / 3 + (4 * c21 e_1_2B * c32 e_1_2B * c33 E1 * c13 E2) / 3 + (4 * c23 e_1_2B * c31 e_1_2B * c32 E1 * c13 E2) / 3 + (4 * c13 e_1_2B * c33 e_1_2B * c31 E1 * c33 E2) / 3 + (4 * c31 e_1_2B * c33 e_1_2B * c33 E1 * c13 E2) / 3;
    RtoC 0;
    (4 * c12 e_1_2B * c21 e_1_2B * c31 E1 * c13 E2) / 3 - (c21 e_B * c32 E1 * c13 E2) / 3 - (c13 e_B * c31 E1 * c33 E2) / 3 - (c31 e_B * c33 E1 * c13 E2) / 3 - (c12 e_B * c31 E1 * c23 E2) / 3 + (4 * c12 e_1_2B * c21 e_1_2B * c32 E1 * c23 E2) / 3 + (4 * c13 e_1_2B * c31 e_1_2B * c31 E1 * c13 E2) / 3 + (4 * c12 e_1_2B * c31 e_1_2B * c33 E1 * c23 E2) / 3 + (4 * c13 e_1_2B * c21 e_1_2B * c32 E1 * c33 E2) / 3 + (4 * c13 e_1_2B * c31 e_1_2B * c33 E1 * c33 E2) / 3;
    RtoC 0;
    (4 * c11 e_1_2B * c12 e_1_2B * c31 E1 * c23 E2) / 3 + (4 * c11 e_1_2B * c21 e_1_2B * c32 E1 * c13 E2) / 3 + (4 * c11 e_1_2B * c13 e_1_2B * c31 E1 * c33 E2) / 3 + (4 * c11 e_1_2B * c31 e_1_2B * c33 E1 * c13 E2) / 3;
    RtoC 0;
    (4 * c31 E1 * c13 E2 * c11 e_1_2B * c11 e_1_2B) / 3 - (c11 e_B * c31 E1 * c13 E2) / 3]].

(** src/private/fnft__manakov_fscatter.c:880-1082, case FTES4_suzuki (degree 14); e_7_48B is computed with step 7 * eps_t / 48, e_3_8B is computed with step 3 * eps_t / 8, e_m1_48B is computed with step -1 * eps_t / 48 *)
Definition mstep_FTES4_suzuki (e_7_48B e_3_8B e_m1_48B : mat3) : list (list C) :=
  [[c12 e_3_8B * c21 e_3_8B * c12 e_m1_48B * c21 e_m1_48B * c12 e_7_48B * c21 e_7_48B + c12 e_3_8B * c21 e_3_8B * c13 e_m1_48B * c31 e_m1_48B * c12 e_7_48B * c21 e_7_48B + c12 e_3_8B * c31 e_3_8B * c12 e_m1_48B * c21 e_m1_48B * c13 e_7_48B * c21 e_7_48B + c13 e_3_8B * c21 e_3_8B * c12 e_m1_48B * c21 e_m1_48B * c12 e_7_48B * c31 e_7_48B + c12 e_3_8B * c31 e_3_8B * c13 e_m1_48B * c31 e_m1_48B * c13 e_7_48B * c21 e_7_48B + c13 e_3_8B * c21 e_3_8B * c13 e_m1_48B * c31 e_m1_48B * c12 e_7_48B * c31 e_7_48B + c13 e_3_8B * c31 e_3_8B * c12 e_m1_48B * c21 e_m1_48B * c13 e_7_48B * c31 e_7_48B + c13 e_3_8B * c31 e_3_8B * c13 e_m1_48B * c31 e_m1_48B * c13 e_7_48B * c31 e_7_48B;
    RtoC 0;
    c11 e_3_8B * c12 e_3_8B * c12 e_m1_48B * c21 e_m1_48B * c11 e_7_48B * c21 e_7_48B + c11 e_3_8B * c21 e_3_8B * c12 e_m1_48B * c21 e_m1_48B * c11 e_7_48B * c12 e_7_48B + c11 e_3_8B * c12 e_3_8B * c13 e_m1_48B * c31 e_m1_48B * c11 e_7_48B * c21 e_7_48B + c11 e_3_8B * c13 e_3_8B * c12 e_m1_48B * c21 e_m1_48B * c11 e_7_48B * c31 e_7_48B + c11 e_3_8B * c21 e_3_8B * c13 e_m1_48B * c31 e_m1_48B * c11 e_7_48B * c12 e_7_48B + c11 e_3_8B * c31 e_3_8B * c12 e_m1_48B * c21 e_m1_48B * c11 e_7_48B * c13 e_7_48B + c11 e_3_8B * c13 e_3_8B * c13 e_m1_48B * c31 e_m1_48B * c11 e_7_48B * c31 e_7_48B + c11 e_3_8B * c31 e_3_8B * c13 e_m1_48B * c31 e_m1_48B * c11 e_7_48B * c13 e_7_48B + c12 e_3_8B * c22 e_3_8B * c21 e_m1_48B * c22 e_m1_48B * c12 e_7_48B * c21 e_7_48B + c21 e_3_8B * c22 e_3_8B * c12 e_m1_48B * c22 e_m1_48B * c12 e_7_48B * c21 e_7_48B + c12 e_3_8B * c22 e_3_8B * c23 e_m1_48B * c31 e_m1_48B * c12 e_7_48B * c21 e_7_48B + c12 e_3_8B * c23 e_3_8B * c21 e_m1_48B * c32 e_m1_48B * c12 e_7_48B * c21 e_7_48B + c12 e_3_8B * c32 e_3_8B * c21 e_m1_48B * c22 e_m1_48B * c13 e_7_48B * c21 e_7_48B + c13 e_3_8B * c22 e_3_8B * c21 e_m1_48B * c22 e_m1_48B * c12 e_7_48B * c31 e_7_48B + c21 e_3_8B * c22 e_3_8B * c13 e_m1_48B * c32 e_m1_48B * c12 e_7_48B * c21 e_7_48B + c21 e_3_8B * c23 e_3_8B * c12 e_m1_48B * c22 e_m1_48B * c12 e_7_48B * c31 e_7_48B + c21 e_3_8B * c32 e_3_8B * c12 e_m1_48B * c23 e_m1_48B * c12 e_7_48B * c21 e_7_48B + c22 e_3_8B * c31 e_3_8B * c12 e_m1_48B * c22 e_m1_48B * c13 e_7_48B * c21 e_7_48B + c12 e_3_8B * c23 e_3_8B * c31 e_m1_48B * c33 e_m1_48B * c12 e_7_48B * c21 e_7_48B + c12 e_3_8B * c32 e_3_8B * c23 e_m1_48B * c31 e_m1_48B * c13 e_7_48B * c21 e_7_48B + c12 e_3_8B * c33 e_3_8B * c21 e_m1_48B * c32 e_m1_48B * c13 e_7_48B * c21 e_7_48B + c13 e_3_8B * c22 e_3_8B * c23 e_m1_48B * c31 e_m1_48B * c12 e_7_48B * c31 e_7_48B + c13 e_3_8B * c23 e_3_8B * c21 e_m1_48B * c32 e_m1_48B * c12 e_7_48B * c31 e_7_48B + c13 e_3_8B * c32 e_3_8B * c21 e_m1_48B * c22 e_m1_48B * c13 e_7_48B * c31 e_7_48B + c21 e_3_8B * c23 e_3_8B * c13 e_m1_48B * c32 e_m1_48B * c12 e_7_48B * c31 e_7_48B + c21 e_3_8B * c32 e_3_8B * c13 e_m1_48B * c33 e_m1_48B * c12 e_7_48B * c21 e_7_48B + c21 e_3_8B * c33 e_3_8B * c12 e_m1_48B * c23 e_m1_48B * c12 e_7_48B * c31 e_7_48B + c22 e_3_8B * c31 e_3_8B * c13 e_m1_48B * c32 e_m1_48B * c13 e_7_48B * c21 e_7_48B + c23 e_3_8B * c31 e_3_8B * c12 e_m1_48B * c22 e_m1_48B * c13 e_7_48B * c31 e_7_48B + c31 e_3_8B * c32 e_3_8B * c12 e_m1_48B * c23 e_m1_48B * c13 e_7_48B * c21 e_7_48B + c12 e_3_8B * c33 e_3_8B * c31 e_m1_48B * c33 e_m1_48B * c13 e_7_48B * c21 e_7_48B + c13 e_3_8B * c23 e_3_8B * c31 e_m1_48B * c33 e_m1_48B * c12 e_7_48B * c31 e_7_48B + c13 e_3_8B * c32 e_3_8B * c23 e_m1_48B * c31 e_m1_48B * c13 e_7_48B * c31 e_7_48B + c13 e_3_8B * c33 e_3_8B * c21 e_m1_48B * c32 e_m1_48B * c13 e_7_48B * c31 e_7_48B + c21 e_3_8B * c33 e_3_8B * c13 e_m1_48B * c33 e_m1_48B * c12 e_7_48B * c31 e_7_48B + c23 e_3_8B * c31 e_3_8B * c13 e_m1_48B * c32 e_m1_48B * c13 e_7_48B * c31 e_7_48B + c31 e_3_8B * c32 e_3_8B * c13 e_m1_48B * c33 e_m1_48B * c13 e_7_48B * c21 e_7_48B + c31 e_3_8B * c33 e_3_8B * c12 e_m1_48B * c23 e_m1_48B * c13 e_7_48B * c31 e_7_48B + c13 e_3_8B * c33 e_3_8B * c31 e_m1_48B * c33 e_m1_48B * c13 e_7_48B * c31 e_7_48B + c31 e_3_8B * c33 e_3_8B * c13 e_m1_48B * c33 e_m1_48B * c13 e_7_48B * c31 e_7_48B;
    RtoC 0;
    c11 e_3_8B * c11 e_3_8B * c12 e_m1_48B * c21 e_m1_48B * c11 e_7_48B * c11 e_7_48B + c11 e_3_8B * c11 e_3_8B * c13 e_m1_48B * c31 e_m1_48B * c11 e_7_48B * c11 e_7_48B + c22 e_3_8B * c22 e_3_8B * c22 e_m1_48B * c22 e_m1_48B * c12 e_7_48B * c21 e_7_48B + c33 e_3_8B * c33 e_3_8B * c33 e_m1_48B * c33 e_m1_48B * c13 e_7_48B * c31 e_7_48B + c22 e_3_8B * c23 e_3_8B * c22 e_m1_48B * c22 e_m1_48B * c12 e_7_48B * c31 e_7_48B + c22 e_3_8B * c32 e_3_8B * c22 e_m1_48B * c22 e_m1_48B * c13 e_7_48B * c21 e_7_48B + c23 e_3_8B * c32 e_3_8B * c22 e_m1_48B * c22 e_m1_48B * c13 e_7_48B * c31 e_7_48B + c23 e_3_8B * c32 e_3_8B * c33 e_m1_48B * c33 e_m1_48B * c12 e_7_48B * c21 e_7_48B + c23 e_3_8B * c33 e_3_8B * c33 e_m1_48B * c33 e_m1_48B * c12 e_7_48B * c31 e_7_48B + c32 e_3_8B * c33 e_3_8B * c33 e_m1_48B * c33 e_m1_48B * c13 e_7_48B * c21 e_7_48B + c21 e_3_8B * c21 e_3_8B * c12 e_m1_48B * c22 e_m1_48B * c11 e_7_48B * c12 e_7_48B + c12 e_3_8B * c12 e_3_8B * c21 e_m1_48B * c22 e_m1_48B * c11 e_7_48B * c21 e_7_48B + c21 e_3_8B * c21 e_3_8B * c13 e_m1_48B * c32 e_m1_48B * c11 e_7_48B * c12 e_7_48B + c31 e_3_8B * c31 e_3_8B * c12 e_m1_48B * c23 e_m1_48B * c11 e_7_48B * c13 e_7_48B + c12 e_3_8B * c12 e_3_8B * c23 e_m1_48B * c31 e_m1_48B * c11 e_7_48B * c21 e_7_48B + c31 e_3_8B * c31 e_3_8B * c13 e_m1_48B * c33 e_m1_48B * c11 e_7_48B * c13 e_7_48B + c13 e_3_8B * c13 e_3_8B * c21 e_m1_48B * c32 e_m1_48B * c11 e_7_48B * c31 e_7_48B + c22 e_3_8B * c22 e_3_8B * c23 e_m1_48B * c32 e_m1_48B * c12 e_7_48B * c21 e_7_48B + c32 e_3_8B * c32 e_3_8B * c22 e_m1_48B * c23 e_m1_48B * c13 e_7_48B * c21 e_7_48B + c13 e_3_8B * c13 e_3_8B * c31 e_m1_48B * c33 e_m1_48B * c11 e_7_48B * c31 e_7_48B + c23 e_3_8B * c23 e_3_8B * c22 e_m1_48B * c32 e_m1_48B * c12 e_7_48B * c31 e_7_48B + c32 e_3_8B * c32 e_3_8B * c23 e_m1_48B * c33 e_m1_48B * c13 e_7_48B * c21 e_7_48B + c23 e_3_8B * c23 e_3_8B * c32 e_m1_48B * c33 e_m1_48B * c12 e_7_48B * c31 e_7_48B + c33 e_3_8B * c33 e_3_8B * c23 e_m1_48B * c32 e_m1_48B * c13 e_7_48B * c31 e_7_48B + c11 e_3_8B * c22 e_3_8B * c12 e_m1_48B * c22 e_m1_48B * c11 e_7_48B * c21 e_7_48B + c11 e_3_8B * c22 e_3_8B * c21 e_m1_48B * c22 e_m1_48B * c11 e_7_48B * c12 e_7_48B + c11 e_3_8B * c22 e_3_8B * c13 e_m1_48B * c32 e_m1_48B * c11 e_7_48B * c21 e_7_48B + c11 e_3_8B * c22 e_3_8B * c23 e_m1_48B * c31 e_m1_48B * c11 e_7_48B * c12 e_7_48B + c11 e_3_8B * c23 e_3_8B * c12 e_m1_48B * c22 e_m1_48B * c11 e_7_48B * c31 e_7_48B + c11 e_3_8B * c23 e_3_8B * c21 e_m1_48B * c32 e_m1_48B * c11 e_7_48B * c12 e_7_48B + c11 e_3_8B * c32 e_3_8B * c12 e_m1_48B * c23 e_m1_48B * c11 e_7_48B * c21 e_7_48B + c11 e_3_8B * c32 e_3_8B * c21 e_m1_48B * c22 e_m1_48B * c11 e_7_48B * c13 e_7_48B + c12 e_3_8B * c13 e_3_8B * c21 e_m1_48B * c22 e_m1_48B * c11 e_7_48B * c31 e_7_48B + c12 e_3_8B * c13 e_3_8B * c21 e_m1_48B * c32 e_m1_48B * c11 e_7_48B * c21 e_7_48B + c21 e_3_8B * c31 e_3_8B * c12 e_m1_48B * c22 e_m1_48B * c11 e_7_48B * c13 e_7_48B + c21 e_3_8B * c31 e_3_8B * c12 e_m1_48B * c23 e_m1_48B * c11 e_7_48B * c12 e_7_48B + c11 e_3_8B * c23 e_3_8B * c13 e_m1_48B * c32 e_m1_48B * c11 e_7_48B * c31 e_7_48B + c11 e_3_8B * c23 e_3_8B * c31 e_m1_48B * c33 e_m1_48B * c11 e_7_48B * c12 e_7_48B + c11 e_3_8B * c32 e_3_8B * c13 e_m1_48B * c33 e_m1_48B * c11 e_7_48B * c21 e_7_48B + c11 e_3_8B * c32 e_3_8B * c23 e_m1_48B * c31 e_m1_48B * c11 e_7_48B * c13 e_7_48B + c11 e_3_8B * c33 e_3_8B * c12 e_m1_48B * c23 e_m1_48B * c11 e_7_48B * c31 e_7_48B + c11 e_3_8B * c33 e_3_8B * c21 e_m1_48B * c32 e_m1_48B * c11 e_7_48B * c13 e_7_48B + c12 e_3_8B * c13 e_3_8B * c23 e_m1_48B * c31 e_m1_48B * c11 e_7_48B * c31 e_7_48B + c12 e_3_8B * c13 e_3_8B * c31 e_m1_48B * c33 e_m1_48B * c11 e_7_48B * c21 e_7_48B + c21 e_3_8B * c31 e_3_8B * c13 e_m1_48B * c32 e_m1_48B * c11 e_7_48B * c13 e_7_48B + c21 e_3_8B * c31 e_3_8B * c13 e_m1_48B * c33 e_m1_48B * c11 e_7_48B * c12 e_7_48B + c11 e_3_8B * c33 e_3_8B * c13 e_m1_48B * c33 e_m1_48B * c11 e_7_48B * c31 e_7_48B + c11 e_3_8B * c33 e_3_8B * c31 e_m1_48B * c33 e_m1_48B * c11 e_7_48B * c13 e_7_48B + c22 e_3_8B * c23 e_3_8B * c22 e_m1_48B * c32 e_m1_48B * c12 e_7_48B * c21 e_7_48B + c22 e_3_8B * c32 e_3_8B * c22 e_m1_48B * c23 e_m1_48B * c12 e_7_48B * c21 e_7_48B + c22 e_3_8B * c23 e_3_8B * c23 e_m1_48B * c32 e_m1_48B * c12 e_7_48B * c31 e_7_48B + c22 e_3_8B * c23 e_3_8B * c32 e_m1_48B * c33 e_m1_48B * c12 e_7_48B * c21 e_7_48B + c22 e_3_8B * c32 e_3_8B * c23 e_m1_48B * c32 e_m1_48B * c13 e_7_48B * c21 e_7_48B + c22 e_3_8B * c32 e_3_8B * c23 e_m1_48B * c33 e_m1_48B * c12 e_7_48B * c21 e_7_48B + c22 e_3_8B * c33 e_3_8B * c22 e_m1_48B * c23 e_m1_48B * c12 e_7_48B * c31 e_7_48B + c22 e_3_8B * c33 e_3_8B * c22 e_m1_48B * c32 e_m1_48B * c13 e_7_48B * c21 e_7_48B + c23 e_3_8B * c32 e_3_8B * c23 e_m1_48B * c32 e_m1_48B * c12 e_7_48B * c21 e_7_48B + c22 e_3_8B * c33 e_3_8B * c23 e_m1_48B * c33 e_m1_48B * c12 e_7_48B * c31 e_7_48B + c22 e_3_8B * c33 e_3_8B * c32 e_m1_48B * c33 e_m1_48B * c13 e_7_48B * c21 e_7_48B + c23 e_3_8B * c32 e_3_8B * c23 e_m1_48B * c32 e_m1_48B * c13 e_7_48B * c31 e_7_48B + c23 e_3_8B * c33 e_3_8B * c22 e_m1_48B * c32 e_m1_48B * c13 e_7_48B * c31 e_7_48B + c23 e_3_8B * c33 e_3_8B * c23 e_m1_48B * c32 e_m1_48B * c12 e_7_48B * c31 e_7_48B + c32 e_3_8B * c33 e_3_8B * c22 e_m1_48B * c23 e_m1_48B * c13 e_7_48B * c31 e_7_48B + c32 e_3_8B * c33 e_3_8B * c23 e_m1_48B * c32 e_m1_48B * c13 e_7_48B * c21 e_7_48B + c23 e_3_8B * c33 e_3_8B * c32 e_m1_48B * c33 e_m1_48B * c13 e_7_48B * c31 e_7_48B + c32 e_3_8B * c33 e_3_8B * c23 e_m1_48B * c33 e_m1_48B * c13 e_7_48B * c31 e_7_48B;
    RtoC 0;
    c11 e_3_8B * c12 e_3_8B * c21 e_m1_48B * c22 e_m1_48B * c11 e_7_48B * c11 e_7_48B + c11 e_3_8B * c21 e_3_8B * c12 e_m1_48B * c22 e_m1_48B * c11 e_7_48B * c11 e_7_48B + c11 e_3_8B * c12 e_3_8B * c23 e_m1_48B * c31 e_m1_48B * c11 e_7_48B * c11 e_7_48B + c11 e_3_8B * c13 e_3_8B * c21 e_m1_48B * c32 e_m1_48B * c11 e_7_48B * c11 e_7_48B + c11 e_3_8B * c21 e_3_8B * c13 e_m1_48B * c32 e_m1_48B * c11 e_7_48B * c11 e_7_48B + c11 e_3_8B * c31 e_3_8B * c12 e_m1_48B * c23 e_m1_48B * c11 e_7_48B * c11 e_7_48B + c11 e_3_8B * c13 e_3_8B * c31 e_m1_48B * c33 e_m1_48B * c11 e_7_48B * c11 e_7_48B + c11 e_3_8B * c31 e_3_8B * c13 e_m1_48B * c33 e_m1_48B * c11 e_7_48B * c11 e_7_48B + c12 e_3_8B * c21 e_3_8B * c11 e_m1_48B * c11 e_m1_48B * c12 e_7_48B * c21 e_7_48B + c12 e_3_8B * c22 e_3_8B * c22 e_m1_48B * c22 e_m1_48B * c11 e_7_48B * c21 e_7_48B + c12 e_3_8B * c31 e_3_8B * c11 e_m1_48B * c11 e_m1_48B * c13 e_7_48B * c21 e_7_48B + c13 e_3_8B * c21 e_3_8B * c11 e_m1_48B * c11 e_m1_48B * c12 e_7_48B * c31 e_7_48B + c21 e_3_8B * c22 e_3_8B * c22 e_m1_48B * c22 e_m1_48B * c11 e_7_48B * c12 e_7_48B + c12 e_3_8B * c23 e_3_8B * c22 e_m1_48B * c22 e_m1_48B * c11 e_7_48B * c31 e_7_48B + c13 e_3_8B * c31 e_3_8B * c11 e_m1_48B * c11 e_m1_48B * c13 e_7_48B * c31 e_7_48B + c21 e_3_8B * c32 e_3_8B * c22 e_m1_48B * c22 e_m1_48B * c11 e_7_48B * c13 e_7_48B + c13 e_3_8B * c32 e_3_8B * c33 e_m1_48B * c33 e_m1_48B * c11 e_7_48B * c21 e_7_48B + c23 e_3_8B * c31 e_3_8B * c33 e_m1_48B * c33 e_m1_48B * c11 e_7_48B * c12 e_7_48B + c13 e_3_8B * c33 e_3_8B * c33 e_m1_48B * c33 e_m1_48B * c11 e_7_48B * c31 e_7_48B + c31 e_3_8B * c33 e_3_8B * c33 e_m1_48B * c33 e_m1_48B * c11 e_7_48B * c13 e_7_48B + c12 e_3_8B * c22 e_3_8B * c23 e_m1_48B * c32 e_m1_48B * c11 e_7_48B * c21 e_7_48B + c12 e_3_8B * c32 e_3_8B * c22 e_m1_48B * c23 e_m1_48B * c11 e_7_48B * c21 e_7_48B + c13 e_3_8B * c22 e_3_8B * c22 e_m1_48B * c32 e_m1_48B * c11 e_7_48B * c21 e_7_48B + c21 e_3_8B * c22 e_3_8B * c23 e_m1_48B * c32 e_m1_48B * c11 e_7_48B * c12 e_7_48B + c21 e_3_8B * c23 e_3_8B * c22 e_m1_48B * c32 e_m1_48B * c11 e_7_48B * c12 e_7_48B + c22 e_3_8B * c31 e_3_8B * c22 e_m1_48B * c23 e_m1_48B * c11 e_7_48B * c12 e_7_48B + c12 e_3_8B * c23 e_3_8B * c23 e_m1_48B * c32 e_m1_48B * c11 e_7_48B * c31 e_7_48B + c12 e_3_8B * c32 e_3_8B * c23 e_m1_48B * c33 e_m1_48B * c11 e_7_48B * c21 e_7_48B + c12 e_3_8B * c33 e_3_8B * c22 e_m1_48B * c23 e_m1_48B * c11 e_7_48B * c31 e_7_48B + c13 e_3_8B * c22 e_3_8B * c32 e_m1_48B * c33 e_m1_48B * c11 e_7_48B * c21 e_7_48B + c13 e_3_8B * c23 e_3_8B * c22 e_m1_48B * c32 e_m1_48B * c11 e_7_48B * c31 e_7_48B + c13 e_3_8B * c32 e_3_8B * c23 e_m1_48B * c32 e_m1_48B * c11 e_7_48B * c21 e_7_48B + c21 e_3_8B * c23 e_3_8B * c32 e_m1_48B * c33 e_m1_48B * c11 e_7_48B * c12 e_7_48B + c21 e_3_8B * c32 e_3_8B * c23 e_m1_48B * c32 e_m1_48B * c11 e_7_48B * c13 e_7_48B + c21 e_3_8B * c33 e_3_8B * c22 e_m1_48B * c32 e_m1_48B * c11 e_7_48B * c13 e_7_48B + c22 e_3_8B * c31 e_3_8B * c23 e_m1_48B * c33 e_m1_48B * c11 e_7_48B * c12 e_7_48B + c23 e_3_8B * c31 e_3_8B * c23 e_m1_48B * c32 e_m1_48B * c11 e_7_48B * c12 e_7_48B + c31 e_3_8B * c32 e_3_8B * c22 e_m1_48B * c23 e_m1_48B * c11 e_7_48B * c13 e_7_48B + c12 e_3_8B * c33 e_3_8B * c23 e_m1_48B * c33 e_m1_48B * c11 e_7_48B * c31 e_7_48B + c13 e_3_8B * c23 e_3_8B * c32 e_m1_48B * c33 e_m1_48B * c11 e_7_48B * c31 e_7_48B + c13 e_3_8B * c33 e_3_8B * c23 e_m1_48B * c32 e_m1_48B * c11 e_7_48B * c31 e_7_48B + c21 e_3_8B * c33 e_3_8B * c32 e_m1_48B * c33 e_m1_48B * c11 e_7_48B * c13 e_7_48B + c31 e_3_8B * c32 e_3_8B * c23 e_m1_48B * c33 e_m1_48B * c11 e_7_48B * c13 e_7_48B + c31 e_3_8B * c33 e_3_8B * c23 e_m1_48B * c32 e_m1_48B * c11 e_7_48B * c13 e_7_48B;
    RtoC 0;
    c12 e_3_8B * c21 e_3_8B * c22 e_m1_48B * c22 e_m1_48B * c11 e_7_48B * c11 e_7_48B + c13 e_3_8B * c31 e_3_8B * c33 e_m1_48B * c33 e_m1_48B * c11 e_7_48B * c11 e_7_48B + c12 e_3_8B * c21 e_3_8B * c23 e_m1_48B * c32 e_m1_48B * c11 e_7_48B * c11 e_7_48B + c12 e_3_8B * c31 e_3_8B * c22 e_m1_48B * c23 e_m1_48B * c11 e_7_48B * c11 e_7_48B + c13 e_3_8B * c21 e_3_8B * c22 e_m1_48B * c32 e_m1_48B * c11 e_7_48B * c11 e_7_48B + c12 e_3_8B * c31 e_3_8B * c23 e_m1_48B * c33 e_m1_48B * c11 e_7_48B * c11 e_7_48B + c13 e_3_8B * c21 e_3_8B * c32 e_m1_48B * c33 e_m1_48B * c11 e_7_48B * c11 e_7_48B + c13 e_3_8B * c31 e_3_8B * c23 e_m1_48B * c32 e_m1_48B * c11 e_7_48B * c11 e_7_48B + c11 e_3_8B * c12 e_3_8B * c11 e_m1_48B * c11 e_m1_48B * c11 e_7_48B * c21 e_7_48B + c11 e_3_8B * c21 e_3_8B * c11 e_m1_48B * c11 e_m1_48B * c11 e_7_48B * c12 e_7_48B + c11 e_3_8B * c13 e_3_8B * c11 e_m1_48B * c11 e_m1_48B * c11 e_7_48B * c31 e_7_48B + c11 e_3_8B * c31 e_3_8B * c11 e_m1_48B * c11 e_m1_48B * c11 e_7_48B * c13 e_7_48B + c12 e_3_8B * c22 e_3_8B * c11 e_m1_48B * c21 e_m1_48B * c12 e_7_48B * c21 e_7_48B + c21 e_3_8B * c22 e_3_8B * c11 e_m1_48B * c12 e_m1_48B * c12 e_7_48B * c21 e_7_48B + c12 e_3_8B * c23 e_3_8B * c11 e_m1_48B * c31 e_m1_48B * c12 e_7_48B * c21 e_7_48B + c12 e_3_8B * c32 e_3_8B * c11 e_m1_48B * c21 e_m1_48B * c13 e_7_48B * c21 e_7_48B + c13 e_3_8B * c22 e_3_8B * c11 e_m1_48B * c21 e_m1_48B * c12 e_7_48B * c31 e_7_48B + c21 e_3_8B * c23 e_3_8B * c11 e_m1_48B * c12 e_m1_48B * c12 e_7_48B * c31 e_7_48B + c21 e_3_8B * c32 e_3_8B * c11 e_m1_48B * c13 e_m1_48B * c12 e_7_48B * c21 e_7_48B + c22 e_3_8B * c31 e_3_8B * c11 e_m1_48B * c12 e_m1_48B * c13 e_7_48B * c21 e_7_48B + c12 e_3_8B * c33 e_3_8B * c11 e_m1_48B * c31 e_m1_48B * c13 e_7_48B * c21 e_7_48B + c13 e_3_8B * c23 e_3_8B * c11 e_m1_48B * c31 e_m1_48B * c12 e_7_48B * c31 e_7_48B + c13 e_3_8B * c32 e_3_8B * c11 e_m1_48B * c21 e_m1_48B * c13 e_7_48B * c31 e_7_48B + c21 e_3_8B * c33 e_3_8B * c11 e_m1_48B * c13 e_m1_48B * c12 e_7_48B * c31 e_7_48B + c23 e_3_8B * c31 e_3_8B * c11 e_m1_48B * c12 e_m1_48B * c13 e_7_48B * c31 e_7_48B + c31 e_3_8B * c32 e_3_8B * c11 e_m1_48B * c13 e_m1_48B * c13 e_7_48B * c21 e_7_48B + c13 e_3_8B * c33 e_3_8B * c11 e_m1_48B * c31 e_m1_48B * c13 e_7_48B * c31 e_7_48B + c31 e_3_8B * c33 e_3_8B * c11 e_m1_48B * c13 e_m1_48B * c13 e_7_48B * c31 e_7_48B;
    RtoC 0;
    c11 e_3_8B * c11 e_3_8B * c11 e_m1_48B * c11 e_m1_48B * c11 e_7_48B * c11 e_7_48B + c21 e_3_8B * c21 e_3_8B * c11 e_m1_48B * c12 e_m1_48B * c11 e_7_48B * c12 e_7_48B + c12 e_3_8B * c12 e_3_8B * c11 e_m1_48B * c21 e_m1_48B * c11 e_7_48B * c21 e_7_48B + c31 e_3_8B * c31 e_3_8B * c11 e_m1_48B * c13 e_m1_48B * c11 e_7_48B * c13 e_7_48B + c22 e_3_8B * c22 e_3_8B * c12 e_m1_48B * c21 e_m1_48B * c12 e_7_48B * c21 e_7_48B + c13 e_3_8B * c13 e_3_8B * c11 e_m1_48B * c31 e_m1_48B * c11 e_7_48B * c31 e_7_48B + c32 e_3_8B * c32 e_3_8B * c13 e_m1_48B * c21 e_m1_48B * c13 e_7_48B * c21 e_7_48B + c23 e_3_8B * c23 e_3_8B * c12 e_m1_48B * c31 e_m1_48B * c12 e_7_48B * c31 e_7_48B + c33 e_3_8B * c33 e_3_8B * c13 e_m1_48B * c31 e_m1_48B * c13 e_7_48B * c31 e_7_48B + c11 e_3_8B * c22 e_3_8B * c11 e_m1_48B * c12 e_m1_48B * c11 e_7_48B * c21 e_7_48B + c11 e_3_8B * c22 e_3_8B * c11 e_m1_48B * c21 e_m1_48B * c11 e_7_48B * c12 e_7_48B + c11 e_3_8B * c23 e_3_8B * c11 e_m1_48B * c12 e_m1_48B * c11 e_7_48B * c31 e_7_48B + c11 e_3_8B * c23 e_3_8B * c11 e_m1_48B * c31 e_m1_48B * c11 e_7_48B * c12 e_7_48B + c11 e_3_8B * c32 e_3_8B * c11 e_m1_48B * c13 e_m1_48B * c11 e_7_48B * c21 e_7_48B + c11 e_3_8B * c32 e_3_8B * c11 e_m1_48B * c21 e_m1_48B * c11 e_7_48B * c13 e_7_48B + c12 e_3_8B * c13 e_3_8B * c11 e_m1_48B * c21 e_m1_48B * c11 e_7_48B * c31 e_7_48B + c12 e_3_8B * c13 e_3_8B * c11 e_m1_48B * c31 e_m1_48B * c11 e_7_48B * c21 e_7_48B + c21 e_3_8B * c31 e_3_8B * c11 e_m1_48B * c12 e_m1_48B * c11 e_7_48B * c13 e_7_48B + c21 e_3_8B * c31 e_3_8B * c11 e_m1_48B * c13 e_m1_48B * c11 e_7_48B * c12 e_7_48B + c11 e_3_8B * c33 e_3_8B * c11 e_m1_48B * c13 e_m1_48B * c11 e_7_48B * c31 e_7_48B + c11 e_3_8B * c33 e_3_8B * c11 e_m1_48B * c31 e_m1_48B * c11 e_7_48B * c13 e_7_48B + c22 e_3_8B * c23 e_3_8B * c12 e_m1_48B * c21 e_m1_48B * c12 e_7_48B * c31 e_7_48B + c22 e_3_8B * c23 e_3_8B * c12 e_m1_48B * c31 e_m1_48B * c12 e_7_48B * c21 e_7_48B + c22 e_3_8B * c32 e_3_8B * c12 e_m1_48B * c21 e_m1_48B * c13 e_7_48B * c21 e_7_48B + c22 e_3_8B * c32 e_3_8B * c13 e_m1_48B * c21 e_m1_48B * c12 e_7_48B * c21 e_7_48B + c22 e_3_8B * c33 e_3_8B * c12 e_m1_48B * c31 e_m1_48B * c13 e_7_48B * c21 e_7_48B + c22 e_3_8B * c33 e_3_8B * c13 e_m1_48B * c21 e_m1_48B * c12 e_7_48B * c31 e_7_48B + c23 e_3_8B * c32 e_3_8B * c12 e_m1_48B * c21 e_m1_48B * c13 e_7_48B * c31 e_7_48B + c23 e_3_8B * c32 e_3_8B * c13 e_m1_48B * c31 e_m1_48B * c12 e_7_48B * c21 e_7_48B + c23 e_3_8B * c33 e_3_8B * c12 e_m1_48B * c31 e_m1_48B * c13 e_7_48B * c31 e_7_48B + c23 e_3_8B * c33 e_3_8B * c13 e_m1_48B * c31 e_m1_48B * c12 e_7_48B * c31 e_7_48B + c32 e_3_8B * c33 e_3_8B * c13 e_m1_48B * c21 e_m1_48B * c13 e_7_48B * c31 e_7_48B + c32 e_3_8B * c33 e_3_8B * c13 e_m1_48B * c31 e_m1_48B * c13 e_7_48B * c21 e_7_48B;
    RtoC 0;
    c11 e_3_8B * c12 e_3_8B * c11 e_m1_48B * c21 e_m1_48B * c11 e_7_48B * c11 e_7_48B + c11 e_3_8B * c21 e_3_8B * c11 e_m1_48B * c12 e_m1_48B * c11 e_7_48B * c11 e_7_48B + c11 e_3_8B * c13 e_3_8B * c11 e_m1_48B * c31 e_m1_48B * c11 e_7_48B * c11 e_7_48B + c11 e_3_8B * c31 e_3_8B * c11 e_m1_48B * c13 e_m1_48B * c11 e_7_48B * c11 e_7_48B + c12 e_3_8B * c22 e_3_8B * c12 e_m1_48B * c21 e_m1_48B * c11 e_7_48B * c21 e_7_48B + c21 e_3_8B * c22 e_3_8B * c12 e_m1_48B * c21 e_m1_48B * c11 e_7_48B * c12 e_7_48B + c12 e_3_8B * c23 e_3_8B * c12 e_m1_48B * c21 e_m1_48B * c11 e_7_48B * c31 e_7_48B + c12 e_3_8B * c32 e_3_8B * c13 e_m1_48B * c21 e_m1_48B * c11 e_7_48B * c21 e_7_48B + c13 e_3_8B * c22 e_3_8B * c12 e_m1_48B * c31 e_m1_48B * c11 e_7_48B * c21 e_7_48B + c21 e_3_8B * c23 e_3_8B * c12 e_m1_48B * c31 e_m1_48B * c11 e_7_48B * c12 e_7_48B + c21 e_3_8B * c32 e_3_8B * c12 e_m1_48B * c21 e_m1_48B * c11 e_7_48B * c13 e_7_48B + c22 e_3_8B * c31 e_3_8B * c13 e_m1_48B * c21 e_m1_48B * c11 e_7_48B * c12 e_7_48B + c12 e_3_8B * c33 e_3_8B * c13 e_m1_48B * c21 e_m1_48B * c11 e_7_48B * c31 e_7_48B + c13 e_3_8B * c23 e_3_8B * c12 e_m1_48B * c31 e_m1_48B * c11 e_7_48B * c31 e_7_48B + c13 e_3_8B * c32 e_3_8B * c13 e_m1_48B * c31 e_m1_48B * c11 e_7_48B * c21 e_7_48B + c21 e_3_8B * c33 e_3_8B * c12 e_m1_48B * c31 e_m1_48B * c11 e_7_48B * c13 e_7_48B + c23 e_3_8B * c31 e_3_8B * c13 e_m1_48B * c31 e_m1_48B * c11 e_7_48B * c12 e_7_48B + c31 e_3_8B * c32 e_3_8B * c13 e_m1_48B * c21 e_m1_48B * c11 e_7_48B * c13 e_7_48B + c13 e_3_8B * c33 e_3_8B * c13 e_m1_48B * c31 e_m1_48B * c11 e_7_48B * c31 e_7_48B + c31 e_3_8B * c33 e_3_8B * c13 e_m1_48B * c31 e_m1_48B * c11 e_7_48B * c13 e_7_48B;
    RtoC 0;
    c12 e_3_8B * c21 e_3_8B * c12 e_m1_48B * c21 e_m1_48B * c11 e_7_48B * c11 e_7_48B + c12 e_3_8B * c31 e_3_8B * c13 e_m1_48B * c21 e_m1_48B * c11 e_7_48B * c11 e_7_48B + c13 e_3_8B * c21 e_3_8B * c12 e_m1_48B * c31 e_m1_48B * c11 e_7_48B * c11 e_7_48B + c13 e_3_8B * c31 e_3_8B * c13 e_m1_48B * c31 e_m1_48B * c11 e_7_48B * c11 e_7_48B];
   [c12 e_3_8B * c21 e_3_8B * c12 e_m1_48B * c21 e_m1_48B * c12 e_7_48B * c22 e_7_48B + c12 e_3_8B * c21 e_3_8B * c13 e_m1_48B * c31 e_m1_48B * c12 e_7_48B * c22 e_7_48B + c12 e_3_8B * c31 e_3_8B * c12 e_m1_48B * c21 e_m1_48B * c13 e_7_48B * c22 e_7_48B + c13 e_3_8B * c21 e_3_8B * c12 e_m1_48B * c21 e_m1_48B * c12 e_7_48B * c32 e_7_48B + c12 e_3_8B * c31 e_3_8B * c13 e_m1_48B * c31 e_m1_48B * c13 e_7_48B * c22 e_7_48B + c13 e_3_8B * c21 e_3_8B * c13 e_m1_48B * c31 e_m1_48B * c12 e_7_48B * c32 e_7_48B + c13 e_3_8B * c31 e_3_8B * c12 e_m1_48B * c21 e_m1_48B * c13 e_7_48B * c32 e_7_48B + c13 e_3_8B * c31 e_3_8B * c13 e_m1_48B * c31 e_m1_48B * c13 e_7_48B * c32 e_7_48B;
    RtoC 0;
    c11 e_3_8B * c21 e_3_8B * c12 e_m1_48B * c21 e_m1_48B * c12 e_7_48B * c12 e_7_48B + c11 e_3_8B * c21 e_3_8B * c13 e_m1_48B * c31 e_m1_48B * c12 e_7_48B * c12 e_7_48B + c11 e_3_8B * c12 e_3_8B * c12 e_m1_48B * c21 e_m1_48B * c11 e_7_48B * c22 e_7_48B + c11 e_3_8B * c12 e_3_8B * c13 e_m1_48B * c31 e_m1_48B * c11 e_7_48B * c22 e_7_48B + c11 e_3_8B * c13 e_3_8B * c12 e_m1_48B * c21 e_m1_48B * c11 e_7_48B * c32 e_7_48B + c11 e_3_8B * c31 e_3_8B * c12 e_m1_48B * c21 e_m1_48B * c12 e_7_48B * c13 e_7_48B + c11 e_3_8B * c13 e_3_8B * c13 e_m1_48B * c31 e_m1_48B * c11 e_7_48B * c32 e_7_48B + c11 e_3_8B * c31 e_3_8B * c13 e_m1_48B * c31 e_m1_48B * c12 e_7_48B * c13 e_7_48B + c12 e_3_8B * c22 e_3_8B * c21 e_m1_48B * c22 e_m1_48B * c12 e_7_48B * c22 e_7_48B + c21 e_3_8B * c22 e_3_8B * c12 e_m1_48B * c22 e_m1_48B * c12 e_7_48B * c22 e_7_48B + c12 e_3_8B * c22 e_3_8B * c23 e_m1_48B * c31 e_m1_48B * c12 e_7_48B * c22 e_7_48B + c12 e_3_8B * c23 e_3_8B * c21 e_m1_48B * c32 e_m1_48B * c12 e_7_48B * c22 e_7_48B + c12 e_3_8B * c32 e_3_8B * c21 e_m1_48B * c22 e_m1_48B * c13 e_7_48B * c22 e_7_48B + c13 e_3_8B * c22 e_3_8B * c21 e_m1_48B * c22 e_m1_48B * c12 e_7_48B * c32 e_7_48B + c21 e_3_8B * c22 e_3_8B * c13 e_m1_48B * c32 e_m1_48B * c12 e_7_48B * c22 e_7_48B + c21 e_3_8B * c23 e_3_8B * c12 e_m1_48B * c22 e_m1_48B * c12 e_7_48B * c32 e_7_48B + c21 e_3_8B * c32 e_3_8B * c12 e_m1_48B * c23 e_m1_48B * c12 e_7_48B * c22 e_7_48B + c22 e_3_8B * c31 e_3_8B * c12 e_m1_48B * c22 e_m1_48B * c13 e_7_48B * c22 e_7_48B + c12 e_3_8B * c23 e_3_8B * c31 e_m1_48B * c33 e_m1_48B * c12 e_7_48B * c22 e_7_48B + c12 e_3_8B * c32 e_3_8B * c23 e_m1_48B * c31 e_m1_48B * c13 e_7_48B * c22 e_7_48B + c12 e_3_8B * c33 e_3_8B * c21 e_m1_48B * c32 e_m1_48B * c13 e_7_48B * c22 e_7_48B + c13 e_3_8B * c22 e_3_8B * c23 e_m1_48B * c31 e_m1_48B * c12 e_7_48B * c32 e_7_48B + c13 e_3_8B * c23 e_3_8B * c21 e_m1_48B * c32 e_m1_48B * c12 e_7_48B * c32 e_7_48B + c13 e_3_8B * c32 e_3_8B * c21 e_m1_48B * c22 e_m1_48B * c13 e_7_48B * c32 e_7_48B + c21 e_3_8B * c23 e_3_8B * c13 e_m1_48B * c32 e_m1_48B * c12 e_7_48B * c32 e_7_48B + c21 e_3_8B * c32 e_3_8B * c13 e_m1_48B * c33 e_m1_48B * c12 e_7_48B * c22 e_7_48B + c21 e_3_8B * c33 e_3_8B * c12 e_m1_48B * c23 e_m1_48B * c12 e_7_48B * c32 e_7_48B + c22 e_3_8B * c31 e_3_8B * c13 e_m1_48B * c32 e_m1_48B * c13 e_7_48B * c22 e_7_48B + c23 e_3_8B * c31 e_3_8B * c12 e_m1_48B * c22 e_m1_48B * c13 e_7_48B * c32 e_7_48B + c31 e_3_8B * c32 e_3_8B * c12 e_m1_48B * c23 e_m1_48B * c13 e_7_48B * c22 e_7_48B + c12 e_3_8B * c33 e_3_8B * c31 e_m1_48B * c33 e_m1_48B * c13 e_7_48B * c22 e_7_48B + c13 e_3_8B * c23 e_3_8B * c31 e_m1_48B * c33 e_m1_48B * c12 e_7_48B * c32 e_7_48B + c13 e_3_8B * c32 e_3_8B * c23 e_m1_48B * c31 e_m1_48B * c13 e_7_48B * c32 e_7_48B + c13 e_3_8B * c33 e_3_8B * c21 e_m1_48B * c32 e_m1_48B * c13 e_7_48B * c32 e_7_48B + c21 e_3_8B * c33 e_3_8B * c13 e_m1_48B * c33 e_m1_48B * c12 e_7_48B * c32 e_7_48B + c23 e_3_8B * c31 e_3_8B * c13 e_m1_48B * c32 e_m1_48B * c13 e_7_48B * c32 e_7_48B + c31 e_3_8B * c32 e_3_8B * c13 e_m1_48B * c33 e_m1_48B * c13 e_7_48B * c22 e_7_48B + c31 e_3_8B * c33 e_3_8B * c12 e_m1_48B * c23 e_m1_48B * c13 e_7_48B * c32 e_7_48B + c13 e_3_8B * c33 e_3_8B * c31 e_m1_48B * c33 e_m1_48B * c13 e_7_48B * c32 e_7_48B + c31 e_3_8B * c33 e_3_8B * c13 e_m1_48B * c33 e_m1_48B * c13 e_7_48B * c32 e_7_48B;
    RtoC 0;
    c21 e_3_8B * c21 e_3_8B * c12 e_m1_48B * c22 e_m1_48B * c12 e_7_48B * c12 e_7_48B + c21 e_3_8B * c21 e_3_8B * c13 e_m1_48B * c32 e_m1_48B * c12 e_7_48B * c12 e_7_48B + c22 e_3_8B * c22 e_3_8B * c22 e_m1_48B * c22 e_m1_48B * c12 e_7_48B * c22 e_7_48B + c33 e_3_8B * c33 e_3_8B * c33 e_m1_48B * c33 e_m1_48B * c13 e_7_48B * c32 e_7_48B + c11 e_3_8B * c22 e_3_8B * c21 e_m1_48B * c22 e_m1_48B * c12 e_7_48B * c12 e_7_48B + c11 e_3_8B * c22 e_3_8B * c23 e_m1_48B * c31 e_m1_48B * c12 e_7_48B * c12 e_7_48B + c11 e_3_8B * c23 e_3_8B * c21 e_m1_48B * c32 e_m1_48B * c12 e_7_48B * c12 e_7_48B + c21 e_3_8B * c31 e_3_8B * c12 e_m1_48B * c23 e_m1_48B * c12 e_7_48B * c12 e_7_48B + c11 e_3_8B * c23 e_3_8B * c31 e_m1_48B * c33 e_m1_48B * c12 e_7_48B * c12 e_7_48B + c21 e_3_8B * c31 e_3_8B * c13 e_m1_48B * c33 e_m1_48B * c12 e_7_48B * c12 e_7_48B + c22 e_3_8B * c23 e_3_8B * c22 e_m1_48B * c22 e_m1_48B * c12 e_7_48B * c32 e_7_48B + c22 e_3_8B * c32 e_3_8B * c22 e_m1_48B * c22 e_m1_48B * c13 e_7_48B * c22 e_7_48B + c23 e_3_8B * c32 e_3_8B * c22 e_m1_48B * c22 e_m1_48B * c13 e_7_48B * c32 e_7_48B + c23 e_3_8B * c32 e_3_8B * c33 e_m1_48B * c33 e_m1_48B * c12 e_7_48B * c22 e_7_48B + c23 e_3_8B * c33 e_3_8B * c33 e_m1_48B * c33 e_m1_48B * c12 e_7_48B * c32 e_7_48B + c32 e_3_8B * c33 e_3_8B * c33 e_m1_48B * c33 e_m1_48B * c13 e_7_48B * c22 e_7_48B + c11 e_3_8B * c11 e_3_8B * c12 e_m1_48B * c21 e_m1_48B * c11 e_7_48B * c12 e_7_48B + c11 e_3_8B * c11 e_3_8B * c13 e_m1_48B * c31 e_m1_48B * c11 e_7_48B * c12 e_7_48B + c12 e_3_8B * c12 e_3_8B * c21 e_m1_48B * c22 e_m1_48B * c11 e_7_48B * c22 e_7_48B + c31 e_3_8B * c31 e_3_8B * c12 e_m1_48B * c23 e_m1_48B * c12 e_7_48B * c13 e_7_48B + c12 e_3_8B * c12 e_3_8B * c23 e_m1_48B * c31 e_m1_48B * c11 e_7_48B * c22 e_7_48B + c31 e_3_8B * c31 e_3_8B * c13 e_m1_48B * c33 e_m1_48B * c12 e_7_48B * c13 e_7_48B + c13 e_3_8B * c13 e_3_8B * c21 e_m1_48B * c32 e_m1_48B * c11 e_7_48B * c32 e_7_48B + c22 e_3_8B * c22 e_3_8B * c23 e_m1_48B * c32 e_m1_48B * c12 e_7_48B * c22 e_7_48B + c32 e_3_8B * c32 e_3_8B * c22 e_m1_48B * c23 e_m1_48B * c13 e_7_48B * c22 e_7_48B + c13 e_3_8B * c13 e_3_8B * c31 e_m1_48B * c33 e_m1_48B * c11 e_7_48B * c32 e_7_48B + c23 e_3_8B * c23 e_3_8B * c22 e_m1_48B * c32 e_m1_48B * c12 e_7_48B * c32 e_7_48B + c32 e_3_8B * c32 e_3_8B * c23 e_m1_48B * c33 e_m1_48B * c13 e_7_48B * c22 e_7_48B + c23 e_3_8B * c23 e_3_8B * c32 e_m1_48B * c33 e_m1_48B * c12 e_7_48B * c32 e_7_48B + c33 e_3_8B * c33 e_3_8B * c23 e_m1_48B * c32 e_m1_48B * c13 e_7_48B * c32 e_7_48B + c11 e_3_8B * c22 e_3_8B * c12 e_m1_48B * c22 e_m1_48B * c11 e_7_48B * c22 e_7_48B + c11 e_3_8B * c22 e_3_8B * c13 e_m1_48B * c32 e_m1_48B * c11 e_7_48B * c22 e_7_48B + c11 e_3_8B * c23 e_3_8B * c12 e_m1_48B * c22 e_m1_48B * c11 e_7_48B * c32 e_7_48B + c11 e_3_8B * c32 e_3_8B * c12 e_m1_48B * c23 e_m1_48B * c11 e_7_48B * c22 e_7_48B + c11 e_3_8B * c32 e_3_8B * c21 e_m1_48B * c22 e_m1_48B * c12 e_7_48B * c13 e_7_48B + c12 e_3_8B * c13 e_3_8B * c21 e_m1_48B * c22 e_m1_48B * c11 e_7_48B * c32 e_7_48B + c12 e_3_8B * c13 e_3_8B * c21 e_m1_48B * c32 e_m1_48B * c11 e_7_48B * c22 e_7_48B + c21 e_3_8B * c31 e_3_8B * c12 e_m1_48B * c22 e_m1_48B * c12 e_7_48B * c13 e_7_48B + c11 e_3_8B * c23 e_3_8B * c13 e_m1_48B * c32 e_m1_48B * c11 e_7_48B * c32 e_7_48B + c11 e_3_8B * c32 e_3_8B * c13 e_m1_48B * c33 e_m1_48B * c11 e_7_48B * c22 e_7_48B + c11 e_3_8B * c32 e_3_8B * c23 e_m1_48B * c31 e_m1_48B * c12 e_7_48B * c13 e_7_48B + c11 e_3_8B * c33 e_3_8B * c12 e_m1_48B * c23 e_m1_48B * c11 e_7_48B * c32 e_7_48B + c11 e_3_8B * c33 e_3_8B * c21 e_m1_48B * c32 e_m1_48B * c12 e_7_48B * c13 e_7_48B + c12 e_3_8B * c13 e_3_8B * c23 e_m1_48B * c31 e_m1_48B * c11 e_7_48B * c32 e_7_48B + c12 e_3_8B * c13 e_3_8B * c31 e_m1_48B * c33 e_m1_48B * c11 e_7_48B * c22 e_7_48B + c21 e_3_8B * c31 e_3_8B * c13 e_m1_48B * c32 e_m1_48B * c12 e_7_48B * c13 e_7_48B + c11 e_3_8B * c33 e_3_8B * c13 e_m1_48B * c33 e_m1_48B * c11 e_7_48B * c32 e_7_48B + c11 e_3_8B * c33 e_3_8B * c31 e_m1_48B * c33 e_m1_48B * c12 e_7_48B * c13 e_7_48B + c22 e_3_8B * c23 e_3_8B * c22 e_m1_48B * c32 e_m1_48B * c12 e_7_48B * c22 e_7_48B + c22 e_3_8B * c32 e_3_8B * c22 e_m1_48B * c23 e_m1_48B * c12 e_7_48B * c22 e_7_48B + c22 e_3_8B * c23 e_3_8B * c23 e_m1_48B * c32 e_m1_48B * c12 e_7_48B * c32 e_7_48B + c22 e_3_8B * c23 e_3_8B * c32 e_m1_48B * c33 e_m1_48B * c12 e_7_48B * c22 e_7_48B + c22 e_3_8B * c32 e_3_8B * c23 e_m1_48B * c32 e_m1_48B * c13 e_7_48B * c22 e_7_48B + c22 e_3_8B * c32 e_3_8B * c23 e_m1_48B * c33 e_m1_48B * c12 e_7_48B * c22 e_7_48B + c22 e_3_8B * c33 e_3_8B * c22 e_m1_48B * c23 e_m1_48B * c12 e_7_48B * c32 e_7_48B + c22 e_3_8B * c33 e_3_8B * c22 e_m1_48B * c32 e_m1_48B * c13 e_7_48B * c22 e_7_48B + c23 e_3_8B * c32 e_3_8B * c23 e_m1_48B * c32 e_m1_48B * c12 e_7_48B * c22 e_7_48B + c22 e_3_8B * c33 e_3_8B * c23 e_m1_48B * c33 e_m1_48B * c12 e_7_48B * c32 e_7_48B + c22 e_3_8B * c33 e_3_8B * c32 e_m1_48B * c33 e_m1_48B * c13 e_7_48B * c22 e_7_48B + c23 e_3_8B * c32 e_3_8B * c23 e_m1_48B * c32 e_m1_48B * c13 e_7_48B * c32 e_7_48B + c23 e_3_8B * c33 e_3_8B * c22 e_m1_48B * c32 e_m1_48B * c13 e_7_48B * c32 e_7_48B + c23 e_3_8B * c33 e_3_8B * c23 e_m1_48B * c32 e_m1_48B * c12 e_7_48B * c32 e_7_48B + c32 e_3_8B * c33 e_3_8B * c22 e_m1_48B * c23 e_m1_48B * c13 e_7_48B * c32 e_7_48B + c32 e_3_8B * c33 e_3_8B * c23 e_m1_48B * c32 e_m1_48B * c13 e_7_48B * c22 e_7_48B + c23 e_3_8B * c33 e_3_8B * c32 e_m1_48B * c33 e_m1_48B * c13 e_7_48B * c32 e_7_48B + c32 e_3_8B * c33 e_3_8B * c23 e_m1_48B * c33 e_m1_48B * c13 e_7_48B * c32 e_7_48B;
    RtoC 0;
    c21 e_3_8B * c22 e_3_8B * c22 e_m1_48B * c22 e_m1_48B * c12 e_7_48B * c12 e_7_48B + c23 e_3_8B * c31 e_3_8B * c33 e_m1_48B * c33 e_m1_48B * c12 e_7_48B * c12 e_7_48B + c21 e_3_8B * c22 e_3_8B * c23 e_m1_48B * c32 e_m1_48B * c12 e_7_48B * c12 e_7_48B + c21 e_3_8B * c23 e_3_8B * c22 e_m1_48B * c32 e_m1_48B * c12 e_7_48B * c12 e_7_48B + c22 e_3_8B * c31 e_3_8B * c22 e_m1_48B * c23 e_m1_48B * c12 e_7_48B * c12 e_7_48B + c21 e_3_8B * c23 e_3_8B * c32 e_m1_48B * c33 e_m1_48B * c12 e_7_48B * c12 e_7_48B + c22 e_3_8B * c31 e_3_8B * c23 e_m1_48B * c33 e_m1_48B * c12 e_7_48B * c12 e_7_48B + c23 e_3_8B * c31 e_3_8B * c23 e_m1_48B * c32 e_m1_48B * c12 e_7_48B * c12 e_7_48B + c12 e_3_8B * c21 e_3_8B * c11 e_m1_48B * c11 e_m1_48B * c12 e_7_48B * c22 e_7_48B + c12 e_3_8B * c22 e_3_8B * c22 e_m1_48B * c22 e_m1_48B * c11 e_7_48B * c22 e_7_48B + c12 e_3_8B * c31 e_3_8B * c11 e_m1_48B * c11 e_m1_48B * c13 e_7_48B * c22 e_7_48B + c13 e_3_8B * c21 e_3_8B * c11 e_m1_48B * c11 e_m1_48B * c12 e_7_48B * c32 e_7_48B + c12 e_3_8B * c23 e_3_8B * c22 e_m1_48B * c22 e_m1_48B * c11 e_7_48B * c32 e_7_48B + c13 e_3_8B * c31 e_3_8B * c11 e_m1_48B * c11 e_m1_48B * c13 e_7_48B * c32 e_7_48B + c21 e_3_8B * c32 e_3_8B * c22 e_m1_48B * c22 e_m1_48B * c12 e_7_48B * c13 e_7_48B + c13 e_3_8B * c32 e_3_8B * c33 e_m1_48B * c33 e_m1_48B * c11 e_7_48B * c22 e_7_48B + c13 e_3_8B * c33 e_3_8B * c33 e_m1_48B * c33 e_m1_48B * c11 e_7_48B * c32 e_7_48B + c31 e_3_8B * c33 e_3_8B * c33 e_m1_48B * c33 e_m1_48B * c12 e_7_48B * c13 e_7_48B + c11 e_3_8B * c12 e_3_8B * c21 e_m1_48B * c22 e_m1_48B * c11 e_7_48B * c12 e_7_48B + c11 e_3_8B * c21 e_3_8B * c12 e_m1_48B * c22 e_m1_48B * c11 e_7_48B * c12 e_7_48B + c11 e_3_8B * c12 e_3_8B * c23 e_m1_48B * c31 e_m1_48B * c11 e_7_48B * c12 e_7_48B + c11 e_3_8B * c13 e_3_8B * c21 e_m1_48B * c32 e_m1_48B * c11 e_7_48B * c12 e_7_48B + c11 e_3_8B * c21 e_3_8B * c13 e_m1_48B * c32 e_m1_48B * c11 e_7_48B * c12 e_7_48B + c11 e_3_8B * c31 e_3_8B * c12 e_m1_48B * c23 e_m1_48B * c11 e_7_48B * c12 e_7_48B + c11 e_3_8B * c13 e_3_8B * c31 e_m1_48B * c33 e_m1_48B * c11 e_7_48B * c12 e_7_48B + c11 e_3_8B * c31 e_3_8B * c13 e_m1_48B * c33 e_m1_48B * c11 e_7_48B * c12 e_7_48B + c12 e_3_8B * c22 e_3_8B * c23 e_m1_48B * c32 e_m1_48B * c11 e_7_48B * c22 e_7_48B + c12 e_3_8B * c32 e_3_8B * c22 e_m1_48B * c23 e_m1_48B * c11 e_7_48B * c22 e_7_48B + c13 e_3_8B * c22 e_3_8B * c22 e_m1_48B * c32 e_m1_48B * c11 e_7_48B * c22 e_7_48B + c12 e_3_8B * c23 e_3_8B * c23 e_m1_48B * c32 e_m1_48B * c11 e_7_48B * c32 e_7_48B + c12 e_3_8B * c32 e_3_8B * c23 e_m1_48B * c33 e_m1_48B * c11 e_7_48B * c22 e_7_48B + c12 e_3_8B * c33 e_3_8B * c22 e_m1_48B * c23 e_m1_48B * c11 e_7_48B * c32 e_7_48B + c13 e_3_8B * c22 e_3_8B * c32 e_m1_48B * c33 e_m1_48B * c11 e_7_48B * c22 e_7_48B + c13 e_3_8B * c23 e_3_8B * c22 e_m1_48B * c32 e_m1_48B * c11 e_7_48B * c32 e_7_48B + c13 e_3_8B * c32 e_3_8B * c23 e_m1_48B * c32 e_m1_48B * c11 e_7_48B * c22 e_7_48B + c21 e_3_8B * c32 e_3_8B * c23 e_m1_48B * c32 e_m1_48B * c12 e_7_48B * c13 e_7_48B + c21 e_3_8B * c33 e_3_8B * c22 e_m1_48B * c32 e_m1_48B * c12 e_7_48B * c13 e_7_48B + c31 e_3_8B * c32 e_3_8B * c22 e_m1_48B * c23 e_m1_48B * c12 e_7_48B * c13 e_7_48B + c12 e_3_8B * c33 e_3_8B * c23 e_m1_48B * c33 e_m1_48B * c11 e_7_48B * c32 e_7_48B + c13 e_3_8B * c23 e_3_8B * c32 e_m1_48B * c33 e_m1_48B * c11 e_7_48B * c32 e_7_48B + c13 e_3_8B * c33 e_3_8B * c23 e_m1_48B * c32 e_m1_48B * c11 e_7_48B * c32 e_7_48B + c21 e_3_8B * c33 e_3_8B * c32 e_m1_48B * c33 e_m1_48B * c12 e_7_48B * c13 e_7_48B + c31 e_3_8B * c32 e_3_8B * c23 e_m1_48B * c33 e_m1_48B * c12 e_7_48B * c13 e_7_48B + c31 e_3_8B * c33 e_3_8B * c23 e_m1_48B * c32 e_m1_48B * c12 e_7_48B * c13 e_7_48B;
    RtoC 0;
    c11 e_3_8B * c21 e_3_8B * c11 e_m1_48B * c11 e_m1_48B * c12 e_7_48B * c12 e_7_48B + c11 e_3_8B * c12 e_3_8B * c11 e_m1_48B * c11 e_m1_48B * c11 e_7_48B * c22 e_7_48B + c11 e_3_8B * c13 e_3_8B * c11 e_m1_48B * c11 e_m1_48B * c11 e_7_48B * c32 e_7_48B + c11 e_3_8B * c31 e_3_8B * c11 e_m1_48B * c11 e_m1_48B * c12 e_7_48B * c13 e_7_48B + c12 e_3_8B * c21 e_3_8B * c22 e_m1_48B * c22 e_m1_48B * c11 e_7_48B * c12 e_7_48B + c13 e_3_8B * c31 e_3_8B * c33 e_m1_48B * c33 e_m1_48B * c11 e_7_48B * c12 e_7_48B + c12 e_3_8B * c22 e_3_8B * c11 e_m1_48B * c21 e_m1_48B * c12 e_7_48B * c22 e_7_48B + c21 e_3_8B * c22 e_3_8B * c11 e_m1_48B * c12 e_m1_48B * c12 e_7_48B * c22 e_7_48B + c12 e_3_8B * c21 e_3_8B * c23 e_m1_48B * c32 e_m1_48B * c11 e_7_48B * c12 e_7_48B + c12 e_3_8B * c23 e_3_8B * c11 e_m1_48B * c31 e_m1_48B * c12 e_7_48B * c22 e_7_48B + c12 e_3_8B * c31 e_3_8B * c22 e_m1_48B * c23 e_m1_48B * c11 e_7_48B * c12 e_7_48B + c12 e_3_8B * c32 e_3_8B * c11 e_m1_48B * c21 e_m1_48B * c13 e_7_48B * c22 e_7_48B + c13 e_3_8B * c21 e_3_8B * c22 e_m1_48B * c32 e_m1_48B * c11 e_7_48B * c12 e_7_48B + c13 e_3_8B * c22 e_3_8B * c11 e_m1_48B * c21 e_m1_48B * c12 e_7_48B * c32 e_7_48B + c21 e_3_8B * c23 e_3_8B * c11 e_m1_48B * c12 e_m1_48B * c12 e_7_48B * c32 e_7_48B + c21 e_3_8B * c32 e_3_8B * c11 e_m1_48B * c13 e_m1_48B * c12 e_7_48B * c22 e_7_48B + c22 e_3_8B * c31 e_3_8B * c11 e_m1_48B * c12 e_m1_48B * c13 e_7_48B * c22 e_7_48B + c12 e_3_8B * c31 e_3_8B * c23 e_m1_48B * c33 e_m1_48B * c11 e_7_48B * c12 e_7_48B + c12 e_3_8B * c33 e_3_8B * c11 e_m1_48B * c31 e_m1_48B * c13 e_7_48B * c22 e_7_48B + c13 e_3_8B * c21 e_3_8B * c32 e_m1_48B * c33 e_m1_48B * c11 e_7_48B * c12 e_7_48B + c13 e_3_8B * c23 e_3_8B * c11 e_m1_48B * c31 e_m1_48B * c12 e_7_48B * c32 e_7_48B + c13 e_3_8B * c31 e_3_8B * c23 e_m1_48B * c32 e_m1_48B * c11 e_7_48B * c12 e_7_48B + c13 e_3_8B * c32 e_3_8B * c11 e_m1_48B * c21 e_m1_48B * c13 e_7_48B * c32 e_7_48B + c21 e_3_8B * c33 e_3_8B * c11 e_m1_48B * c13 e_m1_48B * c12 e_7_48B * c32 e_7_48B + c23 e_3_8B * c31 e_3_8B * c11 e_m1_48B * c12 e_m1_48B * c13 e_7_48B * c32 e_7_48B + c31 e_3_8B * c32 e_3_8B * c11 e_m1_48B * c13 e_m1_48B * c13 e_7_48B * c22 e_7_48B + c13 e_3_8B * c33 e_3_8B * c11 e_m1_48B * c31 e_m1_48B * c13 e_7_48B * c32 e_7_48B + c31 e_3_8B * c33 e_3_8B * c11 e_m1_48B * c13 e_m1_48B * c13 e_7_48B * c32 e_7_48B;
    RtoC 0;
    c21 e_3_8B * c21 e_3_8B * c11 e_m1_48B * c12 e_m1_48B * c12 e_7_48B * c12 e_7_48B + c11 e_3_8B * c11 e_3_8B * c11 e_m1_48B * c11 e_m1_48B * c11 e_7_48B * c12 e_7_48B + c11 e_3_8B * c22 e_3_8B * c11 e_m1_48B * c21 e_m1_48B * c12 e_7_48B * c12 e_7_48B + c11 e_3_8B * c23 e_3_8B * c11 e_m1_48B * c31 e_m1_48B * c12 e_7_48B * c12 e_7_48B + c21 e_3_8B * c31 e_3_8B * c11 e_m1_48B * c13 e_m1_48B * c12 e_7_48B * c12 e_7_48B + c12 e_3_8B * c12 e_3_8B * c11 e_m1_48B * c21 e_m1_48B * c11 e_7_48B * c22 e_7_48B + c31 e_3_8B * c31 e_3_8B * c11 e_m1_48B * c13 e_m1_48B * c12 e_7_48B * c13 e_7_48B + c22 e_3_8B * c22 e_3_8B * c12 e_m1_48B * c21 e_m1_48B * c12 e_7_48B * c22 e_7_48B + c13 e_3_8B * c13 e_3_8B * c11 e_m1_48B * c31 e_m1_48B * c11 e_7_48B * c32 e_7_48B + c32 e_3_8B * c32 e_3_8B * c13 e_m1_48B * c21 e_m1_48B * c13 e_7_48B * c22 e_7_48B + c23 e_3_8B * c23 e_3_8B * c12 e_m1_48B * c31 e_m1_48B * c12 e_7_48B * c32 e_7_48B + c33 e_3_8B * c33 e_3_8B * c13 e_m1_48B * c31 e_m1_48B * c13 e_7_48B * c32 e_7_48B + c11 e_3_8B * c22 e_3_8B * c11 e_m1_48B * c12 e_m1_48B * c11 e_7_48B * c22 e_7_48B + c11 e_3_8B * c23 e_3_8B * c11 e_m1_48B * c12 e_m1_48B * c11 e_7_48B * c32 e_7_48B + c11 e_3_8B * c32 e_3_8B * c11 e_m1_48B * c13 e_m1_48B * c11 e_7_48B * c22 e_7_48B + c11 e_3_8B * c32 e_3_8B * c11 e_m1_48B * c21 e_m1_48B * c12 e_7_48B * c13 e_7_48B + c12 e_3_8B * c13 e_3_8B * c11 e_m1_48B * c21 e_m1_48B * c11 e_7_48B * c32 e_7_48B + c12 e_3_8B * c13 e_3_8B * c11 e_m1_48B * c31 e_m1_48B * c11 e_7_48B * c22 e_7_48B + c21 e_3_8B * c31 e_3_8B * c11 e_m1_48B * c12 e_m1_48B * c12 e_7_48B * c13 e_7_48B + c11 e_3_8B * c33 e_3_8B * c11 e_m1_48B * c13 e_m1_48B * c11 e_7_48B * c32 e_7_48B + c11 e_3_8B * c33 e_3_8B * c11 e_m1_48B * c31 e_m1_48B * c12 e_7_48B * c13 e_7_48B + c22 e_3_8B * c23 e_3_8B * c12 e_m1_48B * c21 e_m1_48B * c12 e_7_48B * c32 e_7_48B + c22 e_3_8B * c23 e_3_8B * c12 e_m1_48B * c31 e_m1_48B * c12 e_7_48B * c22 e_7_48B + c22 e_3_8B * c32 e_3_8B * c12 e_m1_48B * c21 e_m1_48B * c13 e_7_48B * c22 e_7_48B + c22 e_3_8B * c32 e_3_8B * c13 e_m1_48B * c21 e_m1_48B * c12 e_7_48B * c22 e_7_48B + c22 e_3_8B * c33 e_3_8B * c12 e_m1_48B * c31 e_m1_48B * c13 e_7_48B * c22 e_7_48B + c22 e_3_8B * c33 e_3_8B * c13 e_m1_48B * c21 e_m1_48B * c12 e_7_48B * c32 e_7_48B + c23 e_3_8B * c32 e_3_8B * c12 e_m1_48B * c21 e_m1_48B * c13 e_7_48B * c32 e_7_48B + c23 e_3_8B * c32 e_3_8B * c13 e_m1_48B * c31 e_m1_48B * c12 e_7_48B * c22 e_7_48B + c23 e_3_8B * c33 e_3_8B * c12 e_m1_48B * c31 e_m1_48B * c13 e_7_48B * c32 e_7_48B + c23 e_3_8B * c33 e_3_8B * c13 e_m1_48B * c31 e_m1_48B * c12 e_7_48B * c32 e_7_48B + c32 e_3_8B * c33 e_3_8B * c13 e_m1_48B * c21 e_m1_48B * c13 e_7_48B * c32 e_7_48B + c32 e_3_8B * c33 e_3_8B * c13 e_m1_48B * c31 e_m1_48B * c13 e_7_48B * c22 e_7_48B;
    RtoC 0;
    c21 e_3_8B * c22 e_3_8B * c12 e_m1_48B * c21 e_m1_48B * c12 e_7_48B * c12 e_7_48B + c21 e_3_8B * c23 e_3_8B * c12 e_m1_48B * c31 e_m1_48B * c12 e_7_48B * c12 e_7_48B + c22 e_3_8B * c31 e_3_8B * c13 e_m1_48B * c21 e_m1_48B * c12 e_7_48B * c12 e_7_48B + c23 e_3_8B * c31 e_3_8B * c13 e_m1_48B * c31 e_m1_48B * c12 e_7_48B * c12 e_7_48B + c11 e_3_8B * c12 e_3_8B * c11 e_m1_48B * c21 e_m1_48B * c11 e_7_48B * c12 e_7_48B + c11 e_3_8B * c21 e_3_8B * c11 e_m1_48B * c12 e_m1_48B * c11 e_7_48B * c12 e_7_48B + c11 e_3_8B * c13 e_3_8B * c11 e_m1_48B * c31 e_m1_48B * c11 e_7_48B * c12 e_7_48B + c11 e_3_8B * c31 e_3_8B * c11 e_m1_48B * c13 e_m1_48B * c11 e_7_48B * c12 e_7_48B + c12 e_3_8B * c22 e_3_8B * c12 e_m1_48B * c21 e_m1_48B * c11 e_7_48B * c22 e_7_48B + c12 e_3_8B * c23 e_3_8B * c12 e_m1_48B * c21 e_m1_48B * c11 e_7_48B * c32 e_7_48B + c12 e_3_8B * c32 e_3_8B * c13 e_m1_48B * c21 e_m1_48B * c11 e_7_48B * c22 e_7_48B + c13 e_3_8B * c22 e_3_8B * c12 e_m1_48B * c31 e_m1_48B * c11 e_7_48B * c22 e_7_48B + c21 e_3_8B * c32 e_3_8B * c12 e_m1_48B * c21 e_m1_48B * c12 e_7_48B * c13 e_7_48B + c12 e_3_8B * c33 e_3_8B * c13 e_m1_48B * c21 e_m1_48B * c11 e_7_48B * c32 e_7_48B + c13 e_3_8B * c23 e_3_8B * c12 e_m1_48B * c31 e_m1_48B * c11 e_7_48B * c32 e_7_48B + c13 e_3_8B * c32 e_3_8B * c13 e_m1_48B * c31 e_m1_48B * c11 e_7_48B * c22 e_7_48B + c21 e_3_8B * c33 e_3_8B * c12 e_m1_48B * c31 e_m1_48B * c12 e_7_48B * c13 e_7_48B + c31 e_3_8B * c32 e_3_8B * c13 e_m1_48B * c21 e_m1_48B * c12 e_7_48B * c13 e_7_48B + c13 e_3_8B * c33 e_3_8B * c13 e_m1_48B * c31 e_m1_48B * c11 e_7_48B * c32 e_7_48B + c31 e_3_8B * c33 e_3_8B * c13 e_m1_48B * c31 e_m1_48B * c12 e_7_48B * c13 e_7_48B;
    RtoC 0;
    c12 e_3_8B * c21 e_3_8B * c12 e_m1_48B * c21 e_m1_48B * c11 e_7_48B * c12 e_7_48B + c12 e_3_8B * c31 e_3_8B * c13 e_m1_48B * c21 e_m1_48B * c11 e_7_48B * c12 e_7_48B + c13 e_3_8B * c21 e_3_8B * c12 e_m1_48B * c31 e_m1_48B * c11 e_7_48B * c12 e_7_48B + c13 e_3_8B * c31 e_3_8B * c13 e_m1_48B * c31 e_m1_48B * c11 e_7_48B * c12 e_7_48B];
   [c12 e_3_8B * c21 e_3_8B * c12 e_m1_48B * c21 e_m1_48B * c12 e_7_48B * c23 e_7_48B + c12 e_3_8B * c21 e_3_8B * c13 e_m1_48B * c31 e_m1_48B * c12 e_7_48B * c23 e_7_48B + c12 e_3_8B * c31 e_3_8B * c12 e_m1_48B * c21 e_m1_48B * c13 e_7_48B * c23 e_7_48B + c13 e_3_8B * c21 e_3_8B * c12 e_m1_48B * c21 e_m1_48B * c12 e_7_48B * c33 e_7_48B + c12 e_3_8B * c31 e_3_8B * c13 e_m1_48B * c31 e_m1_48B * c13 e_7_48B * c23 e_7_48B + c13 e_3_8B * c21 e_3_8B * c13 e_m1_48B * c31 e_m1_48B * c12 e_7_48B * c33 e_7_48B + c13 e_3_8B * c31 e_3_8B * c12 e_m1_48B * c21 e_m1_48B * c13 e_7_48B * c33 e_7_48B + c13 e_3_8B * c31 e_3_8B * c13 e_m1_48B * c31 e_m1_48B * c13 e_7_48B * c33 e_7_48B;
    RtoC 0;
    c11 e_3_8B * c31 e_3_8B * c12 e_m1_48B * c21 e_m1_48B * c13 e_7_48B * c13 e_7_48B + c11 e_3_8B * c31 e_3_8B * c13 e_m1_48B * c31 e_m1_48B * c13 e_7_48B * c13 e_7_48B + c11 e_3_8B * c12 e_3_8B * c12 e_m1_48B * c21 e_m1_48B * c11 e_7_48B * c23 e_7_48B + c11 e_3_8B * c21 e_3_8B * c12 e_m1_48B * c21 e_m1_48B * c12 e_7_48B * c13 e_7_48B + c11 e_3_8B * c12 e_3_8B * c13 e_m1_48B * c31 e_m1_48B * c11 e_7_48B * c23 e_7_48B + c11 e_3_8B * c13 e_3_8B * c12 e_m1_48B * c21 e_m1_48B * c11 e_7_48B * c33 e_7_48B + c11 e_3_8B * c21 e_3_8B * c13 e_m1_48B * c31 e_m1_48B * c12 e_7_48B * c13 e_7_48B + c11 e_3_8B * c13 e_3_8B * c13 e_m1_48B * c31 e_m1_48B * c11 e_7_48B * c33 e_7_48B + c12 e_3_8B * c22 e_3_8B * c21 e_m1_48B * c22 e_m1_48B * c12 e_7_48B * c23 e_7_48B + c21 e_3_8B * c22 e_3_8B * c12 e_m1_48B * c22 e_m1_48B * c12 e_7_48B * c23 e_7_48B + c12 e_3_8B * c22 e_3_8B * c23 e_m1_48B * c31 e_m1_48B * c12 e_7_48B * c23 e_7_48B + c12 e_3_8B * c23 e_3_8B * c21 e_m1_48B * c32 e_m1_48B * c12 e_7_48B * c23 e_7_48B + c12 e_3_8B * c32 e_3_8B * c21 e_m1_48B * c22 e_m1_48B * c13 e_7_48B * c23 e_7_48B + c13 e_3_8B * c22 e_3_8B * c21 e_m1_48B * c22 e_m1_48B * c12 e_7_48B * c33 e_7_48B + c21 e_3_8B * c22 e_3_8B * c13 e_m1_48B * c32 e_m1_48B * c12 e_7_48B * c23 e_7_48B + c21 e_3_8B * c23 e_3_8B * c12 e_m1_48B * c22 e_m1_48B * c12 e_7_48B * c33 e_7_48B + c21 e_3_8B * c32 e_3_8B * c12 e_m1_48B * c23 e_m1_48B * c12 e_7_48B * c23 e_7_48B + c22 e_3_8B * c31 e_3_8B * c12 e_m1_48B * c22 e_m1_48B * c13 e_7_48B * c23 e_7_48B + c12 e_3_8B * c23 e_3_8B * c31 e_m1_48B * c33 e_m1_48B * c12 e_7_48B * c23 e_7_48B + c12 e_3_8B * c32 e_3_8B * c23 e_m1_48B * c31 e_m1_48B * c13 e_7_48B * c23 e_7_48B + c12 e_3_8B * c33 e_3_8B * c21 e_m1_48B * c32 e_m1_48B * c13 e_7_48B * c23 e_7_48B + c13 e_3_8B * c22 e_3_8B * c23 e_m1_48B * c31 e_m1_48B * c12 e_7_48B * c33 e_7_48B + c13 e_3_8B * c23 e_3_8B * c21 e_m1_48B * c32 e_m1_48B * c12 e_7_48B * c33 e_7_48B + c13 e_3_8B * c32 e_3_8B * c21 e_m1_48B * c22 e_m1_48B * c13 e_7_48B * c33 e_7_48B + c21 e_3_8B * c23 e_3_8B * c13 e_m1_48B * c32 e_m1_48B * c12 e_7_48B * c33 e_7_48B + c21 e_3_8B * c32 e_3_8B * c13 e_m1_48B * c33 e_m1_48B * c12 e_7_48B * c23 e_7_48B + c21 e_3_8B * c33 e_3_8B * c12 e_m1_48B * c23 e_m1_48B * c12 e_7_48B * c33 e_7_48B + c22 e_3_8B * c31 e_3_8B * c13 e_m1_48B * c32 e_m1_48B * c13 e_7_48B * c23 e_7_48B + c23 e_3_8B * c31 e_3_8B * c12 e_m1_48B * c22 e_m1_48B * c13 e_7_48B * c33 e_7_48B + c31 e_3_8B * c32 e_3_8B * c12 e_m1_48B * c23 e_m1_48B * c13 e_7_48B * c23 e_7_48B + c12 e_3_8B * c33 e_3_8B * c31 e_m1_48B * c33 e_m1_48B * c13 e_7_48B * c23 e_7_48B + c13 e_3_8B * c23 e_3_8B * c31 e_m1_48B * c33 e_m1_48B * c12 e_7_48B * c33 e_7_48B + c13 e_3_8B * c32 e_3_8B * c23 e_m1_48B * c31 e_m1_48B * c13 e_7_48B * c33 e_7_48B + c13 e_3_8B * c33 e_3_8B * c21 e_m1_48B * c32 e_m1_48B * c13 e_7_48B * c33 e_7_48B + c21 e_3_8B * c33 e_3_8B * c13 e_m1_48B * c33 e_m1_48B * c12 e_7_48B * c33 e_7_48B + c23 e_3_8B * c31 e_3_8B * c13 e_m1_48B * c32 e_m1_48B * c13 e_7_48B * c33 e_7_48B + c31 e_3_8B * c32 e_3_8B * c13 e_m1_48B * c33 e_m1_48B * c13 e_7_48B * c23 e_7_48B + c31 e_3_8B * c33 e_3_8B * c12 e_m1_48B * c23 e_m1_48B * c13 e_7_48B * c33 e_7_48B + c13 e_3_8B * c33 e_3_8B * c31 e_m1_48B * c33 e_m1_48B * c13 e_7_48B * c33 e_7_48B + c31 e_3_8B * c33 e_3_8B * c13 e_m1_48B * c33 e_m1_48B * c13 e_7_48B * c33 e_7_48B;
    RtoC 0;
    c31 e_3_8B * c31 e_3_8B * c12 e_m1_48B * c23 e_m1_48B * c13 e_7_48B * c13 e_7_48B + c31 e_3_8B * c31 e_3_8B * c13 e_m1_48B * c33 e_m1_48B * c13 e_7_48B * c13 e_7_48B + c22 e_3_8B * c22 e_3_8B * c22 e_m1_48B * c22 e_m1_48B * c12 e_7_48B * c23 e_7_48B + c33 e_3_8B * c33 e_3_8B * c33 e_m1_48B * c33 e_m1_48B * c13 e_7_48B * c33 e_7_48B + c11 e_3_8B * c32 e_3_8B * c21 e_m1_48B * c22 e_m1_48B * c13 e_7_48B * c13 e_7_48B + c21 e_3_8B * c31 e_3_8B * c12 e_m1_48B * c22 e_m1_48B * c13 e_7_48B * c13 e_7_48B + c11 e_3_8B * c32 e_3_8B * c23 e_m1_48B * c31 e_m1_48B * c13 e_7_48B * c13 e_7_48B + c11 e_3_8B * c33 e_3_8B * c21 e_m1_48B * c32 e_m1_48B * c13 e_7_48B * c13 e_7_48B + c21 e_3_8B * c31 e_3_8B * c13 e_m1_48B * c32 e_m1_48B * c13 e_7_48B * c13 e_7_48B + c11 e_3_8B * c33 e_3_8B * c31 e_m1_48B * c33 e_m1_48B * c13 e_7_48B * c13 e_7_48B + c22 e_3_8B * c23 e_3_8B * c22 e_m1_48B * c22 e_m1_48B * c12 e_7_48B * c33 e_7_48B + c22 e_3_8B * c32 e_3_8B * c22 e_m1_48B * c22 e_m1_48B * c13 e_7_48B * c23 e_7_48B + c23 e_3_8B * c32 e_3_8B * c22 e_m1_48B * c22 e_m1_48B * c13 e_7_48B * c33 e_7_48B + c23 e_3_8B * c32 e_3_8B * c33 e_m1_48B * c33 e_m1_48B * c12 e_7_48B * c23 e_7_48B + c23 e_3_8B * c33 e_3_8B * c33 e_m1_48B * c33 e_m1_48B * c12 e_7_48B * c33 e_7_48B + c32 e_3_8B * c33 e_3_8B * c33 e_m1_48B * c33 e_m1_48B * c13 e_7_48B * c23 e_7_48B + c11 e_3_8B * c11 e_3_8B * c12 e_m1_48B * c21 e_m1_48B * c11 e_7_48B * c13 e_7_48B + c11 e_3_8B * c11 e_3_8B * c13 e_m1_48B * c31 e_m1_48B * c11 e_7_48B * c13 e_7_48B + c21 e_3_8B * c21 e_3_8B * c12 e_m1_48B * c22 e_m1_48B * c12 e_7_48B * c13 e_7_48B + c12 e_3_8B * c12 e_3_8B * c21 e_m1_48B * c22 e_m1_48B * c11 e_7_48B * c23 e_7_48B + c21 e_3_8B * c21 e_3_8B * c13 e_m1_48B * c32 e_m1_48B * c12 e_7_48B * c13 e_7_48B + c12 e_3_8B * c12 e_3_8B * c23 e_m1_48B * c31 e_m1_48B * c11 e_7_48B * c23 e_7_48B + c13 e_3_8B * c13 e_3_8B * c21 e_m1_48B * c32 e_m1_48B * c11 e_7_48B * c33 e_7_48B + c22 e_3_8B * c22 e_3_8B * c23 e_m1_48B * c32 e_m1_48B * c12 e_7_48B * c23 e_7_48B + c32 e_3_8B * c32 e_3_8B * c22 e_m1_48B * c23 e_m1_48B * c13 e_7_48B * c23 e_7_48B + c13 e_3_8B * c13 e_3_8B * c31 e_m1_48B * c33 e_m1_48B * c11 e_7_48B * c33 e_7_48B + c23 e_3_8B * c23 e_3_8B * c22 e_m1_48B * c32 e_m1_48B * c12 e_7_48B * c33 e_7_48B + c32 e_3_8B * c32 e_3_8B * c23 e_m1_48B * c33 e_m1_48B * c13 e_7_48B * c23 e_7_48B + c23 e_3_8B * c23 e_3_8B * c32 e_m1_48B * c33 e_m1_48B * c12 e_7_48B * c33 e_7_48B + c33 e_3_8B * c33 e_3_8B * c23 e_m1_48B * c32 e_m1_48B * c13 e_7_48B * c33 e_7_48B + c11 e_3_8B * c22 e_3_8B * c12 e_m1_48B * c22 e_m1_48B * c11 e_7_48B * c23 e_7_48B + c11 e_3_8B * c22 e_3_8B * c21 e_m1_48B * c22 e_m1_48B * c12 e_7_48B * c13 e_7_48B + c11 e_3_8B * c22 e_3_8B * c13 e_m1_48B * c32 e_m1_48B * c11 e_7_48B * c23 e_7_48B + c11 e_3_8B * c22 e_3_8B * c23 e_m1_48B * c31 e_m1_48B * c12 e_7_48B * c13 e_7_48B + c11 e_3_8B * c23 e_3_8B * c12 e_m1_48B * c22 e_m1_48B * c11 e_7_48B * c33 e_7_48B + c11 e_3_8B * c23 e_3_8B * c21 e_m1_48B * c32 e_m1_48B * c12 e_7_48B * c13 e_7_48B + c11 e_3_8B * c32 e_3_8B * c12 e_m1_48B * c23 e_m1_48B * c11 e_7_48B * c23 e_7_48B + c12 e_3_8B * c13 e_3_8B * c21 e_m1_48B * c22 e_m1_48B * c11 e_7_48B * c33 e_7_48B + c12 e_3_8B * c13 e_3_8B * c21 e_m1_48B * c32 e_m1_48B * c11 e_7_48B * c23 e_7_48B + c21 e_3_8B * c31 e_3_8B * c12 e_m1_48B * c23 e_m1_48B * c12 e_7_48B * c13 e_7_48B + c11 e_3_8B * c23 e_3_8B * c13 e_m1_48B * c32 e_m1_48B * c11 e_7_48B * c33 e_7_48B + c11 e_3_8B * c23 e_3_8B * c31 e_m1_48B * c33 e_m1_48B * c12 e_7_48B * c13 e_7_48B + c11 e_3_8B * c32 e_3_8B * c13 e_m1_48B * c33 e_m1_48B * c11 e_7_48B * c23 e_7_48B + c11 e_3_8B * c33 e_3_8B * c12 e_m1_48B * c23 e_m1_48B * c11 e_7_48B * c33 e_7_48B + c12 e_3_8B * c13 e_3_8B * c23 e_m1_48B * c31 e_m1_48B * c11 e_7_48B * c33 e_7_48B + c12 e_3_8B * c13 e_3_8B * c31 e_m1_48B * c33 e_m1_48B * c11 e_7_48B * c23 e_7_48B + c21 e_3_8B * c31 e_3_8B * c13 e_m1_48B * c33 e_m1_48B * c12 e_7_48B * c13 e_7_48B + c11 e_3_8B * c33 e_3_8B * c13 e_m1_48B * c33 e_m1_48B * c11 e_7_48B * c33 e_7_48B + c22 e_3_8B * c23 e_3_8B * c22 e_m1_48B * c32 e_m1_48B * c12 e_7_48B * c23 e_7_48B + c22 e_3_8B * c32 e_3_8B * c22 e_m1_48B * c23 e_m1_48B * c12 e_7_48B * c23 e_7_48B + c22 e_3_8B * c23 e_3_8B * c23 e_m1_48B * c32 e_m1_48B * c12 e_7_48B * c33 e_7_48B + c22 e_3_8B * c23 e_3_8B * c32 e_m1_48B * c33 e_m1_48B * c12 e_7_48B * c23 e_7_48B + c22 e_3_8B * c32 e_3_8B * c23 e_m1_48B * c32 e_m1_48B * c13 e_7_48B * c23 e_7_48B + c22 e_3_8B * c32 e_3_8B * c23 e_m1_48B * c33 e_m1_48B * c12 e_7_48B * c23 e_7_48B + c22 e_3_8B * c33 e_3_8B * c22 e_m1_48B * c23 e_m1_48B * c12 e_7_48B * c33 e_7_48B + c22 e_3_8B * c33 e_3_8B * c22 e_m1_48B * c32 e_m1_48B * c13 e_7_48B * c23 e_7_48B + c23 e_3_8B * c32 e_3_8B * c23 e_m1_48B * c32 e_m1_48B * c12 e_7_48B * c23 e_7_48B + c22 e_3_8B * c33 e_3_8B * c23 e_m1_48B * c33 e_m1_48B * c12 e_7_48B * c33 e_7_48B + c22 e_3_8B * c33 e_3_8B * c32 e_m1_48B * c33 e_m1_48B * c13 e_7_48B * c23 e_7_48B + c23 e_3_8B * c32 e_3_8B * c23 e_m1_48B * c32 e_m1_48B * c13 e_7_48B * c33 e_7_48B + c23 e_3_8B * c33 e_3_8B * c22 e_m1_48B * c32 e_m1_48B * c13 e_7_48B * c33 e_7_48B + c23 e_3_8B * c33 e_3_8B * c23 e_m1_48B * c32 e_m1_48B * c12 e_7_48B * c33 e_7_48B + c32 e_3_8B * c33 e_3_8B * c22 e_m1_48B * c23 e_m1_48B * c13 e_7_48B * c33 e_7_48B + c32 e_3_8B * c33 e_3_8B * c23 e_m1_48B * c32 e_m1_48B * c13 e_7_48B * c23 e_7_48B + c23 e_3_8B * c33 e_3_8B * c32 e_m1_48B * c33 e_m1_48B * c13 e_7_48B * c33 e_7_48B + c32 e_3_8B * c33 e_3_8B * c23 e_m1_48B * c33 e_m1_48B * c13 e_7_48B * c33 e_7_48B;
    RtoC 0;
    c21 e_3_8B * c32 e_3_8B * c22 e_m1_48B * c22 e_m1_48B * c13 e_7_48B * c13 e_7_48B + c31 e_3_8B * c33 e_3_8B * c33 e_m1_48B * c33 e_m1_48B * c13 e_7_48B * c13 e_7_48B + c21 e_3_8B * c32 e_3_8B * c23 e_m1_48B * c32 e_m1_48B * c13 e_7_48B * c13 e_7_48B + c21 e_3_8B * c33 e_3_8B * c22 e_m1_48B * c32 e_m1_48B * c13 e_7_48B * c13 e_7_48B + c31 e_3_8B * c32 e_3_8B * c22 e_m1_48B * c23 e_m1_48B * c13 e_7_48B * c13 e_7_48B + c21 e_3_8B * c33 e_3_8B * c32 e_m1_48B * c33 e_m1_48B * c13 e_7_48B * c13 e_7_48B + c31 e_3_8B * c32 e_3_8B * c23 e_m1_48B * c33 e_m1_48B * c13 e_7_48B * c13 e_7_48B + c31 e_3_8B * c33 e_3_8B * c23 e_m1_48B * c32 e_m1_48B * c13 e_7_48B * c13 e_7_48B + c12 e_3_8B * c21 e_3_8B * c11 e_m1_48B * c11 e_m1_48B * c12 e_7_48B * c23 e_7_48B + c12 e_3_8B * c22 e_3_8B * c22 e_m1_48B * c22 e_m1_48B * c11 e_7_48B * c23 e_7_48B + c12 e_3_8B * c31 e_3_8B * c11 e_m1_48B * c11 e_m1_48B * c13 e_7_48B * c23 e_7_48B + c13 e_3_8B * c21 e_3_8B * c11 e_m1_48B * c11 e_m1_48B * c12 e_7_48B * c33 e_7_48B + c21 e_3_8B * c22 e_3_8B * c22 e_m1_48B * c22 e_m1_48B * c12 e_7_48B * c13 e_7_48B + c12 e_3_8B * c23 e_3_8B * c22 e_m1_48B * c22 e_m1_48B * c11 e_7_48B * c33 e_7_48B + c13 e_3_8B * c31 e_3_8B * c11 e_m1_48B * c11 e_m1_48B * c13 e_7_48B * c33 e_7_48B + c13 e_3_8B * c32 e_3_8B * c33 e_m1_48B * c33 e_m1_48B * c11 e_7_48B * c23 e_7_48B + c23 e_3_8B * c31 e_3_8B * c33 e_m1_48B * c33 e_m1_48B * c12 e_7_48B * c13 e_7_48B + c13 e_3_8B * c33 e_3_8B * c33 e_m1_48B * c33 e_m1_48B * c11 e_7_48B * c33 e_7_48B + c11 e_3_8B * c12 e_3_8B * c21 e_m1_48B * c22 e_m1_48B * c11 e_7_48B * c13 e_7_48B + c11 e_3_8B * c21 e_3_8B * c12 e_m1_48B * c22 e_m1_48B * c11 e_7_48B * c13 e_7_48B + c11 e_3_8B * c12 e_3_8B * c23 e_m1_48B * c31 e_m1_48B * c11 e_7_48B * c13 e_7_48B + c11 e_3_8B * c13 e_3_8B * c21 e_m1_48B * c32 e_m1_48B * c11 e_7_48B * c13 e_7_48B + c11 e_3_8B * c21 e_3_8B * c13 e_m1_48B * c32 e_m1_48B * c11 e_7_48B * c13 e_7_48B + c11 e_3_8B * c31 e_3_8B * c12 e_m1_48B * c23 e_m1_48B * c11 e_7_48B * c13 e_7_48B + c11 e_3_8B * c13 e_3_8B * c31 e_m1_48B * c33 e_m1_48B * c11 e_7_48B * c13 e_7_48B + c11 e_3_8B * c31 e_3_8B * c13 e_m1_48B * c33 e_m1_48B * c11 e_7_48B * c13 e_7_48B + c12 e_3_8B * c22 e_3_8B * c23 e_m1_48B * c32 e_m1_48B * c11 e_7_48B * c23 e_7_48B + c12 e_3_8B * c32 e_3_8B * c22 e_m1_48B * c23 e_m1_48B * c11 e_7_48B * c23 e_7_48B + c13 e_3_8B * c22 e_3_8B * c22 e_m1_48B * c32 e_m1_48B * c11 e_7_48B * c23 e_7_48B + c21 e_3_8B * c22 e_3_8B * c23 e_m1_48B * c32 e_m1_48B * c12 e_7_48B * c13 e_7_48B + c21 e_3_8B * c23 e_3_8B * c22 e_m1_48B * c32 e_m1_48B * c12 e_7_48B * c13 e_7_48B + c22 e_3_8B * c31 e_3_8B * c22 e_m1_48B * c23 e_m1_48B * c12 e_7_48B * c13 e_7_48B + c12 e_3_8B * c23 e_3_8B * c23 e_m1_48B * c32 e_m1_48B * c11 e_7_48B * c33 e_7_48B + c12 e_3_8B * c32 e_3_8B * c23 e_m1_48B * c33 e_m1_48B * c11 e_7_48B * c23 e_7_48B + c12 e_3_8B * c33 e_3_8B * c22 e_m1_48B * c23 e_m1_48B * c11 e_7_48B * c33 e_7_48B + c13 e_3_8B * c22 e_3_8B * c32 e_m1_48B * c33 e_m1_48B * c11 e_7_48B * c23 e_7_48B + c13 e_3_8B * c23 e_3_8B * c22 e_m1_48B * c32 e_m1_48B * c11 e_7_48B * c33 e_7_48B + c13 e_3_8B * c32 e_3_8B * c23 e_m1_48B * c32 e_m1_48B * c11 e_7_48B * c23 e_7_48B + c21 e_3_8B * c23 e_3_8B * c32 e_m1_48B * c33 e_m1_48B * c12 e_7_48B * c13 e_7_48B + c22 e_3_8B * c31 e_3_8B * c23 e_m1_48B * c33 e_m1_48B * c12 e_7_48B * c13 e_7_48B + c23 e_3_8B * c31 e_3_8B * c23 e_m1_48B * c32 e_m1_48B * c12 e_7_48B * c13 e_7_48B + c12 e_3_8B * c33 e_3_8B * c23 e_m1_48B * c33 e_m1_48B * c11 e_7_48B * c33 e_7_48B + c13 e_3_8B * c23 e_3_8B * c32 e_m1_48B * c33 e_m1_48B * c11 e_7_48B * c33 e_7_48B + c13 e_3_8B * c33 e_3_8B * c23 e_m1_48B * c32 e_m1_48B * c11 e_7_48B * c33 e_7_48B;
    RtoC 0;
    c11 e_3_8B * c31 e_3_8B * c11 e_m1_48B * c11 e_m1_48B * c13 e_7_48B * c13 e_7_48B + c11 e_3_8B * c12 e_3_8B * c11 e_m1_48B * c11 e_m1_48B * c11 e_7_48B * c23 e_7_48B + c11 e_3_8B * c21 e_3_8B * c11 e_m1_48B * c11 e_m1_48B * c12 e_7_48B * c13 e_7_48B + c11 e_3_8B * c13 e_3_8B * c11 e_m1_48B * c11 e_m1_48B * c11 e_7_48B * c33 e_7_48B + c12 e_3_8B * c21 e_3_8B * c22 e_m1_48B * c22 e_m1_48B * c11 e_7_48B * c13 e_7_48B + c13 e_3_8B * c31 e_3_8B * c33 e_m1_48B * c33 e_m1_48B * c11 e_7_48B * c13 e_7_48B + c12 e_3_8B * c22 e_3_8B * c11 e_m1_48B * c21 e_m1_48B * c12 e_7_48B * c23 e_7_48B + c21 e_3_8B * c22 e_3_8B * c11 e_m1_48B * c12 e_m1_48B * c12 e_7_48B * c23 e_7_48B + c12 e_3_8B * c21 e_3_8B * c23 e_m1_48B * c32 e_m1_48B * c11 e_7_48B * c13 e_7_48B + c12 e_3_8B * c23 e_3_8B * c11 e_m1_48B * c31 e_m1_48B * c12 e_7_48B * c23 e_7_48B + c12 e_3_8B * c31 e_3_8B * c22 e_m1_48B * c23 e_m1_48B * c11 e_7_48B * c13 e_7_48B + c12 e_3_8B * c32 e_3_8B * c11 e_m1_48B * c21 e_m1_48B * c13 e_7_48B * c23 e_7_48B + c13 e_3_8B * c21 e_3_8B * c22 e_m1_48B * c32 e_m1_48B * c11 e_7_48B * c13 e_7_48B + c13 e_3_8B * c22 e_3_8B * c11 e_m1_48B * c21 e_m1_48B * c12 e_7_48B * c33 e_7_48B + c21 e_3_8B * c23 e_3_8B * c11 e_m1_48B * c12 e_m1_48B * c12 e_7_48B * c33 e_7_48B + c21 e_3_8B * c32 e_3_8B * c11 e_m1_48B * c13 e_m1_48B * c12 e_7_48B * c23 e_7_48B + c22 e_3_8B * c31 e_3_8B * c11 e_m1_48B * c12 e_m1_48B * c13 e_7_48B * c23 e_7_48B + c12 e_3_8B * c31 e_3_8B * c23 e_m1_48B * c33 e_m1_48B * c11 e_7_48B * c13 e_7_48B + c12 e_3_8B * c33 e_3_8B * c11 e_m1_48B * c31 e_m1_48B * c13 e_7_48B * c23 e_7_48B + c13 e_3_8B * c21 e_3_8B * c32 e_m1_48B * c33 e_m1_48B * c11 e_7_48B * c13 e_7_48B + c13 e_3_8B * c23 e_3_8B * c11 e_m1_48B * c31 e_m1_48B * c12 e_7_48B * c33 e_7_48B + c13 e_3_8B * c31 e_3_8B * c23 e_m1_48B * c32 e_m1_48B * c11 e_7_48B * c13 e_7_48B + c13 e_3_8B * c32 e_3_8B * c11 e_m1_48B * c21 e_m1_48B * c13 e_7_48B * c33 e_7_48B + c21 e_3_8B * c33 e_3_8B * c11 e_m1_48B * c13 e_m1_48B * c12 e_7_48B * c33 e_7_48B + c23 e_3_8B * c31 e_3_8B * c11 e_m1_48B * c12 e_m1_48B * c13 e_7_48B * c33 e_7_48B + c31 e_3_8B * c32 e_3_8B * c11 e_m1_48B * c13 e_m1_48B * c13 e_7_48B * c23 e_7_48B + c13 e_3_8B * c33 e_3_8B * c11 e_m1_48B * c31 e_m1_48B * c13 e_7_48B * c33 e_7_48B + c31 e_3_8B * c33 e_3_8B * c11 e_m1_48B * c13 e_m1_48B * c13 e_7_48B * c33 e_7_48B;
    RtoC 0;
    c31 e_3_8B * c31 e_3_8B * c11 e_m1_48B * c13 e_m1_48B * c13 e_7_48B * c13 e_7_48B + c11 e_3_8B * c11 e_3_8B * c11 e_m1_48B * c11 e_m1_48B * c11 e_7_48B * c13 e_7_48B + c11 e_3_8B * c32 e_3_8B * c11 e_m1_48B * c21 e_m1_48B * c13 e_7_48B * c13 e_7_48B + c21 e_3_8B * c31 e_3_8B * c11 e_m1_48B * c12 e_m1_48B * c13 e_7_48B * c13 e_7_48B + c11 e_3_8B * c33 e_3_8B * c11 e_m1_48B * c31 e_m1_48B * c13 e_7_48B * c13 e_7_48B + c21 e_3_8B * c21 e_3_8B * c11 e_m1_48B * c12 e_m1_48B * c12 e_7_48B * c13 e_7_48B + c12 e_3_8B * c12 e_3_8B * c11 e_m1_48B * c21 e_m1_48B * c11 e_7_48B * c23 e_7_48B + c22 e_3_8B * c22 e_3_8B * c12 e_m1_48B * c21 e_m1_48B * c12 e_7_48B * c23 e_7_48B + c13 e_3_8B * c13 e_3_8B * c11 e_m1_48B * c31 e_m1_48B * c11 e_7_48B * c33 e_7_48B + c32 e_3_8B * c32 e_3_8B * c13 e_m1_48B * c21 e_m1_48B * c13 e_7_48B * c23 e_7_48B + c23 e_3_8B * c23 e_3_8B * c12 e_m1_48B * c31 e_m1_48B * c12 e_7_48B * c33 e_7_48B + c33 e_3_8B * c33 e_3_8B * c13 e_m1_48B * c31 e_m1_48B * c13 e_7_48B * c33 e_7_48B + c11 e_3_8B * c22 e_3_8B * c11 e_m1_48B * c12 e_m1_48B * c11 e_7_48B * c23 e_7_48B + c11 e_3_8B * c22 e_3_8B * c11 e_m1_48B * c21 e_m1_48B * c12 e_7_48B * c13 e_7_48B + c11 e_3_8B * c23 e_3_8B * c11 e_m1_48B * c12 e_m1_48B * c11 e_7_48B * c33 e_7_48B + c11 e_3_8B * c23 e_3_8B * c11 e_m1_48B * c31 e_m1_48B * c12 e_7_48B * c13 e_7_48B + c11 e_3_8B * c32 e_3_8B * c11 e_m1_48B * c13 e_m1_48B * c11 e_7_48B * c23 e_7_48B + c12 e_3_8B * c13 e_3_8B * c11 e_m1_48B * c21 e_m1_48B * c11 e_7_48B * c33 e_7_48B + c12 e_3_8B * c13 e_3_8B * c11 e_m1_48B * c31 e_m1_48B * c11 e_7_48B * c23 e_7_48B + c21 e_3_8B * c31 e_3_8B * c11 e_m1_48B * c13 e_m1_48B * c12 e_7_48B * c13 e_7_48B + c11 e_3_8B * c33 e_3_8B * c11 e_m1_48B * c13 e_m1_48B * c11 e_7_48B * c33 e_7_48B + c22 e_3_8B * c23 e_3_8B * c12 e_m1_48B * c21 e_m1_48B * c12 e_7_48B * c33 e_7_48B + c22 e_3_8B * c23 e_3_8B * c12 e_m1_48B * c31 e_m1_48B * c12 e_7_48B * c23 e_7_48B + c22 e_3_8B * c32 e_3_8B * c12 e_m1_48B * c21 e_m1_48B * c13 e_7_48B * c23 e_7_48B + c22 e_3_8B * c32 e_3_8B * c13 e_m1_48B * c21 e_m1_48B * c12 e_7_48B * c23 e_7_48B + c22 e_3_8B * c33 e_3_8B * c12 e_m1_48B * c31 e_m1_48B * c13 e_7_48B * c23 e_7_48B + c22 e_3_8B * c33 e_3_8B * c13 e_m1_48B * c21 e_m1_48B * c12 e_7_48B * c33 e_7_48B + c23 e_3_8B * c32 e_3_8B * c12 e_m1_48B * c21 e_m1_48B * c13 e_7_48B * c33 e_7_48B + c23 e_3_8B * c32 e_3_8B * c13 e_m1_48B * c31 e_m1_48B * c12 e_7_48B * c23 e_7_48B + c23 e_3_8B * c33 e_3_8B * c12 e_m1_48B * c31 e_m1_48B * c13 e_7_48B * c33 e_7_48B + c23 e_3_8B * c33 e_3_8B * c13 e_m1_48B * c31 e_m1_48B * c12 e_7_48B * c33 e_7_48B + c32 e_3_8B * c33 e_3_8B * c13 e_m1_48B * c21 e_m1_48B * c13 e_7_48B * c33 e_7_48B + c32 e_3_8B * c33 e_3_8B * c13 e_m1_48B * c31 e_m1_48B * c13 e_7_48B * c23 e_7_48B;
    RtoC 0;
    c21 e_3_8B * c32 e_3_8B * c12 e_m1_48B * c21 e_m1_48B * c13 e_7_48B * c13 e_7_48B + c21 e_3_8B * c33 e_3_8B * c12 e_m1_48B * c31 e_m1_48B * c13 e_7_48B * c13 e_7_48B + c31 e_3_8B * c32 e_3_8B * c13 e_m1_48B * c21 e_m1_48B * c13 e_7_48B * c13 e_7_48B + c31 e_3_8B * c33 e_3_8B * c13 e_m1_48B * c31 e_m1_48B * c13 e_7_48B * c13 e_7_48B + c11 e_3_8B * c12 e_3_8B * c11 e_m1_48B * c21 e_m1_48B * c11 e_7_48B * c13 e_7_48B + c11 e_3_8B * c21 e_3_8B * c11 e_m1_48B * c12 e_m1_48B * c11 e_7_48B * c13 e_7_48B + c11 e_3_8B * c13 e_3_8B * c11 e_m1_48B * c31 e_m1_48B * c11 e_7_48B * c13 e_7_48B + c11 e_3_8B * c31 e_3_8B * c11 e_m1_48B * c13 e_m1_48B * c11 e_7_48B * c13 e_7_48B + c12 e_3_8B * c22 e_3_8B * c12 e_m1_48B * c21 e_m1_48B * c11 e_7_48B * c23 e_7_48B + c21 e_3_8B * c22 e_3_8B * c12 e_m1_48B * c21 e_m1_48B * c12 e_7_48B * c13 e_7_48B + c12 e_3_8B * c23 e_3_8B * c12 e_m1_48B * c21 e_m1_48B * c11 e_7_48B * c33 e_7_48B + c12 e_3_8B * c32 e_3_8B * c13 e_m1_48B * c21 e_m1_48B * c11 e_7_48B * c23 e_7_48B + c13 e_3_8B * c22 e_3_8B * c12 e_m1_48B * c31 e_m1_48B * c11 e_7_48B * c23 e_7_48B + c21 e_3_8B * c23 e_3_8B * c12 e_m1_48B * c31 e_m1_48B * c12 e_7_48B * c13 e_7_48B + c22 e_3_8B * c31 e_3_8B * c13 e_m1_48B * c21 e_m1_48B * c12 e_7_48B * c13 e_7_48B + c12 e_3_8B * c33 e_3_8B * c13 e_m1_48B * c21 e_m1_48B * c11 e_7_48B * c33 e_7_48B + c13 e_3_8B * c23 e_3_8B * c12 e_m1_48B * c31 e_m1_48B * c11 e_7_48B * c33 e_7_48B + c13 e_3_8B * c32 e_3_8B * c13 e_m1_48B * c31 e_m1_48B * c11 e_7_48B * c23 e_7_48B + c23 e_3_8B * c31 e_3_8B * c13 e_m1_48B * c31 e_m1_48B * c12 e_7_48B * c13 e_7_48B + c13 e_3_8B * c33 e_3_8B * c13 e_m1_48B * c31 e_m1_48B * c11 e_7_48B * c33 e_7_48B;
    RtoC 0;
    c12 e_3_8B * c21 e_3_8B * c12 e_m1_48B * c21 e_m1_48B * c11 e_7_48B * c13 e_7_48B + c12 e_3_8B * c31 e_3_8B * c13 e_m1_48B * c21 e_m1_48B * c11 e_7_48B * c13 e_7_48B + c13 e_3_8B * c21 e_3_8B * c12 e_m1_48B * c31 e_m1_48B * c11 e_7_48B * c13 e_7_48B + c13 e_3_8B * c31 e_3_8B * c13 e_m1_48B * c31 e_m1_48B * c11 e_7_48B * c13 e_7_48B];
   [c12 e_3_8B * c21 e_3_8B * c12 e_m1_48B * c21 e_m1_48B * c21 e_7_48B * c22 e_7_48B + c12 e_3_8B * c21 e_3_8B * c13 e_m1_48B * c31 e_m1_48B * c21 e_7_48B * c22 e_7_48B + c12 e_3_8B * c31 e_3_8B * c12 e_m1_48B * c21 e_m1_48B * c21 e_7_48B * c23 e_7_48B + c13 e_3_8B * c21 e_3_8B * c12 e_m1_48B * c21 e_m1_48B * c22 e_7_48B * c31 e_7_48B + c12 e_3_8B * c31 e_3_8B * c13 e_m1_48B * c31 e_m1_48B * c21 e_7_48B * c23 e_7_48B + c13 e_3_8B * c21 e_3_8B * c13 e_m1_48B * c31 e_m1_48B * c22 e_7_48B * c31 e_7_48B + c13 e_3_8B * c31 e_3_8B * c12 e_m1_48B * c21 e_m1_48B * c23 e_7_48B * c31 e_7_48B + c13 e_3_8B * c31 e_3_8B * c13 e_m1_48B * c31 e_m1_48B * c23 e_7_48B * c31 e_7_48B;
    RtoC 0;
    c11 e_3_8B * c12 e_3_8B * c12 e_m1_48B * c21 e_m1_48B * c21 e_7_48B * c21 e_7_48B + c11 e_3_8B * c12 e_3_8B * c13 e_m1_48B * c31 e_m1_48B * c21 e_7_48B * c21 e_7_48B + c11 e_3_8B * c21 e_3_8B * c12 e_m1_48B * c21 e_m1_48B * c11 e_7_48B * c22 e_7_48B + c11 e_3_8B * c13 e_3_8B * c12 e_m1_48B * c21 e_m1_48B * c21 e_7_48B * c31 e_7_48B + c11 e_3_8B * c21 e_3_8B * c13 e_m1_48B * c31 e_m1_48B * c11 e_7_48B * c22 e_7_48B + c11 e_3_8B * c31 e_3_8B * c12 e_m1_48B * c21 e_m1_48B * c11 e_7_48B * c23 e_7_48B + c11 e_3_8B * c13 e_3_8B * c13 e_m1_48B * c31 e_m1_48B * c21 e_7_48B * c31 e_7_48B + c11 e_3_8B * c31 e_3_8B * c13 e_m1_48B * c31 e_m1_48B * c11 e_7_48B * c23 e_7_48B + c12 e_3_8B * c22 e_3_8B * c21 e_m1_48B * c22 e_m1_48B * c21 e_7_48B * c22 e_7_48B + c21 e_3_8B * c22 e_3_8B * c12 e_m1_48B * c22 e_m1_48B * c21 e_7_48B * c22 e_7_48B + c12 e_3_8B * c22 e_3_8B * c23 e_m1_48B * c31 e_m1_48B * c21 e_7_48B * c22 e_7_48B + c12 e_3_8B * c23 e_3_8B * c21 e_m1_48B * c32 e_m1_48B * c21 e_7_48B * c22 e_7_48B + c12 e_3_8B * c32 e_3_8B * c21 e_m1_48B * c22 e_m1_48B * c21 e_7_48B * c23 e_7_48B + c13 e_3_8B * c22 e_3_8B * c21 e_m1_48B * c22 e_m1_48B * c22 e_7_48B * c31 e_7_48B + c21 e_3_8B * c22 e_3_8B * c13 e_m1_48B * c32 e_m1_48B * c21 e_7_48B * c22 e_7_48B + c21 e_3_8B * c23 e_3_8B * c12 e_m1_48B * c22 e_m1_48B * c22 e_7_48B * c31 e_7_48B + c21 e_3_8B * c32 e_3_8B * c12 e_m1_48B * c23 e_m1_48B * c21 e_7_48B * c22 e_7_48B + c22 e_3_8B * c31 e_3_8B * c12 e_m1_48B * c22 e_m1_48B * c21 e_7_48B * c23 e_7_48B + c12 e_3_8B * c23 e_3_8B * c31 e_m1_48B * c33 e_m1_48B * c21 e_7_48B * c22 e_7_48B + c12 e_3_8B * c32 e_3_8B * c23 e_m1_48B * c31 e_m1_48B * c21 e_7_48B * c23 e_7_48B + c12 e_3_8B * c33 e_3_8B * c21 e_m1_48B * c32 e_m1_48B * c21 e_7_48B * c23 e_7_48B + c13 e_3_8B * c22 e_3_8B * c23 e_m1_48B * c31 e_m1_48B * c22 e_7_48B * c31 e_7_48B + c13 e_3_8B * c23 e_3_8B * c21 e_m1_48B * c32 e_m1_48B * c22 e_7_48B * c31 e_7_48B + c13 e_3_8B * c32 e_3_8B * c21 e_m1_48B * c22 e_m1_48B * c23 e_7_48B * c31 e_7_48B + c21 e_3_8B * c23 e_3_8B * c13 e_m1_48B * c32 e_m1_48B * c22 e_7_48B * c31 e_7_48B + c21 e_3_8B * c32 e_3_8B * c13 e_m1_48B * c33 e_m1_48B * c21 e_7_48B * c22 e_7_48B + c21 e_3_8B * c33 e_3_8B * c12 e_m1_48B * c23 e_m1_48B * c22 e_7_48B * c31 e_7_48B + c22 e_3_8B * c31 e_3_8B * c13 e_m1_48B * c32 e_m1_48B * c21 e_7_48B * c23 e_7_48B + c23 e_3_8B * c31 e_3_8B * c12 e_m1_48B * c22 e_m1_48B * c23 e_7_48B * c31 e_7_48B + c31 e_3_8B * c32 e_3_8B * c12 e_m1_48B * c23 e_m1_48B * c21 e_7_48B * c23 e_7_48B + c12 e_3_8B * c33 e_3_8B * c31 e_m1_48B * c33 e_m1_48B * c21 e_7_48B * c23 e_7_48B + c13 e_3_8B * c23 e_3_8B * c31 e_m1_48B * c33 e_m1_48B * c22 e_7_48B * c31 e_7_48B + c13 e_3_8B * c32 e_3_8B * c23 e_m1_48B * c31 e_m1_48B * c23 e_7_48B * c31 e_7_48B + c13 e_3_8B * c33 e_3_8B * c21 e_m1_48B * c32 e_m1_48B * c23 e_7_48B * c31 e_7_48B + c21 e_3_8B * c33 e_3_8B * c13 e_m1_48B * c33 e_m1_48B * c22 e_7_48B * c31 e_7_48B + c23 e_3_8B * c31 e_3_8B * c13 e_m1_48B * c32 e_m1_48B * c23 e_7_48B * c31 e_7_48B + c31 e_3_8B * c32 e_3_8B * c13 e_m1_48B * c33 e_m1_48B * c21 e_7_48B * c23 e_7_48B + c31 e_3_8B * c33 e_3_8B * c12 e_m1_48B * c23 e_m1_48B * c23 e_7_48B * c31 e_7_48B + c13 e_3_8B * c33 e_3_8B * c31 e_m1_48B * c33 e_m1_48B * c23 e_7_48B * c31 e_7_48B + c31 e_3_8B * c33 e_3_8B * c13 e_m1_48B * c33 e_m1_48B * c23 e_7_48B * c31 e_7_48B;
    RtoC 0;
    c12 e_3_8B * c12 e_3_8B * c21 e_m1_48B * c22 e_m1_48B * c21 e_7_48B * c21 e_7_48B + c12 e_3_8B * c12 e_3_8B * c23 e_m1_48B * c31 e_m1_48B * c21 e_7_48B * c21 e_7_48B + c22 e_3_8B * c22 e_3_8B * c22 e_m1_48B * c22 e_m1_48B * c21 e_7_48B * c22 e_7_48B + c33 e_3_8B * c33 e_3_8B * c33 e_m1_48B * c33 e_m1_48B * c23 e_7_48B * c31 e_7_48B + c11 e_3_8B * c22 e_3_8B * c12 e_m1_48B * c22 e_m1_48B * c21 e_7_48B * c21 e_7_48B + c11 e_3_8B * c22 e_3_8B * c13 e_m1_48B * c32 e_m1_48B * c21 e_7_48B * c21 e_7_48B + c11 e_3_8B * c32 e_3_8B * c12 e_m1_48B * c23 e_m1_48B * c21 e_7_48B * c21 e_7_48B + c12 e_3_8B * c13 e_3_8B * c21 e_m1_48B * c32 e_m1_48B * c21 e_7_48B * c21 e_7_48B + c11 e_3_8B * c32 e_3_8B * c13 e_m1_48B * c33 e_m1_48B * c21 e_7_48B * c21 e_7_48B + c12 e_3_8B * c13 e_3_8B * c31 e_m1_48B * c33 e_m1_48B * c21 e_7_48B * c21 e_7_48B + c22 e_3_8B * c23 e_3_8B * c22 e_m1_48B * c22 e_m1_48B * c22 e_7_48B * c31 e_7_48B + c22 e_3_8B * c32 e_3_8B * c22 e_m1_48B * c22 e_m1_48B * c21 e_7_48B * c23 e_7_48B + c23 e_3_8B * c32 e_3_8B * c22 e_m1_48B * c22 e_m1_48B * c23 e_7_48B * c31 e_7_48B + c23 e_3_8B * c32 e_3_8B * c33 e_m1_48B * c33 e_m1_48B * c21 e_7_48B * c22 e_7_48B + c23 e_3_8B * c33 e_3_8B * c33 e_m1_48B * c33 e_m1_48B * c22 e_7_48B * c31 e_7_48B + c32 e_3_8B * c33 e_3_8B * c33 e_m1_48B * c33 e_m1_48B * c21 e_7_48B * c23 e_7_48B + c11 e_3_8B * c11 e_3_8B * c12 e_m1_48B * c21 e_m1_48B * c11 e_7_48B * c21 e_7_48B + c11 e_3_8B * c11 e_3_8B * c13 e_m1_48B * c31 e_m1_48B * c11 e_7_48B * c21 e_7_48B + c21 e_3_8B * c21 e_3_8B * c12 e_m1_48B * c22 e_m1_48B * c11 e_7_48B * c22 e_7_48B + c21 e_3_8B * c21 e_3_8B * c13 e_m1_48B * c32 e_m1_48B * c11 e_7_48B * c22 e_7_48B + c31 e_3_8B * c31 e_3_8B * c12 e_m1_48B * c23 e_m1_48B * c11 e_7_48B * c23 e_7_48B + c31 e_3_8B * c31 e_3_8B * c13 e_m1_48B * c33 e_m1_48B * c11 e_7_48B * c23 e_7_48B + c13 e_3_8B * c13 e_3_8B * c21 e_m1_48B * c32 e_m1_48B * c21 e_7_48B * c31 e_7_48B + c22 e_3_8B * c22 e_3_8B * c23 e_m1_48B * c32 e_m1_48B * c21 e_7_48B * c22 e_7_48B + c32 e_3_8B * c32 e_3_8B * c22 e_m1_48B * c23 e_m1_48B * c21 e_7_48B * c23 e_7_48B + c13 e_3_8B * c13 e_3_8B * c31 e_m1_48B * c33 e_m1_48B * c21 e_7_48B * c31 e_7_48B + c23 e_3_8B * c23 e_3_8B * c22 e_m1_48B * c32 e_m1_48B * c22 e_7_48B * c31 e_7_48B + c32 e_3_8B * c32 e_3_8B * c23 e_m1_48B * c33 e_m1_48B * c21 e_7_48B * c23 e_7_48B + c23 e_3_8B * c23 e_3_8B * c32 e_m1_48B * c33 e_m1_48B * c22 e_7_48B * c31 e_7_48B + c33 e_3_8B * c33 e_3_8B * c23 e_m1_48B * c32 e_m1_48B * c23 e_7_48B * c31 e_7_48B + c11 e_3_8B * c22 e_3_8B * c21 e_m1_48B * c22 e_m1_48B * c11 e_7_48B * c22 e_7_48B + c11 e_3_8B * c22 e_3_8B * c23 e_m1_48B * c31 e_m1_48B * c11 e_7_48B * c22 e_7_48B + c11 e_3_8B * c23 e_3_8B * c12 e_m1_48B * c22 e_m1_48B * c21 e_7_48B * c31 e_7_48B + c11 e_3_8B * c23 e_3_8B * c21 e_m1_48B * c32 e_m1_48B * c11 e_7_48B * c22 e_7_48B + c11 e_3_8B * c32 e_3_8B * c21 e_m1_48B * c22 e_m1_48B * c11 e_7_48B * c23 e_7_48B + c12 e_3_8B * c13 e_3_8B * c21 e_m1_48B * c22 e_m1_48B * c21 e_7_48B * c31 e_7_48B + c21 e_3_8B * c31 e_3_8B * c12 e_m1_48B * c22 e_m1_48B * c11 e_7_48B * c23 e_7_48B + c21 e_3_8B * c31 e_3_8B * c12 e_m1_48B * c23 e_m1_48B * c11 e_7_48B * c22 e_7_48B + c11 e_3_8B * c23 e_3_8B * c13 e_m1_48B * c32 e_m1_48B * c21 e_7_48B * c31 e_7_48B + c11 e_3_8B * c23 e_3_8B * c31 e_m1_48B * c33 e_m1_48B * c11 e_7_48B * c22 e_7_48B + c11 e_3_8B * c32 e_3_8B * c23 e_m1_48B * c31 e_m1_48B * c11 e_7_48B * c23 e_7_48B + c11 e_3_8B * c33 e_3_8B * c12 e_m1_48B * c23 e_m1_48B * c21 e_7_48B * c31 e_7_48B + c11 e_3_8B * c33 e_3_8B * c21 e_m1_48B * c32 e_m1_48B * c11 e_7_48B * c23 e_7_48B + c12 e_3_8B * c13 e_3_8B * c23 e_m1_48B * c31 e_m1_48B * c21 e_7_48B * c31 e_7_48B + c21 e_3_8B * c31 e_3_8B * c13 e_m1_48B * c32 e_m1_48B * c11 e_7_48B * c23 e_7_48B + c21 e_3_8B * c31 e_3_8B * c13 e_m1_48B * c33 e_m1_48B * c11 e_7_48B * c22 e_7_48B + c11 e_3_8B * c33 e_3_8B * c13 e_m1_48B * c33 e_m1_48B * c21 e_7_48B * c31 e_7_48B + c11 e_3_8B * c33 e_3_8B * c31 e_m1_48B * c33 e_m1_48B * c11 e_7_48B * c23 e_7_48B + c22 e_3_8B * c23 e_3_8B * c22 e_m1_48B * c32 e_m1_48B * c21 e_7_48B * c22 e_7_48B + c22 e_3_8B * c32 e_3_8B * c22 e_m1_48B * c23 e_m1_48B * c21 e_7_48B * c22 e_7_48B + c22 e_3_8B * c23 e_3_8B * c23 e_m1_48B * c32 e_m1_48B * c22 e_7_48B * c31 e_7_48B + c22 e_3_8B * c23 e_3_8B * c32 e_m1_48B * c33 e_m1_48B * c21 e_7_48B * c22 e_7_48B + c22 e_3_8B * c32 e_3_8B * c23 e_m1_48B * c32 e_m1_48B * c21 e_7_48B * c23 e_7_48B + c22 e_3_8B * c32 e_3_8B * c23 e_m1_48B * c33 e_m1_48B * c21 e_7_48B * c22 e_7_48B + c22 e_3_8B * c33 e_3_8B * c22 e_m1_48B * c23 e_m1_48B * c22 e_7_48B * c31 e_7_48B + c22 e_3_8B * c33 e_3_8B * c22 e_m1_48B * c32 e_m1_48B * c21 e_7_48B * c23 e_7_48B + c23 e_3_8B * c32 e_3_8B * c23 e_m1_48B * c32 e_m1_48B * c21 e_7_48B * c22 e_7_48B + c22 e_3_8B * c33 e_3_8B * c23 e_m1_48B * c33 e_m1_48B * c22 e_7_48B * c31 e_7_48B + c22 e_3_8B * c33 e_3_8B * c32 e_m1_48B * c33 e_m1_48B * c21 e_7_48B * c23 e_7_48B + c23 e_3_8B * c32 e_3_8B * c23 e_m1_48B * c32 e_m1_48B * c23 e_7_48B * c31 e_7_48B + c23 e_3_8B * c33 e_3_8B * c22 e_m1_48B * c32 e_m1_48B * c23 e_7_48B * c31 e_7_48B + c23 e_3_8B * c33 e_3_8B * c23 e_m1_48B * c32 e_m1_48B * c22 e_7_48B * c31 e_7_48B + c32 e_3_8B * c33 e_3_8B * c22 e_m1_48B * c23 e_m1_48B * c23 e_7_48B * c31 e_7_48B + c32 e_3_8B * c33 e_3_8B * c23 e_m1_48B * c32 e_m1_48B * c21 e_7_48B * c23 e_7_48B + c23 e_3_8B * c33 e_3_8B * c32 e_m1_48B * c33 e_m1_48B * c23 e_7_48B * c31 e_7_48B + c32 e_3_8B * c33 e_3_8B * c23 e_m1_48B * c33 e_m1_48B * c23 e_7_48B * c31 e_7_48B;
    RtoC 0;
    c12 e_3_8B * c22 e_3_8B * c22 e_m1_48B * c22 e_m1_48B * c21 e_7_48B * c21 e_7_48B + c13 e_3_8B * c32 e_3_8B * c33 e_m1_48B * c33 e_m1_48B * c21 e_7_48B * c21 e_7_48B + c12 e_3_8B * c22 e_3_8B * c23 e_m1_48B * c32 e_m1_48B * c21 e_7_48B * c21 e_7_48B + c12 e_3_8B * c32 e_3_8B * c22 e_m1_48B * c23 e_m1_48B * c21 e_7_48B * c21 e_7_48B + c13 e_3_8B * c22 e_3_8B * c22 e_m1_48B * c32 e_m1_48B * c21 e_7_48B * c21 e_7_48B + c12 e_3_8B * c32 e_3_8B * c23 e_m1_48B * c33 e_m1_48B * c21 e_7_48B * c21 e_7_48B + c13 e_3_8B * c22 e_3_8B * c32 e_m1_48B * c33 e_m1_48B * c21 e_7_48B * c21 e_7_48B + c13 e_3_8B * c32 e_3_8B * c23 e_m1_48B * c32 e_m1_48B * c21 e_7_48B * c21 e_7_48B + c12 e_3_8B * c21 e_3_8B * c11 e_m1_48B * c11 e_m1_48B * c21 e_7_48B * c22 e_7_48B + c12 e_3_8B * c31 e_3_8B * c11 e_m1_48B * c11 e_m1_48B * c21 e_7_48B * c23 e_7_48B + c13 e_3_8B * c21 e_3_8B * c11 e_m1_48B * c11 e_m1_48B * c22 e_7_48B * c31 e_7_48B + c21 e_3_8B * c22 e_3_8B * c22 e_m1_48B * c22 e_m1_48B * c11 e_7_48B * c22 e_7_48B + c12 e_3_8B * c23 e_3_8B * c22 e_m1_48B * c22 e_m1_48B * c21 e_7_48B * c31 e_7_48B + c13 e_3_8B * c31 e_3_8B * c11 e_m1_48B * c11 e_m1_48B * c23 e_7_48B * c31 e_7_48B + c21 e_3_8B * c32 e_3_8B * c22 e_m1_48B * c22 e_m1_48B * c11 e_7_48B * c23 e_7_48B + c23 e_3_8B * c31 e_3_8B * c33 e_m1_48B * c33 e_m1_48B * c11 e_7_48B * c22 e_7_48B + c13 e_3_8B * c33 e_3_8B * c33 e_m1_48B * c33 e_m1_48B * c21 e_7_48B * c31 e_7_48B + c31 e_3_8B * c33 e_3_8B * c33 e_m1_48B * c33 e_m1_48B * c11 e_7_48B * c23 e_7_48B + c11 e_3_8B * c12 e_3_8B * c21 e_m1_48B * c22 e_m1_48B * c11 e_7_48B * c21 e_7_48B + c11 e_3_8B * c21 e_3_8B * c12 e_m1_48B * c22 e_m1_48B * c11 e_7_48B * c21 e_7_48B + c11 e_3_8B * c12 e_3_8B * c23 e_m1_48B * c31 e_m1_48B * c11 e_7_48B * c21 e_7_48B + c11 e_3_8B * c13 e_3_8B * c21 e_m1_48B * c32 e_m1_48B * c11 e_7_48B * c21 e_7_48B + c11 e_3_8B * c21 e_3_8B * c13 e_m1_48B * c32 e_m1_48B * c11 e_7_48B * c21 e_7_48B + c11 e_3_8B * c31 e_3_8B * c12 e_m1_48B * c23 e_m1_48B * c11 e_7_48B * c21 e_7_48B + c11 e_3_8B * c13 e_3_8B * c31 e_m1_48B * c33 e_m1_48B * c11 e_7_48B * c21 e_7_48B + c11 e_3_8B * c31 e_3_8B * c13 e_m1_48B * c33 e_m1_48B * c11 e_7_48B * c21 e_7_48B + c21 e_3_8B * c22 e_3_8B * c23 e_m1_48B * c32 e_m1_48B * c11 e_7_48B * c22 e_7_48B + c21 e_3_8B * c23 e_3_8B * c22 e_m1_48B * c32 e_m1_48B * c11 e_7_48B * c22 e_7_48B + c22 e_3_8B * c31 e_3_8B * c22 e_m1_48B * c23 e_m1_48B * c11 e_7_48B * c22 e_7_48B + c12 e_3_8B * c23 e_3_8B * c23 e_m1_48B * c32 e_m1_48B * c21 e_7_48B * c31 e_7_48B + c12 e_3_8B * c33 e_3_8B * c22 e_m1_48B * c23 e_m1_48B * c21 e_7_48B * c31 e_7_48B + c13 e_3_8B * c23 e_3_8B * c22 e_m1_48B * c32 e_m1_48B * c21 e_7_48B * c31 e_7_48B + c21 e_3_8B * c23 e_3_8B * c32 e_m1_48B * c33 e_m1_48B * c11 e_7_48B * c22 e_7_48B + c21 e_3_8B * c32 e_3_8B * c23 e_m1_48B * c32 e_m1_48B * c11 e_7_48B * c23 e_7_48B + c21 e_3_8B * c33 e_3_8B * c22 e_m1_48B * c32 e_m1_48B * c11 e_7_48B * c23 e_7_48B + c22 e_3_8B * c31 e_3_8B * c23 e_m1_48B * c33 e_m1_48B * c11 e_7_48B * c22 e_7_48B + c23 e_3_8B * c31 e_3_8B * c23 e_m1_48B * c32 e_m1_48B * c11 e_7_48B * c22 e_7_48B + c31 e_3_8B * c32 e_3_8B * c22 e_m1_48B * c23 e_m1_48B * c11 e_7_48B * c23 e_7_48B + c12 e_3_8B * c33 e_3_8B * c23 e_m1_48B * c33 e_m1_48B * c21 e_7_48B * c31 e_7_48B + c13 e_3_8B * c23 e_3_8B * c32 e_m1_48B * c33 e_m1_48B * c21 e_7_48B * c31 e_7_48B + c13 e_3_8B * c33 e_3_8B * c23 e_m1_48B * c32 e_m1_48B * c21 e_7_48B * c31 e_7_48B + c21 e_3_8B * c33 e_3_8B * c32 e_m1_48B * c33 e_m1_48B * c11 e_7_48B * c23 e_7_48B + c31 e_3_8B * c32 e_3_8B * c23 e_m1_48B * c33 e_m1_48B * c11 e_7_48B * c23 e_7_48B + c31 e_3_8B * c33 e_3_8B * c23 e_m1_48B * c32 e_m1_48B * c11 e_7_48B * c23 e_7_48B;
    RtoC 0;
    c11 e_3_8B * c12 e_3_8B * c11 e_m1_48B * c11 e_m1_48B * c21 e_7_48B * c21 e_7_48B + c11 e_3_8B * c21 e_3_8B * c11 e_m1_48B * c11 e_m1_48B * c11 e_7_48B * c22 e_7_48B + c11 e_3_8B * c13 e_3_8B * c11 e_m1_48B * c11 e_m1_48B * c21 e_7_48B * c31 e_7_48B + c11 e_3_8B * c31 e_3_8B * c11 e_m1_48B * c11 e_m1_48B * c11 e_7_48B * c23 e_7_48B + c12 e_3_8B * c21 e_3_8B * c22 e_m1_48B * c22 e_m1_48B * c11 e_7_48B * c21 e_7_48B + c13 e_3_8B * c31 e_3_8B * c33 e_m1_48B * c33 e_m1_48B * c11 e_7_48B * c21 e_7_48B + c12 e_3_8B * c22 e_3_8B * c11 e_m1_48B * c21 e_m1_48B * c21 e_7_48B * c22 e_7_48B + c21 e_3_8B * c22 e_3_8B * c11 e_m1_48B * c12 e_m1_48B * c21 e_7_48B * c22 e_7_48B + c12 e_3_8B * c21 e_3_8B * c23 e_m1_48B * c32 e_m1_48B * c11 e_7_48B * c21 e_7_48B + c12 e_3_8B * c23 e_3_8B * c11 e_m1_48B * c31 e_m1_48B * c21 e_7_48B * c22 e_7_48B + c12 e_3_8B * c31 e_3_8B * c22 e_m1_48B * c23 e_m1_48B * c11 e_7_48B * c21 e_7_48B + c12 e_3_8B * c32 e_3_8B * c11 e_m1_48B * c21 e_m1_48B * c21 e_7_48B * c23 e_7_48B + c13 e_3_8B * c21 e_3_8B * c22 e_m1_48B * c32 e_m1_48B * c11 e_7_48B * c21 e_7_48B + c13 e_3_8B * c22 e_3_8B * c11 e_m1_48B * c21 e_m1_48B * c22 e_7_48B * c31 e_7_48B + c21 e_3_8B * c23 e_3_8B * c11 e_m1_48B * c12 e_m1_48B * c22 e_7_48B * c31 e_7_48B + c21 e_3_8B * c32 e_3_8B * c11 e_m1_48B * c13 e_m1_48B * c21 e_7_48B * c22 e_7_48B + c22 e_3_8B * c31 e_3_8B * c11 e_m1_48B * c12 e_m1_48B * c21 e_7_48B * c23 e_7_48B + c12 e_3_8B * c31 e_3_8B * c23 e_m1_48B * c33 e_m1_48B * c11 e_7_48B * c21 e_7_48B + c12 e_3_8B * c33 e_3_8B * c11 e_m1_48B * c31 e_m1_48B * c21 e_7_48B * c23 e_7_48B + c13 e_3_8B * c21 e_3_8B * c32 e_m1_48B * c33 e_m1_48B * c11 e_7_48B * c21 e_7_48B + c13 e_3_8B * c23 e_3_8B * c11 e_m1_48B * c31 e_m1_48B * c22 e_7_48B * c31 e_7_48B + c13 e_3_8B * c31 e_3_8B * c23 e_m1_48B * c32 e_m1_48B * c11 e_7_48B * c21 e_7_48B + c13 e_3_8B * c32 e_3_8B * c11 e_m1_48B * c21 e_m1_48B * c23 e_7_48B * c31 e_7_48B + c21 e_3_8B * c33 e_3_8B * c11 e_m1_48B * c13 e_m1_48B * c22 e_7_48B * c31 e_7_48B + c23 e_3_8B * c31 e_3_8B * c11 e_m1_48B * c12 e_m1_48B * c23 e_7_48B * c31 e_7_48B + c31 e_3_8B * c32 e_3_8B * c11 e_m1_48B * c13 e_m1_48B * c21 e_7_48B * c23 e_7_48B + c13 e_3_8B * c33 e_3_8B * c11 e_m1_48B * c31 e_m1_48B * c23 e_7_48B * c31 e_7_48B + c31 e_3_8B * c33 e_3_8B * c11 e_m1_48B * c13 e_m1_48B * c23 e_7_48B * c31 e_7_48B;
    RtoC 0;
    c12 e_3_8B * c12 e_3_8B * c11 e_m1_48B * c21 e_m1_48B * c21 e_7_48B * c21 e_7_48B + c11 e_3_8B * c11 e_3_8B * c11 e_m1_48B * c11 e_m1_48B * c11 e_7_48B * c21 e_7_48B + c11 e_3_8B * c22 e_3_8B * c11 e_m1_48B * c12 e_m1_48B * c21 e_7_48B * c21 e_7_48B + c11 e_3_8B * c32 e_3_8B * c11 e_m1_48B * c13 e_m1_48B * c21 e_7_48B * c21 e_7_48B + c12 e_3_8B * c13 e_3_8B * c11 e_m1_48B * c31 e_m1_48B * c21 e_7_48B * c21 e_7_48B + c21 e_3_8B * c21 e_3_8B * c11 e_m1_48B * c12 e_m1_48B * c11 e_7_48B * c22 e_7_48B + c31 e_3_8B * c31 e_3_8B * c11 e_m1_48B * c13 e_m1_48B * c11 e_7_48B * c23 e_7_48B + c22 e_3_8B * c22 e_3_8B * c12 e_m1_48B * c21 e_m1_48B * c21 e_7_48B * c22 e_7_48B + c13 e_3_8B * c13 e_3_8B * c11 e_m1_48B * c31 e_m1_48B * c21 e_7_48B * c31 e_7_48B + c32 e_3_8B * c32 e_3_8B * c13 e_m1_48B * c21 e_m1_48B * c21 e_7_48B * c23 e_7_48B + c23 e_3_8B * c23 e_3_8B * c12 e_m1_48B * c31 e_m1_48B * c22 e_7_48B * c31 e_7_48B + c33 e_3_8B * c33 e_3_8B * c13 e_m1_48B * c31 e_m1_48B * c23 e_7_48B * c31 e_7_48B + c11 e_3_8B * c22 e_3_8B * c11 e_m1_48B * c21 e_m1_48B * c11 e_7_48B * c22 e_7_48B + c11 e_3_8B * c23 e_3_8B * c11 e_m1_48B * c12 e_m1_48B * c21 e_7_48B * c31 e_7_48B + c11 e_3_8B * c23 e_3_8B * c11 e_m1_48B * c31 e_m1_48B * c11 e_7_48B * c22 e_7_48B + c11 e_3_8B * c32 e_3_8B * c11 e_m1_48B * c21 e_m1_48B * c11 e_7_48B * c23 e_7_48B + c12 e_3_8B * c13 e_3_8B * c11 e_m1_48B * c21 e_m1_48B * c21 e_7_48B * c31 e_7_48B + c21 e_3_8B * c31 e_3_8B * c11 e_m1_48B * c12 e_m1_48B * c11 e_7_48B * c23 e_7_48B + c21 e_3_8B * c31 e_3_8B * c11 e_m1_48B * c13 e_m1_48B * c11 e_7_48B * c22 e_7_48B + c11 e_3_8B * c33 e_3_8B * c11 e_m1_48B * c13 e_m1_48B * c21 e_7_48B * c31 e_7_48B + c11 e_3_8B * c33 e_3_8B * c11 e_m1_48B * c31 e_m1_48B * c11 e_7_48B * c23 e_7_48B + c22 e_3_8B * c23 e_3_8B * c12 e_m1_48B * c21 e_m1_48B * c22 e_7_48B * c31 e_7_48B + c22 e_3_8B * c23 e_3_8B * c12 e_m1_48B * c31 e_m1_48B * c21 e_7_48B * c22 e_7_48B + c22 e_3_8B * c32 e_3_8B * c12 e_m1_48B * c21 e_m1_48B * c21 e_7_48B * c23 e_7_48B + c22 e_3_8B * c32 e_3_8B * c13 e_m1_48B * c21 e_m1_48B * c21 e_7_48B * c22 e_7_48B + c22 e_3_8B * c33 e_3_8B * c12 e_m1_48B * c31 e_m1_48B * c21 e_7_48B * c23 e_7_48B + c22 e_3_8B * c33 e_3_8B * c13 e_m1_48B * c21 e_m1_48B * c22 e_7_48B * c31 e_7_48B + c23 e_3_8B * c32 e_3_8B * c12 e_m1_48B * c21 e_m1_48B * c23 e_7_48B * c31 e_7_48B + c23 e_3_8B * c32 e_3_8B * c13 e_m1_48B * c31 e_m1_48B * c21 e_7_48B * c22 e_7_48B + c23 e_3_8B * c33 e_3_8B * c12 e_m1_48B * c31 e_m1_48B * c23 e_7_48B * c31 e_7_48B + c23 e_3_8B * c33 e_3_8B * c13 e_m1_48B * c31 e_m1_48B * c22 e_7_48B * c31 e_7_48B + c32 e_3_8B * c33 e_3_8B * c13 e_m1_48B * c21 e_m1_48B * c23 e_7_48B * c31 e_7_48B + c32 e_3_8B * c33 e_3_8B * c13 e_m1_48B * c31 e_m1_48B * c21 e_7_48B * c23 e_7_48B;
    RtoC 0;
    c12 e_3_8B * c22 e_3_8B * c12 e_m1_48B * c21 e_m1_48B * c21 e_7_48B * c21 e_7_48B + c12 e_3_8B * c32 e_3_8B * c13 e_m1_48B * c21 e_m1_48B * c21 e_7_48B * c21 e_7_48B + c13 e_3_8B * c22 e_3_8B * c12 e_m1_48B * c31 e_m1_48B * c21 e_7_48B * c21 e_7_48B + c13 e_3_8B * c32 e_3_8B * c13 e_m1_48B * c31 e_m1_48B * c21 e_7_48B * c21 e_7_48B + c11 e_3_8B * c12 e_3_8B * c11 e_m1_48B * c21 e_m1_48B * c11 e_7_48B * c21 e_7_48B + c11 e_3_8B * c21 e_3_8B * c11 e_m1_48B * c12 e_m1_48B * c11 e_7_48B * c21 e_7_48B + c11 e_3_8B * c13 e_3_8B * c11 e_m1_48B * c31 e_m1_48B * c11 e_7_48B * c21 e_7_48B + c11 e_3_8B * c31 e_3_8B * c11 e_m1_48B * c13 e_m1_48B * c11 e_7_48B * c21 e_7_48B + c21 e_3_8B * c22 e_3_8B * c12 e_m1_48B * c21 e_m1_48B * c11 e_7_48B * c22 e_7_48B + c12 e_3_8B * c23 e_3_8B * c12 e_m1_48B * c21 e_m1_48B * c21 e_7_48B * c31 e_7_48B + c21 e_3_8B * c23 e_3_8B * c12 e_m1_48B * c31 e_m1_48B * c11 e_7_48B * c22 e_7_48B + c21 e_3_8B * c32 e_3_8B * c12 e_m1_48B * c21 e_m1_48B * c11 e_7_48B * c23 e_7_48B + c22 e_3_8B * c31 e_3_8B * c13 e_m1_48B * c21 e_m1_48B * c11 e_7_48B * c22 e_7_48B + c12 e_3_8B * c33 e_3_8B * c13 e_m1_48B * c21 e_m1_48B * c21 e_7_48B * c31 e_7_48B + c13 e_3_8B * c23 e_3_8B * c12 e_m1_48B * c31 e_m1_48B * c21 e_7_48B * c31 e_7_48B + c21 e_3_8B * c33 e_3_8B * c12 e_m1_48B * c31 e_m1_48B * c11 e_7_48B * c23 e_7_48B + c23 e_3_8B * c31 e_3_8B * c13 e_m1_48B * c31 e_m1_48B * c11 e_7_48B * c22 e_7_48B + c31 e_3_8B * c32 e_3_8B * c13 e_m1_48B * c21 e_m1_48B * c11 e_7_48B * c23 e_7_48B + c13 e_3_8B * c33 e_3_8B * c13 e_m1_48B * c31 e_m1_48B * c21 e_7_48B * c31 e_7_48B + c31 e_3_8B * c33 e_3_8B * c13 e_m1_48B * c31 e_m1_48B * c11 e_7_48B * c23 e_7_48B;
    RtoC 0;
    c12 e_3_8B * c21 e_3_8B * c12 e_m1_48B * c21 e_m1_48B * c11 e_7_48B * c21 e_7_48B + c12 e_3_8B * c31 e_3_8B * c13 e_m1_48B * c21 e_m1_48B * c11 e_7_48B * c21 e_7_48B + c13 e_3_8B * c21 e_3_8B * c12 e_m1_48B * c31 e_m1_48B * c11 e_7_48B * c21 e_7_48B + c13 e_3_8B * c31 e_3_8B * c13 e_m1_48B * c31 e_m1_48B * c11 e_7_48B * c21 e_7_48B];
   [c12 e_3_8B * c21 e_3_8B * c12 e_m1_48B * c21 e_m1_48B * c22 e_7_48B * c22 e_7_48B + c12 e_3_8B * c21 e_3_8B * c13 e_m1_48B * c31 e_m1_48B * c22 e_7_48B * c22 e_7_48B + c12 e_3_8B * c31 e_3_8B * c12 e_m1_48B * c21 e_m1_48B * c22 e_7_48B * c23 e_7_48B + c13 e_3_8B * c21 e_3_8B * c12 e_m1_48B * c21 e_m1_48B * c22 e_7_48B * c32 e_7_48B + c12 e_3_8B * c31 e_3_8B * c13 e_m1_48B * c31 e_m1_48B * c22 e_7_48B * c23 e_7_48B + c13 e_3_8B * c21 e_3_8B * c13 e_m1_48B * c31 e_m1_48B * c22 e_7_48B * c32 e_7_48B + c13 e_3_8B * c31 e_3_8B * c12 e_m1_48B * c21 e_m1_48B * c23 e_7_48B * c32 e_7_48B + c13 e_3_8B * c31 e_3_8B * c13 e_m1_48B * c31 e_m1_48B * c23 e_7_48B * c32 e_7_48B;
    RtoC 0;
    c12 e_3_8B * c22 e_3_8B * c21 e_m1_48B * c22 e_m1_48B * c22 e_7_48B * c22 e_7_48B + c21 e_3_8B * c22 e_3_8B * c12 e_m1_48B * c22 e_m1_48B * c22 e_7_48B * c22 e_7_48B + c12 e_3_8B * c22 e_3_8B * c23 e_m1_48B * c31 e_m1_48B * c22 e_7_48B * c22 e_7_48B + c12 e_3_8B * c23 e_3_8B * c21 e_m1_48B * c32 e_m1_48B * c22 e_7_48B * c22 e_7_48B + c21 e_3_8B * c22 e_3_8B * c13 e_m1_48B * c32 e_m1_48B * c22 e_7_48B * c22 e_7_48B + c21 e_3_8B * c32 e_3_8B * c12 e_m1_48B * c23 e_m1_48B * c22 e_7_48B * c22 e_7_48B + c12 e_3_8B * c23 e_3_8B * c31 e_m1_48B * c33 e_m1_48B * c22 e_7_48B * c22 e_7_48B + c21 e_3_8B * c32 e_3_8B * c13 e_m1_48B * c33 e_m1_48B * c22 e_7_48B * c22 e_7_48B + c11 e_3_8B * c12 e_3_8B * c12 e_m1_48B * c21 e_m1_48B * c21 e_7_48B * c22 e_7_48B + c11 e_3_8B * c21 e_3_8B * c12 e_m1_48B * c21 e_m1_48B * c12 e_7_48B * c22 e_7_48B + c11 e_3_8B * c12 e_3_8B * c13 e_m1_48B * c31 e_m1_48B * c21 e_7_48B * c22 e_7_48B + c11 e_3_8B * c13 e_3_8B * c12 e_m1_48B * c21 e_m1_48B * c21 e_7_48B * c32 e_7_48B + c11 e_3_8B * c21 e_3_8B * c13 e_m1_48B * c31 e_m1_48B * c12 e_7_48B * c22 e_7_48B + c11 e_3_8B * c31 e_3_8B * c12 e_m1_48B * c21 e_m1_48B * c12 e_7_48B * c23 e_7_48B + c11 e_3_8B * c13 e_3_8B * c13 e_m1_48B * c31 e_m1_48B * c21 e_7_48B * c32 e_7_48B + c11 e_3_8B * c31 e_3_8B * c13 e_m1_48B * c31 e_m1_48B * c12 e_7_48B * c23 e_7_48B + c12 e_3_8B * c32 e_3_8B * c21 e_m1_48B * c22 e_m1_48B * c22 e_7_48B * c23 e_7_48B + c13 e_3_8B * c22 e_3_8B * c21 e_m1_48B * c22 e_m1_48B * c22 e_7_48B * c32 e_7_48B + c21 e_3_8B * c23 e_3_8B * c12 e_m1_48B * c22 e_m1_48B * c22 e_7_48B * c32 e_7_48B + c22 e_3_8B * c31 e_3_8B * c12 e_m1_48B * c22 e_m1_48B * c22 e_7_48B * c23 e_7_48B + c12 e_3_8B * c32 e_3_8B * c23 e_m1_48B * c31 e_m1_48B * c22 e_7_48B * c23 e_7_48B + c12 e_3_8B * c33 e_3_8B * c21 e_m1_48B * c32 e_m1_48B * c22 e_7_48B * c23 e_7_48B + c13 e_3_8B * c22 e_3_8B * c23 e_m1_48B * c31 e_m1_48B * c22 e_7_48B * c32 e_7_48B + c13 e_3_8B * c23 e_3_8B * c21 e_m1_48B * c32 e_m1_48B * c22 e_7_48B * c32 e_7_48B + c13 e_3_8B * c32 e_3_8B * c21 e_m1_48B * c22 e_m1_48B * c23 e_7_48B * c32 e_7_48B + c21 e_3_8B * c23 e_3_8B * c13 e_m1_48B * c32 e_m1_48B * c22 e_7_48B * c32 e_7_48B + c21 e_3_8B * c33 e_3_8B * c12 e_m1_48B * c23 e_m1_48B * c22 e_7_48B * c32 e_7_48B + c22 e_3_8B * c31 e_3_8B * c13 e_m1_48B * c32 e_m1_48B * c22 e_7_48B * c23 e_7_48B + c23 e_3_8B * c31 e_3_8B * c12 e_m1_48B * c22 e_m1_48B * c23 e_7_48B * c32 e_7_48B + c31 e_3_8B * c32 e_3_8B * c12 e_m1_48B * c23 e_m1_48B * c22 e_7_48B * c23 e_7_48B + c12 e_3_8B * c33 e_3_8B * c31 e_m1_48B * c33 e_m1_48B * c22 e_7_48B * c23 e_7_48B + c13 e_3_8B * c23 e_3_8B * c31 e_m1_48B * c33 e_m1_48B * c22 e_7_48B * c32 e_7_48B + c13 e_3_8B * c32 e_3_8B * c23 e_m1_48B * c31 e_m1_48B * c23 e_7_48B * c32 e_7_48B + c13 e_3_8B * c33 e_3_8B * c21 e_m1_48B * c32 e_m1_48B * c23 e_7_48B * c32 e_7_48B + c21 e_3_8B * c33 e_3_8B * c13 e_m1_48B * c33 e_m1_48B * c22 e_7_48B * c32 e_7_48B + c23 e_3_8B * c31 e_3_8B * c13 e_m1_48B * c32 e_m1_48B * c23 e_7_48B * c32 e_7_48B + c31 e_3_8B * c32 e_3_8B * c13 e_m1_48B * c33 e_m1_48B * c22 e_7_48B * c23 e_7_48B + c31 e_3_8B * c33 e_3_8B * c12 e_m1_48B * c23 e_m1_48B * c23 e_7_48B * c32 e_7_48B + c13 e_3_8B * c33 e_3_8B * c31 e_m1_48B * c33 e_m1_48B * c23 e_7_48B * c32 e_7_48B + c31 e_3_8B * c33 e_3_8B * c13 e_m1_48B * c33 e_m1_48B * c23 e_7_48B * c32 e_7_48B;
    RtoC 0;
    c22 e_3_8B * c22 e_3_8B * c22 e_m1_48B * c22 e_m1_48B * c22 e_7_48B * c22 e_7_48B + c23 e_3_8B * c32 e_3_8B * c33 e_m1_48B * c33 e_m1_48B * c22 e_7_48B * c22 e_7_48B + c22 e_3_8B * c22 e_3_8B * c23 e_m1_48B * c32 e_m1_48B * c22 e_7_48B * c22 e_7_48B + c33 e_3_8B * c33 e_3_8B * c33 e_m1_48B * c33 e_m1_48B * c23 e_7_48B * c32 e_7_48B + c22 e_3_8B * c23 e_3_8B * c22 e_m1_48B * c32 e_m1_48B * c22 e_7_48B * c22 e_7_48B + c22 e_3_8B * c32 e_3_8B * c22 e_m1_48B * c23 e_m1_48B * c22 e_7_48B * c22 e_7_48B + c22 e_3_8B * c23 e_3_8B * c32 e_m1_48B * c33 e_m1_48B * c22 e_7_48B * c22 e_7_48B + c22 e_3_8B * c32 e_3_8B * c23 e_m1_48B * c33 e_m1_48B * c22 e_7_48B * c22 e_7_48B + c23 e_3_8B * c32 e_3_8B * c23 e_m1_48B * c32 e_m1_48B * c22 e_7_48B * c22 e_7_48B + c22 e_3_8B * c23 e_3_8B * c22 e_m1_48B * c22 e_m1_48B * c22 e_7_48B * c32 e_7_48B + c22 e_3_8B * c32 e_3_8B * c22 e_m1_48B * c22 e_m1_48B * c22 e_7_48B * c23 e_7_48B + c23 e_3_8B * c32 e_3_8B * c22 e_m1_48B * c22 e_m1_48B * c23 e_7_48B * c32 e_7_48B + c23 e_3_8B * c33 e_3_8B * c33 e_m1_48B * c33 e_m1_48B * c22 e_7_48B * c32 e_7_48B + c32 e_3_8B * c33 e_3_8B * c33 e_m1_48B * c33 e_m1_48B * c22 e_7_48B * c23 e_7_48B + c11 e_3_8B * c11 e_3_8B * c12 e_m1_48B * c21 e_m1_48B * c12 e_7_48B * c21 e_7_48B + c11 e_3_8B * c11 e_3_8B * c13 e_m1_48B * c31 e_m1_48B * c12 e_7_48B * c21 e_7_48B + c21 e_3_8B * c21 e_3_8B * c12 e_m1_48B * c22 e_m1_48B * c12 e_7_48B * c22 e_7_48B + c12 e_3_8B * c12 e_3_8B * c21 e_m1_48B * c22 e_m1_48B * c21 e_7_48B * c22 e_7_48B + c21 e_3_8B * c21 e_3_8B * c13 e_m1_48B * c32 e_m1_48B * c12 e_7_48B * c22 e_7_48B + c31 e_3_8B * c31 e_3_8B * c12 e_m1_48B * c23 e_m1_48B * c12 e_7_48B * c23 e_7_48B + c12 e_3_8B * c12 e_3_8B * c23 e_m1_48B * c31 e_m1_48B * c21 e_7_48B * c22 e_7_48B + c31 e_3_8B * c31 e_3_8B * c13 e_m1_48B * c33 e_m1_48B * c12 e_7_48B * c23 e_7_48B + c13 e_3_8B * c13 e_3_8B * c21 e_m1_48B * c32 e_m1_48B * c21 e_7_48B * c32 e_7_48B + c32 e_3_8B * c32 e_3_8B * c22 e_m1_48B * c23 e_m1_48B * c22 e_7_48B * c23 e_7_48B + c13 e_3_8B * c13 e_3_8B * c31 e_m1_48B * c33 e_m1_48B * c21 e_7_48B * c32 e_7_48B + c23 e_3_8B * c23 e_3_8B * c22 e_m1_48B * c32 e_m1_48B * c22 e_7_48B * c32 e_7_48B + c32 e_3_8B * c32 e_3_8B * c23 e_m1_48B * c33 e_m1_48B * c22 e_7_48B * c23 e_7_48B + c23 e_3_8B * c23 e_3_8B * c32 e_m1_48B * c33 e_m1_48B * c22 e_7_48B * c32 e_7_48B + c33 e_3_8B * c33 e_3_8B * c23 e_m1_48B * c32 e_m1_48B * c23 e_7_48B * c32 e_7_48B + c11 e_3_8B * c22 e_3_8B * c12 e_m1_48B * c22 e_m1_48B * c21 e_7_48B * c22 e_7_48B + c11 e_3_8B * c22 e_3_8B * c21 e_m1_48B * c22 e_m1_48B * c12 e_7_48B * c22 e_7_48B + c11 e_3_8B * c22 e_3_8B * c13 e_m1_48B * c32 e_m1_48B * c21 e_7_48B * c22 e_7_48B + c11 e_3_8B * c22 e_3_8B * c23 e_m1_48B * c31 e_m1_48B * c12 e_7_48B * c22 e_7_48B + c11 e_3_8B * c23 e_3_8B * c12 e_m1_48B * c22 e_m1_48B * c21 e_7_48B * c32 e_7_48B + c11 e_3_8B * c23 e_3_8B * c21 e_m1_48B * c32 e_m1_48B * c12 e_7_48B * c22 e_7_48B + c11 e_3_8B * c32 e_3_8B * c12 e_m1_48B * c23 e_m1_48B * c21 e_7_48B * c22 e_7_48B + c11 e_3_8B * c32 e_3_8B * c21 e_m1_48B * c22 e_m1_48B * c12 e_7_48B * c23 e_7_48B + c12 e_3_8B * c13 e_3_8B * c21 e_m1_48B * c22 e_m1_48B * c21 e_7_48B * c32 e_7_48B + c12 e_3_8B * c13 e_3_8B * c21 e_m1_48B * c32 e_m1_48B * c21 e_7_48B * c22 e_7_48B + c21 e_3_8B * c31 e_3_8B * c12 e_m1_48B * c22 e_m1_48B * c12 e_7_48B * c23 e_7_48B + c21 e_3_8B * c31 e_3_8B * c12 e_m1_48B * c23 e_m1_48B * c12 e_7_48B * c22 e_7_48B + c11 e_3_8B * c23 e_3_8B * c13 e_m1_48B * c32 e_m1_48B * c21 e_7_48B * c32 e_7_48B + c11 e_3_8B * c23 e_3_8B * c31 e_m1_48B * c33 e_m1_48B * c12 e_7_48B * c22 e_7_48B + c11 e_3_8B * c32 e_3_8B * c13 e_m1_48B * c33 e_m1_48B * c21 e_7_48B * c22 e_7_48B + c11 e_3_8B * c32 e_3_8B * c23 e_m1_48B * c31 e_m1_48B * c12 e_7_48B * c23 e_7_48B + c11 e_3_8B * c33 e_3_8B * c12 e_m1_48B * c23 e_m1_48B * c21 e_7_48B * c32 e_7_48B + c11 e_3_8B * c33 e_3_8B * c21 e_m1_48B * c32 e_m1_48B * c12 e_7_48B * c23 e_7_48B + c12 e_3_8B * c13 e_3_8B * c23 e_m1_48B * c31 e_m1_48B * c21 e_7_48B * c32 e_7_48B + c12 e_3_8B * c13 e_3_8B * c31 e_m1_48B * c33 e_m1_48B * c21 e_7_48B * c22 e_7_48B + c21 e_3_8B * c31 e_3_8B * c13 e_m1_48B * c32 e_m1_48B * c12 e_7_48B * c23 e_7_48B + c21 e_3_8B * c31 e_3_8B * c13 e_m1_48B * c33 e_m1_48B * c12 e_7_48B * c22 e_7_48B + c11 e_3_8B * c33 e_3_8B * c13 e_m1_48B * c33 e_m1_48B * c21 e_7_48B * c32 e_7_48B + c11 e_3_8B * c33 e_3_8B * c31 e_m1_48B * c33 e_m1_48B * c12 e_7_48B * c23 e_7_48B + c22 e_3_8B * c23 e_3_8B * c23 e_m1_48B * c32 e_m1_48B * c22 e_7_48B * c32 e_7_48B + c22 e_3_8B * c32 e_3_8B * c23 e_m1_48B * c32 e_m1_48B * c22 e_7_48B * c23 e_7_48B + c22 e_3_8B * c33 e_3_8B * c22 e_m1_48B * c23 e_m1_48B * c22 e_7_48B * c32 e_7_48B + c22 e_3_8B * c33 e_3_8B * c22 e_m1_48B * c32 e_m1_48B * c22 e_7_48B * c23 e_7_48B + c22 e_3_8B * c33 e_3_8B * c23 e_m1_48B * c33 e_m1_48B * c22 e_7_48B * c32 e_7_48B + c22 e_3_8B * c33 e_3_8B * c32 e_m1_48B * c33 e_m1_48B * c22 e_7_48B * c23 e_7_48B + c23 e_3_8B * c32 e_3_8B * c23 e_m1_48B * c32 e_m1_48B * c23 e_7_48B * c32 e_7_48B + c23 e_3_8B * c33 e_3_8B * c22 e_m1_48B * c32 e_m1_48B * c23 e_7_48B * c32 e_7_48B + c23 e_3_8B * c33 e_3_8B * c23 e_m1_48B * c32 e_m1_48B * c22 e_7_48B * c32 e_7_48B + c32 e_3_8B * c33 e_3_8B * c22 e_m1_48B * c23 e_m1_48B * c23 e_7_48B * c32 e_7_48B + c32 e_3_8B * c33 e_3_8B * c23 e_m1_48B * c32 e_m1_48B * c22 e_7_48B * c23 e_7_48B + c23 e_3_8B * c33 e_3_8B * c32 e_m1_48B * c33 e_m1_48B * c23 e_7_48B * c32 e_7_48B + c32 e_3_8B * c33 e_3_8B * c23 e_m1_48B * c33 e_m1_48B * c23 e_7_48B * c32 e_7_48B;
    RtoC 0;
    c12 e_3_8B * c21 e_3_8B * c11 e_m1_48B * c11 e_m1_48B * c22 e_7_48B * c22 e_7_48B + c12 e_3_8B * c22 e_3_8B * c22 e_m1_48B * c22 e_m1_48B * c21 e_7_48B * c22 e_7_48B + c12 e_3_8B * c31 e_3_8B * c11 e_m1_48B * c11 e_m1_48B * c22 e_7_48B * c23 e_7_48B + c13 e_3_8B * c21 e_3_8B * c11 e_m1_48B * c11 e_m1_48B * c22 e_7_48B * c32 e_7_48B + c21 e_3_8B * c22 e_3_8B * c22 e_m1_48B * c22 e_m1_48B * c12 e_7_48B * c22 e_7_48B + c12 e_3_8B * c23 e_3_8B * c22 e_m1_48B * c22 e_m1_48B * c21 e_7_48B * c32 e_7_48B + c13 e_3_8B * c31 e_3_8B * c11 e_m1_48B * c11 e_m1_48B * c23 e_7_48B * c32 e_7_48B + c21 e_3_8B * c32 e_3_8B * c22 e_m1_48B * c22 e_m1_48B * c12 e_7_48B * c23 e_7_48B + c13 e_3_8B * c32 e_3_8B * c33 e_m1_48B * c33 e_m1_48B * c21 e_7_48B * c22 e_7_48B + c23 e_3_8B * c31 e_3_8B * c33 e_m1_48B * c33 e_m1_48B * c12 e_7_48B * c22 e_7_48B + c13 e_3_8B * c33 e_3_8B * c33 e_m1_48B * c33 e_m1_48B * c21 e_7_48B * c32 e_7_48B + c31 e_3_8B * c33 e_3_8B * c33 e_m1_48B * c33 e_m1_48B * c12 e_7_48B * c23 e_7_48B + c11 e_3_8B * c12 e_3_8B * c21 e_m1_48B * c22 e_m1_48B * c12 e_7_48B * c21 e_7_48B + c11 e_3_8B * c21 e_3_8B * c12 e_m1_48B * c22 e_m1_48B * c12 e_7_48B * c21 e_7_48B + c11 e_3_8B * c12 e_3_8B * c23 e_m1_48B * c31 e_m1_48B * c12 e_7_48B * c21 e_7_48B + c11 e_3_8B * c13 e_3_8B * c21 e_m1_48B * c32 e_m1_48B * c12 e_7_48B * c21 e_7_48B + c11 e_3_8B * c21 e_3_8B * c13 e_m1_48B * c32 e_m1_48B * c12 e_7_48B * c21 e_7_48B + c11 e_3_8B * c31 e_3_8B * c12 e_m1_48B * c23 e_m1_48B * c12 e_7_48B * c21 e_7_48B + c11 e_3_8B * c13 e_3_8B * c31 e_m1_48B * c33 e_m1_48B * c12 e_7_48B * c21 e_7_48B + c11 e_3_8B * c31 e_3_8B * c13 e_m1_48B * c33 e_m1_48B * c12 e_7_48B * c21 e_7_48B + c12 e_3_8B * c22 e_3_8B * c23 e_m1_48B * c32 e_m1_48B * c21 e_7_48B * c22 e_7_48B + c12 e_3_8B * c32 e_3_8B * c22 e_m1_48B * c23 e_m1_48B * c21 e_7_48B * c22 e_7_48B + c13 e_3_8B * c22 e_3_8B * c22 e_m1_48B * c32 e_m1_48B * c21 e_7_48B * c22 e_7_48B + c21 e_3_8B * c22 e_3_8B * c23 e_m1_48B * c32 e_m1_48B * c12 e_7_48B * c22 e_7_48B + c21 e_3_8B * c23 e_3_8B * c22 e_m1_48B * c32 e_m1_48B * c12 e_7_48B * c22 e_7_48B + c22 e_3_8B * c31 e_3_8B * c22 e_m1_48B * c23 e_m1_48B * c12 e_7_48B * c22 e_7_48B + c12 e_3_8B * c23 e_3_8B * c23 e_m1_48B * c32 e_m1_48B * c21 e_7_48B * c32 e_7_48B + c12 e_3_8B * c32 e_3_8B * c23 e_m1_48B * c33 e_m1_48B * c21 e_7_48B * c22 e_7_48B + c12 e_3_8B * c33 e_3_8B * c22 e_m1_48B * c23 e_m1_48B * c21 e_7_48B * c32 e_7_48B + c13 e_3_8B * c22 e_3_8B * c32 e_m1_48B * c33 e_m1_48B * c21 e_7_48B * c22 e_7_48B + c13 e_3_8B * c23 e_3_8B * c22 e_m1_48B * c32 e_m1_48B * c21 e_7_48B * c32 e_7_48B + c13 e_3_8B * c32 e_3_8B * c23 e_m1_48B * c32 e_m1_48B * c21 e_7_48B * c22 e_7_48B + c21 e_3_8B * c23 e_3_8B * c32 e_m1_48B * c33 e_m1_48B * c12 e_7_48B * c22 e_7_48B + c21 e_3_8B * c32 e_3_8B * c23 e_m1_48B * c32 e_m1_48B * c12 e_7_48B * c23 e_7_48B + c21 e_3_8B * c33 e_3_8B * c22 e_m1_48B * c32 e_m1_48B * c12 e_7_48B * c23 e_7_48B + c22 e_3_8B * c31 e_3_8B * c23 e_m1_48B * c33 e_m1_48B * c12 e_7_48B * c22 e_7_48B + c23 e_3_8B * c31 e_3_8B * c23 e_m1_48B * c32 e_m1_48B * c12 e_7_48B * c22 e_7_48B + c31 e_3_8B * c32 e_3_8B * c22 e_m1_48B * c23 e_m1_48B * c12 e_7_48B * c23 e_7_48B + c12 e_3_8B * c33 e_3_8B * c23 e_m1_48B * c33 e_m1_48B * c21 e_7_48B * c32 e_7_48B + c13 e_3_8B * c23 e_3_8B * c32 e_m1_48B * c33 e_m1_48B * c21 e_7_48B * c32 e_7_48B + c13 e_3_8B * c33 e_3_8B * c23 e_m1_48B * c32 e_m1_48B * c21 e_7_48B * c32 e_7_48B + c21 e_3_8B * c33 e_3_8B * c32 e_m1_48B * c33 e_m1_48B * c12 e_7_48B * c23 e_7_48B + c31 e_3_8B * c32 e_3_8B * c23 e_m1_48B * c33 e_m1_48B * c12 e_7_48B * c23 e_7_48B + c31 e_3_8B * c33 e_3_8B * c23 e_m1_48B * c32 e_m1_48B * c12 e_7_48B * c23 e_7_48B;
    RtoC 0;
    c12 e_3_8B * c22 e_3_8B * c11 e_m1_48B * c21 e_m1_48B * c22 e_7_48B * c22 e_7_48B + c21 e_3_8B * c22 e_3_8B * c11 e_m1_48B * c12 e_m1_48B * c22 e_7_48B * c22 e_7_48B + c12 e_3_8B * c23 e_3_8B * c11 e_m1_48B * c31 e_m1_48B * c22 e_7_48B * c22 e_7_48B + c21 e_3_8B * c32 e_3_8B * c11 e_m1_48B * c13 e_m1_48B * c22 e_7_48B * c22 e_7_48B + c11 e_3_8B * c12 e_3_8B * c11 e_m1_48B * c11 e_m1_48B * c21 e_7_48B * c22 e_7_48B + c11 e_3_8B * c21 e_3_8B * c11 e_m1_48B * c11 e_m1_48B * c12 e_7_48B * c22 e_7_48B + c11 e_3_8B * c13 e_3_8B * c11 e_m1_48B * c11 e_m1_48B * c21 e_7_48B * c32 e_7_48B + c11 e_3_8B * c31 e_3_8B * c11 e_m1_48B * c11 e_m1_48B * c12 e_7_48B * c23 e_7_48B + c12 e_3_8B * c21 e_3_8B * c22 e_m1_48B * c22 e_m1_48B * c12 e_7_48B * c21 e_7_48B + c13 e_3_8B * c31 e_3_8B * c33 e_m1_48B * c33 e_m1_48B * c12 e_7_48B * c21 e_7_48B + c12 e_3_8B * c21 e_3_8B * c23 e_m1_48B * c32 e_m1_48B * c12 e_7_48B * c21 e_7_48B + c12 e_3_8B * c31 e_3_8B * c22 e_m1_48B * c23 e_m1_48B * c12 e_7_48B * c21 e_7_48B + c12 e_3_8B * c32 e_3_8B * c11 e_m1_48B * c21 e_m1_48B * c22 e_7_48B * c23 e_7_48B + c13 e_3_8B * c21 e_3_8B * c22 e_m1_48B * c32 e_m1_48B * c12 e_7_48B * c21 e_7_48B + c13 e_3_8B * c22 e_3_8B * c11 e_m1_48B * c21 e_m1_48B * c22 e_7_48B * c32 e_7_48B + c21 e_3_8B * c23 e_3_8B * c11 e_m1_48B * c12 e_m1_48B * c22 e_7_48B * c32 e_7_48B + c22 e_3_8B * c31 e_3_8B * c11 e_m1_48B * c12 e_m1_48B * c22 e_7_48B * c23 e_7_48B + c12 e_3_8B * c31 e_3_8B * c23 e_m1_48B * c33 e_m1_48B * c12 e_7_48B * c21 e_7_48B + c12 e_3_8B * c33 e_3_8B * c11 e_m1_48B * c31 e_m1_48B * c22 e_7_48B * c23 e_7_48B + c13 e_3_8B * c21 e_3_8B * c32 e_m1_48B * c33 e_m1_48B * c12 e_7_48B * c21 e_7_48B + c13 e_3_8B * c23 e_3_8B * c11 e_m1_48B * c31 e_m1_48B * c22 e_7_48B * c32 e_7_48B + c13 e_3_8B * c31 e_3_8B * c23 e_m1_48B * c32 e_m1_48B * c12 e_7_48B * c21 e_7_48B + c13 e_3_8B * c32 e_3_8B * c11 e_m1_48B * c21 e_m1_48B * c23 e_7_48B * c32 e_7_48B + c21 e_3_8B * c33 e_3_8B * c11 e_m1_48B * c13 e_m1_48B * c22 e_7_48B * c32 e_7_48B + c23 e_3_8B * c31 e_3_8B * c11 e_m1_48B * c12 e_m1_48B * c23 e_7_48B * c32 e_7_48B + c31 e_3_8B * c32 e_3_8B * c11 e_m1_48B * c13 e_m1_48B * c22 e_7_48B * c23 e_7_48B + c13 e_3_8B * c33 e_3_8B * c11 e_m1_48B * c31 e_m1_48B * c23 e_7_48B * c32 e_7_48B + c31 e_3_8B * c33 e_3_8B * c11 e_m1_48B * c13 e_m1_48B * c23 e_7_48B * c32 e_7_48B;
    RtoC 0;
    c22 e_3_8B * c22 e_3_8B * c12 e_m1_48B * c21 e_m1_48B * c22 e_7_48B * c22 e_7_48B + c11 e_3_8B * c11 e_3_8B * c11 e_m1_48B * c11 e_m1_48B * c12 e_7_48B * c21 e_7_48B + c22 e_3_8B * c23 e_3_8B * c12 e_m1_48B * c31 e_m1_48B * c22 e_7_48B * c22 e_7_48B + c22 e_3_8B * c32 e_3_8B * c13 e_m1_48B * c21 e_m1_48B * c22 e_7_48B * c22 e_7_48B + c23 e_3_8B * c32 e_3_8B * c13 e_m1_48B * c31 e_m1_48B * c22 e_7_48B * c22 e_7_48B + c21 e_3_8B * c21 e_3_8B * c11 e_m1_48B * c12 e_m1_48B * c12 e_7_48B * c22 e_7_48B + c12 e_3_8B * c12 e_3_8B * c11 e_m1_48B * c21 e_m1_48B * c21 e_7_48B * c22 e_7_48B + c31 e_3_8B * c31 e_3_8B * c11 e_m1_48B * c13 e_m1_48B * c12 e_7_48B * c23 e_7_48B + c13 e_3_8B * c13 e_3_8B * c11 e_m1_48B * c31 e_m1_48B * c21 e_7_48B * c32 e_7_48B + c32 e_3_8B * c32 e_3_8B * c13 e_m1_48B * c21 e_m1_48B * c22 e_7_48B * c23 e_7_48B + c23 e_3_8B * c23 e_3_8B * c12 e_m1_48B * c31 e_m1_48B * c22 e_7_48B * c32 e_7_48B + c33 e_3_8B * c33 e_3_8B * c13 e_m1_48B * c31 e_m1_48B * c23 e_7_48B * c32 e_7_48B + c11 e_3_8B * c22 e_3_8B * c11 e_m1_48B * c12 e_m1_48B * c21 e_7_48B * c22 e_7_48B + c11 e_3_8B * c22 e_3_8B * c11 e_m1_48B * c21 e_m1_48B * c12 e_7_48B * c22 e_7_48B + c11 e_3_8B * c23 e_3_8B * c11 e_m1_48B * c12 e_m1_48B * c21 e_7_48B * c32 e_7_48B + c11 e_3_8B * c23 e_3_8B * c11 e_m1_48B * c31 e_m1_48B * c12 e_7_48B * c22 e_7_48B + c11 e_3_8B * c32 e_3_8B * c11 e_m1_48B * c13 e_m1_48B * c21 e_7_48B * c22 e_7_48B + c11 e_3_8B * c32 e_3_8B * c11 e_m1_48B * c21 e_m1_48B * c12 e_7_48B * c23 e_7_48B + c12 e_3_8B * c13 e_3_8B * c11 e_m1_48B * c21 e_m1_48B * c21 e_7_48B * c32 e_7_48B + c12 e_3_8B * c13 e_3_8B * c11 e_m1_48B * c31 e_m1_48B * c21 e_7_48B * c22 e_7_48B + c21 e_3_8B * c31 e_3_8B * c11 e_m1_48B * c12 e_m1_48B * c12 e_7_48B * c23 e_7_48B + c21 e_3_8B * c31 e_3_8B * c11 e_m1_48B * c13 e_m1_48B * c12 e_7_48B * c22 e_7_48B + c11 e_3_8B * c33 e_3_8B * c11 e_m1_48B * c13 e_m1_48B * c21 e_7_48B * c32 e_7_48B + c11 e_3_8B * c33 e_3_8B * c11 e_m1_48B * c31 e_m1_48B * c12 e_7_48B * c23 e_7_48B + c22 e_3_8B * c23 e_3_8B * c12 e_m1_48B * c21 e_m1_48B * c22 e_7_48B * c32 e_7_48B + c22 e_3_8B * c32 e_3_8B * c12 e_m1_48B * c21 e_m1_48B * c22 e_7_48B * c23 e_7_48B + c22 e_3_8B * c33 e_3_8B * c12 e_m1_48B * c31 e_m1_48B * c22 e_7_48B * c23 e_7_48B + c22 e_3_8B * c33 e_3_8B * c13 e_m1_48B * c21 e_m1_48B * c22 e_7_48B * c32 e_7_48B + c23 e_3_8B * c32 e_3_8B * c12 e_m1_48B * c21 e_m1_48B * c23 e_7_48B * c32 e_7_48B + c23 e_3_8B * c33 e_3_8B * c12 e_m1_48B * c31 e_m1_48B * c23 e_7_48B * c32 e_7_48B + c23 e_3_8B * c33 e_3_8B * c13 e_m1_48B * c31 e_m1_48B * c22 e_7_48B * c32 e_7_48B + c32 e_3_8B * c33 e_3_8B * c13 e_m1_48B * c21 e_m1_48B * c23 e_7_48B * c32 e_7_48B + c32 e_3_8B * c33 e_3_8B * c13 e_m1_48B * c31 e_m1_48B * c22 e_7_48B * c23 e_7_48B;
    RtoC 0;
    c11 e_3_8B * c12 e_3_8B * c11 e_m1_48B * c21 e_m1_48B * c12 e_7_48B * c21 e_7_48B + c11 e_3_8B * c21 e_3_8B * c11 e_m1_48B * c12 e_m1_48B * c12 e_7_48B * c21 e_7_48B + c11 e_3_8B * c13 e_3_8B * c11 e_m1_48B * c31 e_m1_48B * c12 e_7_48B * c21 e_7_48B + c11 e_3_8B * c31 e_3_8B * c11 e_m1_48B * c13 e_m1_48B * c12 e_7_48B * c21 e_7_48B + c12 e_3_8B * c22 e_3_8B * c12 e_m1_48B * c21 e_m1_48B * c21 e_7_48B * c22 e_7_48B + c21 e_3_8B * c22 e_3_8B * c12 e_m1_48B * c21 e_m1_48B * c12 e_7_48B * c22 e_7_48B + c12 e_3_8B * c23 e_3_8B * c12 e_m1_48B * c21 e_m1_48B * c21 e_7_48B * c32 e_7_48B + c12 e_3_8B * c32 e_3_8B * c13 e_m1_48B * c21 e_m1_48B * c21 e_7_48B * c22 e_7_48B + c13 e_3_8B * c22 e_3_8B * c12 e_m1_48B * c31 e_m1_48B * c21 e_7_48B * c22 e_7_48B + c21 e_3_8B * c23 e_3_8B * c12 e_m1_48B * c31 e_m1_48B * c12 e_7_48B * c22 e_7_48B + c21 e_3_8B * c32 e_3_8B * c12 e_m1_48B * c21 e_m1_48B * c12 e_7_48B * c23 e_7_48B + c22 e_3_8B * c31 e_3_8B * c13 e_m1_48B * c21 e_m1_48B * c12 e_7_48B * c22 e_7_48B + c12 e_3_8B * c33 e_3_8B * c13 e_m1_48B * c21 e_m1_48B * c21 e_7_48B * c32 e_7_48B + c13 e_3_8B * c23 e_3_8B * c12 e_m1_48B * c31 e_m1_48B * c21 e_7_48B * c32 e_7_48B + c13 e_3_8B * c32 e_3_8B * c13 e_m1_48B * c31 e_m1_48B * c21 e_7_48B * c22 e_7_48B + c21 e_3_8B * c33 e_3_8B * c12 e_m1_48B * c31 e_m1_48B * c12 e_7_48B * c23 e_7_48B + c23 e_3_8B * c31 e_3_8B * c13 e_m1_48B * c31 e_m1_48B * c12 e_7_48B * c22 e_7_48B + c31 e_3_8B * c32 e_3_8B * c13 e_m1_48B * c21 e_m1_48B * c12 e_7_48B * c23 e_7_48B + c13 e_3_8B * c33 e_3_8B * c13 e_m1_48B * c31 e_m1_48B * c21 e_7_48B * c32 e_7_48B + c31 e_3_8B * c33 e_3_8B * c13 e_m1_48B * c31 e_m1_48B * c12 e_7_48B * c23 e_7_48B;
    RtoC 0;
    c12 e_3_8B * c21 e_3_8B * c12 e_m1_48B * c21 e_m1_48B * c12 e_7_48B * c21 e_7_48B + c12 e_3_8B * c31 e_3_8B * c13 e_m1_48B * c21 e_m1_48B * c12 e_7_48B * c21 e_7_48B + c13 e_3_8B * c21 e_3_8B * c12 e_m1_48B * c31 e_m1_48B * c12 e_7_48B * c21 e_7_48B + c13 e_3_8B * c31 e_3_8B * c13 e_m1_48B * c31 e_m1_48B * c12 e_7_48B * c21 e_7_48B];
   [c12 e_3_8B * c31 e_3_8B * c12 e_m1_48B * c21 e_m1_48B * c23 e_7_48B * c23 e_7_48B + c12 e_3_8B * c31 e_3_8B * c13 e_m1_48B * c31 e_m1_48B * c23 e_7_48B * c23 e_7_48B + c12 e_3_8B * c21 e_3_8B * c12 e_m1_48B * c21 e_m1_48B * c22 e_7_48B * c23 e_7_48B + c12 e_3_8B * c21 e_3_8B * c13 e_m1_48B * c31 e_m1_48B * c22 e_7_48B * c23 e_7_48B + c13 e_3_8B * c21 e_3_8B * c12 e_m1_48B * c21 e_m1_48B * c22 e_7_48B * c33 e_7_48B + c13 e_3_8B * c21 e_3_8B * c13 e_m1_48B * c31 e_m1_48B * c22 e_7_48B * c33 e_7_48B + c13 e_3_8B * c31 e_3_8B * c12 e_m1_48B * c21 e_m1_48B * c23 e_7_48B * c33 e_7_48B + c13 e_3_8B * c31 e_3_8B * c13 e_m1_48B * c31 e_m1_48B * c23 e_7_48B * c33 e_7_48B;
    RtoC 0;
    c12 e_3_8B * c32 e_3_8B * c21 e_m1_48B * c22 e_m1_48B * c23 e_7_48B * c23 e_7_48B + c22 e_3_8B * c31 e_3_8B * c12 e_m1_48B * c22 e_m1_48B * c23 e_7_48B * c23 e_7_48B + c12 e_3_8B * c32 e_3_8B * c23 e_m1_48B * c31 e_m1_48B * c23 e_7_48B * c23 e_7_48B + c12 e_3_8B * c33 e_3_8B * c21 e_m1_48B * c32 e_m1_48B * c23 e_7_48B * c23 e_7_48B + c22 e_3_8B * c31 e_3_8B * c13 e_m1_48B * c32 e_m1_48B * c23 e_7_48B * c23 e_7_48B + c31 e_3_8B * c32 e_3_8B * c12 e_m1_48B * c23 e_m1_48B * c23 e_7_48B * c23 e_7_48B + c12 e_3_8B * c33 e_3_8B * c31 e_m1_48B * c33 e_m1_48B * c23 e_7_48B * c23 e_7_48B + c31 e_3_8B * c32 e_3_8B * c13 e_m1_48B * c33 e_m1_48B * c23 e_7_48B * c23 e_7_48B + c11 e_3_8B * c12 e_3_8B * c12 e_m1_48B * c21 e_m1_48B * c21 e_7_48B * c23 e_7_48B + c11 e_3_8B * c21 e_3_8B * c12 e_m1_48B * c21 e_m1_48B * c13 e_7_48B * c22 e_7_48B + c11 e_3_8B * c12 e_3_8B * c13 e_m1_48B * c31 e_m1_48B * c21 e_7_48B * c23 e_7_48B + c11 e_3_8B * c13 e_3_8B * c12 e_m1_48B * c21 e_m1_48B * c21 e_7_48B * c33 e_7_48B + c11 e_3_8B * c21 e_3_8B * c13 e_m1_48B * c31 e_m1_48B * c13 e_7_48B * c22 e_7_48B + c11 e_3_8B * c31 e_3_8B * c12 e_m1_48B * c21 e_m1_48B * c13 e_7_48B * c23 e_7_48B + c11 e_3_8B * c13 e_3_8B * c13 e_m1_48B * c31 e_m1_48B * c21 e_7_48B * c33 e_7_48B + c11 e_3_8B * c31 e_3_8B * c13 e_m1_48B * c31 e_m1_48B * c13 e_7_48B * c23 e_7_48B + c12 e_3_8B * c22 e_3_8B * c21 e_m1_48B * c22 e_m1_48B * c22 e_7_48B * c23 e_7_48B + c21 e_3_8B * c22 e_3_8B * c12 e_m1_48B * c22 e_m1_48B * c22 e_7_48B * c23 e_7_48B + c12 e_3_8B * c22 e_3_8B * c23 e_m1_48B * c31 e_m1_48B * c22 e_7_48B * c23 e_7_48B + c12 e_3_8B * c23 e_3_8B * c21 e_m1_48B * c32 e_m1_48B * c22 e_7_48B * c23 e_7_48B + c13 e_3_8B * c22 e_3_8B * c21 e_m1_48B * c22 e_m1_48B * c22 e_7_48B * c33 e_7_48B + c21 e_3_8B * c22 e_3_8B * c13 e_m1_48B * c32 e_m1_48B * c22 e_7_48B * c23 e_7_48B + c21 e_3_8B * c23 e_3_8B * c12 e_m1_48B * c22 e_m1_48B * c22 e_7_48B * c33 e_7_48B + c21 e_3_8B * c32 e_3_8B * c12 e_m1_48B * c23 e_m1_48B * c22 e_7_48B * c23 e_7_48B + c12 e_3_8B * c23 e_3_8B * c31 e_m1_48B * c33 e_m1_48B * c22 e_7_48B * c23 e_7_48B + c13 e_3_8B * c22 e_3_8B * c23 e_m1_48B * c31 e_m1_48B * c22 e_7_48B * c33 e_7_48B + c13 e_3_8B * c23 e_3_8B * c21 e_m1_48B * c32 e_m1_48B * c22 e_7_48B * c33 e_7_48B + c13 e_3_8B * c32 e_3_8B * c21 e_m1_48B * c22 e_m1_48B * c23 e_7_48B * c33 e_7_48B + c21 e_3_8B * c23 e_3_8B * c13 e_m1_48B * c32 e_m1_48B * c22 e_7_48B * c33 e_7_48B + c21 e_3_8B * c32 e_3_8B * c13 e_m1_48B * c33 e_m1_48B * c22 e_7_48B * c23 e_7_48B + c21 e_3_8B * c33 e_3_8B * c12 e_m1_48B * c23 e_m1_48B * c22 e_7_48B * c33 e_7_48B + c23 e_3_8B * c31 e_3_8B * c12 e_m1_48B * c22 e_m1_48B * c23 e_7_48B * c33 e_7_48B + c13 e_3_8B * c23 e_3_8B * c31 e_m1_48B * c33 e_m1_48B * c22 e_7_48B * c33 e_7_48B + c13 e_3_8B * c32 e_3_8B * c23 e_m1_48B * c31 e_m1_48B * c23 e_7_48B * c33 e_7_48B + c13 e_3_8B * c33 e_3_8B * c21 e_m1_48B * c32 e_m1_48B * c23 e_7_48B * c33 e_7_48B + c21 e_3_8B * c33 e_3_8B * c13 e_m1_48B * c33 e_m1_48B * c22 e_7_48B * c33 e_7_48B + c23 e_3_8B * c31 e_3_8B * c13 e_m1_48B * c32 e_m1_48B * c23 e_7_48B * c33 e_7_48B + c31 e_3_8B * c33 e_3_8B * c12 e_m1_48B * c23 e_m1_48B * c23 e_7_48B * c33 e_7_48B + c13 e_3_8B * c33 e_3_8B * c31 e_m1_48B * c33 e_m1_48B * c23 e_7_48B * c33 e_7_48B + c31 e_3_8B * c33 e_3_8B * c13 e_m1_48B * c33 e_m1_48B * c23 e_7_48B * c33 e_7_48B;
    RtoC 0;
    c22 e_3_8B * c32 e_3_8B * c22 e_m1_48B * c22 e_m1_48B * c23 e_7_48B * c23 e_7_48B + c32 e_3_8B * c33 e_3_8B * c33 e_m1_48B * c33 e_m1_48B * c23 e_7_48B * c23 e_7_48B + c32 e_3_8B * c32 e_3_8B * c22 e_m1_48B * c23 e_m1_48B * c23 e_7_48B * c23 e_7_48B + c32 e_3_8B * c32 e_3_8B * c23 e_m1_48B * c33 e_m1_48B * c23 e_7_48B * c23 e_7_48B + c22 e_3_8B * c22 e_3_8B * c22 e_m1_48B * c22 e_m1_48B * c22 e_7_48B * c23 e_7_48B + c33 e_3_8B * c33 e_3_8B * c33 e_m1_48B * c33 e_m1_48B * c23 e_7_48B * c33 e_7_48B + c22 e_3_8B * c32 e_3_8B * c23 e_m1_48B * c32 e_m1_48B * c23 e_7_48B * c23 e_7_48B + c22 e_3_8B * c33 e_3_8B * c22 e_m1_48B * c32 e_m1_48B * c23 e_7_48B * c23 e_7_48B + c22 e_3_8B * c33 e_3_8B * c32 e_m1_48B * c33 e_m1_48B * c23 e_7_48B * c23 e_7_48B + c32 e_3_8B * c33 e_3_8B * c23 e_m1_48B * c32 e_m1_48B * c23 e_7_48B * c23 e_7_48B + c22 e_3_8B * c23 e_3_8B * c22 e_m1_48B * c22 e_m1_48B * c22 e_7_48B * c33 e_7_48B + c23 e_3_8B * c32 e_3_8B * c22 e_m1_48B * c22 e_m1_48B * c23 e_7_48B * c33 e_7_48B + c23 e_3_8B * c32 e_3_8B * c33 e_m1_48B * c33 e_m1_48B * c22 e_7_48B * c23 e_7_48B + c23 e_3_8B * c33 e_3_8B * c33 e_m1_48B * c33 e_m1_48B * c22 e_7_48B * c33 e_7_48B + c11 e_3_8B * c11 e_3_8B * c12 e_m1_48B * c21 e_m1_48B * c13 e_7_48B * c21 e_7_48B + c11 e_3_8B * c11 e_3_8B * c13 e_m1_48B * c31 e_m1_48B * c13 e_7_48B * c21 e_7_48B + c21 e_3_8B * c21 e_3_8B * c12 e_m1_48B * c22 e_m1_48B * c13 e_7_48B * c22 e_7_48B + c12 e_3_8B * c12 e_3_8B * c21 e_m1_48B * c22 e_m1_48B * c21 e_7_48B * c23 e_7_48B + c21 e_3_8B * c21 e_3_8B * c13 e_m1_48B * c32 e_m1_48B * c13 e_7_48B * c22 e_7_48B + c31 e_3_8B * c31 e_3_8B * c12 e_m1_48B * c23 e_m1_48B * c13 e_7_48B * c23 e_7_48B + c12 e_3_8B * c12 e_3_8B * c23 e_m1_48B * c31 e_m1_48B * c21 e_7_48B * c23 e_7_48B + c31 e_3_8B * c31 e_3_8B * c13 e_m1_48B * c33 e_m1_48B * c13 e_7_48B * c23 e_7_48B + c13 e_3_8B * c13 e_3_8B * c21 e_m1_48B * c32 e_m1_48B * c21 e_7_48B * c33 e_7_48B + c22 e_3_8B * c22 e_3_8B * c23 e_m1_48B * c32 e_m1_48B * c22 e_7_48B * c23 e_7_48B + c13 e_3_8B * c13 e_3_8B * c31 e_m1_48B * c33 e_m1_48B * c21 e_7_48B * c33 e_7_48B + c23 e_3_8B * c23 e_3_8B * c22 e_m1_48B * c32 e_m1_48B * c22 e_7_48B * c33 e_7_48B + c23 e_3_8B * c23 e_3_8B * c32 e_m1_48B * c33 e_m1_48B * c22 e_7_48B * c33 e_7_48B + c33 e_3_8B * c33 e_3_8B * c23 e_m1_48B * c32 e_m1_48B * c23 e_7_48B * c33 e_7_48B + c11 e_3_8B * c22 e_3_8B * c12 e_m1_48B * c22 e_m1_48B * c21 e_7_48B * c23 e_7_48B + c11 e_3_8B * c22 e_3_8B * c21 e_m1_48B * c22 e_m1_48B * c13 e_7_48B * c22 e_7_48B + c11 e_3_8B * c22 e_3_8B * c13 e_m1_48B * c32 e_m1_48B * c21 e_7_48B * c23 e_7_48B + c11 e_3_8B * c22 e_3_8B * c23 e_m1_48B * c31 e_m1_48B * c13 e_7_48B * c22 e_7_48B + c11 e_3_8B * c23 e_3_8B * c12 e_m1_48B * c22 e_m1_48B * c21 e_7_48B * c33 e_7_48B + c11 e_3_8B * c23 e_3_8B * c21 e_m1_48B * c32 e_m1_48B * c13 e_7_48B * c22 e_7_48B + c11 e_3_8B * c32 e_3_8B * c12 e_m1_48B * c23 e_m1_48B * c21 e_7_48B * c23 e_7_48B + c11 e_3_8B * c32 e_3_8B * c21 e_m1_48B * c22 e_m1_48B * c13 e_7_48B * c23 e_7_48B + c12 e_3_8B * c13 e_3_8B * c21 e_m1_48B * c22 e_m1_48B * c21 e_7_48B * c33 e_7_48B + c12 e_3_8B * c13 e_3_8B * c21 e_m1_48B * c32 e_m1_48B * c21 e_7_48B * c23 e_7_48B + c21 e_3_8B * c31 e_3_8B * c12 e_m1_48B * c22 e_m1_48B * c13 e_7_48B * c23 e_7_48B + c21 e_3_8B * c31 e_3_8B * c12 e_m1_48B * c23 e_m1_48B * c13 e_7_48B * c22 e_7_48B + c11 e_3_8B * c23 e_3_8B * c13 e_m1_48B * c32 e_m1_48B * c21 e_7_48B * c33 e_7_48B + c11 e_3_8B * c23 e_3_8B * c31 e_m1_48B * c33 e_m1_48B * c13 e_7_48B * c22 e_7_48B + c11 e_3_8B * c32 e_3_8B * c13 e_m1_48B * c33 e_m1_48B * c21 e_7_48B * c23 e_7_48B + c11 e_3_8B * c32 e_3_8B * c23 e_m1_48B * c31 e_m1_48B * c13 e_7_48B * c23 e_7_48B + c11 e_3_8B * c33 e_3_8B * c12 e_m1_48B * c23 e_m1_48B * c21 e_7_48B * c33 e_7_48B + c11 e_3_8B * c33 e_3_8B * c21 e_m1_48B * c32 e_m1_48B * c13 e_7_48B * c23 e_7_48B + c12 e_3_8B * c13 e_3_8B * c23 e_m1_48B * c31 e_m1_48B * c21 e_7_48B * c33 e_7_48B + c12 e_3_8B * c13 e_3_8B * c31 e_m1_48B * c33 e_m1_48B * c21 e_7_48B * c23 e_7_48B + c21 e_3_8B * c31 e_3_8B * c13 e_m1_48B * c32 e_m1_48B * c13 e_7_48B * c23 e_7_48B + c21 e_3_8B * c31 e_3_8B * c13 e_m1_48B * c33 e_m1_48B * c13 e_7_48B * c22 e_7_48B + c11 e_3_8B * c33 e_3_8B * c13 e_m1_48B * c33 e_m1_48B * c21 e_7_48B * c33 e_7_48B + c11 e_3_8B * c33 e_3_8B * c31 e_m1_48B * c33 e_m1_48B * c13 e_7_48B * c23 e_7_48B + c22 e_3_8B * c23 e_3_8B * c22 e_m1_48B * c32 e_m1_48B * c22 e_7_48B * c23 e_7_48B + c22 e_3_8B * c32 e_3_8B * c22 e_m1_48B * c23 e_m1_48B * c22 e_7_48B * c23 e_7_48B + c22 e_3_8B * c23 e_3_8B * c23 e_m1_48B * c32 e_m1_48B * c22 e_7_48B * c33 e_7_48B + c22 e_3_8B * c23 e_3_8B * c32 e_m1_48B * c33 e_m1_48B * c22 e_7_48B * c23 e_7_48B + c22 e_3_8B * c32 e_3_8B * c23 e_m1_48B * c33 e_m1_48B * c22 e_7_48B * c23 e_7_48B + c22 e_3_8B * c33 e_3_8B * c22 e_m1_48B * c23 e_m1_48B * c22 e_7_48B * c33 e_7_48B + c23 e_3_8B * c32 e_3_8B * c23 e_m1_48B * c32 e_m1_48B * c22 e_7_48B * c23 e_7_48B + c22 e_3_8B * c33 e_3_8B * c23 e_m1_48B * c33 e_m1_48B * c22 e_7_48B * c33 e_7_48B + c23 e_3_8B * c32 e_3_8B * c23 e_m1_48B * c32 e_m1_48B * c23 e_7_48B * c33 e_7_48B + c23 e_3_8B * c33 e_3_8B * c22 e_m1_48B * c32 e_m1_48B * c23 e_7_48B * c33 e_7_48B + c23 e_3_8B * c33 e_3_8B * c23 e_m1_48B * c32 e_m1_48B * c22 e_7_48B * c33 e_7_48B + c32 e_3_8B * c33 e_3_8B * c22 e_m1_48B * c23 e_m1_48B * c23 e_7_48B * c33 e_7_48B + c23 e_3_8B * c33 e_3_8B * c32 e_m1_48B * c33 e_m1_48B * c23 e_7_48B * c33 e_7_48B + c32 e_3_8B * c33 e_3_8B * c23 e_m1_48B * c33 e_m1_48B * c23 e_7_48B * c33 e_7_48B;
    RtoC 0;
    c12 e_3_8B * c31 e_3_8B * c11 e_m1_48B * c11 e_m1_48B * c23 e_7_48B * c23 e_7_48B + c12 e_3_8B * c21 e_3_8B * c11 e_m1_48B * c11 e_m1_48B * c22 e_7_48B * c23 e_7_48B + c12 e_3_8B * c22 e_3_8B * c22 e_m1_48B * c22 e_m1_48B * c21 e_7_48B * c23 e_7_48B + c13 e_3_8B * c21 e_3_8B * c11 e_m1_48B * c11 e_m1_48B * c22 e_7_48B * c33 e_7_48B + c21 e_3_8B * c22 e_3_8B * c22 e_m1_48B * c22 e_m1_48B * c13 e_7_48B * c22 e_7_48B + c12 e_3_8B * c23 e_3_8B * c22 e_m1_48B * c22 e_m1_48B * c21 e_7_48B * c33 e_7_48B + c13 e_3_8B * c31 e_3_8B * c11 e_m1_48B * c11 e_m1_48B * c23 e_7_48B * c33 e_7_48B + c21 e_3_8B * c32 e_3_8B * c22 e_m1_48B * c22 e_m1_48B * c13 e_7_48B * c23 e_7_48B + c13 e_3_8B * c32 e_3_8B * c33 e_m1_48B * c33 e_m1_48B * c21 e_7_48B * c23 e_7_48B + c23 e_3_8B * c31 e_3_8B * c33 e_m1_48B * c33 e_m1_48B * c13 e_7_48B * c22 e_7_48B + c13 e_3_8B * c33 e_3_8B * c33 e_m1_48B * c33 e_m1_48B * c21 e_7_48B * c33 e_7_48B + c31 e_3_8B * c33 e_3_8B * c33 e_m1_48B * c33 e_m1_48B * c13 e_7_48B * c23 e_7_48B + c11 e_3_8B * c12 e_3_8B * c21 e_m1_48B * c22 e_m1_48B * c13 e_7_48B * c21 e_7_48B + c11 e_3_8B * c21 e_3_8B * c12 e_m1_48B * c22 e_m1_48B * c13 e_7_48B * c21 e_7_48B + c11 e_3_8B * c12 e_3_8B * c23 e_m1_48B * c31 e_m1_48B * c13 e_7_48B * c21 e_7_48B + c11 e_3_8B * c13 e_3_8B * c21 e_m1_48B * c32 e_m1_48B * c13 e_7_48B * c21 e_7_48B + c11 e_3_8B * c21 e_3_8B * c13 e_m1_48B * c32 e_m1_48B * c13 e_7_48B * c21 e_7_48B + c11 e_3_8B * c31 e_3_8B * c12 e_m1_48B * c23 e_m1_48B * c13 e_7_48B * c21 e_7_48B + c11 e_3_8B * c13 e_3_8B * c31 e_m1_48B * c33 e_m1_48B * c13 e_7_48B * c21 e_7_48B + c11 e_3_8B * c31 e_3_8B * c13 e_m1_48B * c33 e_m1_48B * c13 e_7_48B * c21 e_7_48B + c12 e_3_8B * c22 e_3_8B * c23 e_m1_48B * c32 e_m1_48B * c21 e_7_48B * c23 e_7_48B + c12 e_3_8B * c32 e_3_8B * c22 e_m1_48B * c23 e_m1_48B * c21 e_7_48B * c23 e_7_48B + c13 e_3_8B * c22 e_3_8B * c22 e_m1_48B * c32 e_m1_48B * c21 e_7_48B * c23 e_7_48B + c21 e_3_8B * c22 e_3_8B * c23 e_m1_48B * c32 e_m1_48B * c13 e_7_48B * c22 e_7_48B + c21 e_3_8B * c23 e_3_8B * c22 e_m1_48B * c32 e_m1_48B * c13 e_7_48B * c22 e_7_48B + c22 e_3_8B * c31 e_3_8B * c22 e_m1_48B * c23 e_m1_48B * c13 e_7_48B * c22 e_7_48B + c12 e_3_8B * c23 e_3_8B * c23 e_m1_48B * c32 e_m1_48B * c21 e_7_48B * c33 e_7_48B + c12 e_3_8B * c32 e_3_8B * c23 e_m1_48B * c33 e_m1_48B * c21 e_7_48B * c23 e_7_48B + c12 e_3_8B * c33 e_3_8B * c22 e_m1_48B * c23 e_m1_48B * c21 e_7_48B * c33 e_7_48B + c13 e_3_8B * c22 e_3_8B * c32 e_m1_48B * c33 e_m1_48B * c21 e_7_48B * c23 e_7_48B + c13 e_3_8B * c23 e_3_8B * c22 e_m1_48B * c32 e_m1_48B * c21 e_7_48B * c33 e_7_48B + c13 e_3_8B * c32 e_3_8B * c23 e_m1_48B * c32 e_m1_48B * c21 e_7_48B * c23 e_7_48B + c21 e_3_8B * c23 e_3_8B * c32 e_m1_48B * c33 e_m1_48B * c13 e_7_48B * c22 e_7_48B + c21 e_3_8B * c32 e_3_8B * c23 e_m1_48B * c32 e_m1_48B * c13 e_7_48B * c23 e_7_48B + c21 e_3_8B * c33 e_3_8B * c22 e_m1_48B * c32 e_m1_48B * c13 e_7_48B * c23 e_7_48B + c22 e_3_8B * c31 e_3_8B * c23 e_m1_48B * c33 e_m1_48B * c13 e_7_48B * c22 e_7_48B + c23 e_3_8B * c31 e_3_8B * c23 e_m1_48B * c32 e_m1_48B * c13 e_7_48B * c22 e_7_48B + c31 e_3_8B * c32 e_3_8B * c22 e_m1_48B * c23 e_m1_48B * c13 e_7_48B * c23 e_7_48B + c12 e_3_8B * c33 e_3_8B * c23 e_m1_48B * c33 e_m1_48B * c21 e_7_48B * c33 e_7_48B + c13 e_3_8B * c23 e_3_8B * c32 e_m1_48B * c33 e_m1_48B * c21 e_7_48B * c33 e_7_48B + c13 e_3_8B * c33 e_3_8B * c23 e_m1_48B * c32 e_m1_48B * c21 e_7_48B * c33 e_7_48B + c21 e_3_8B * c33 e_3_8B * c32 e_m1_48B * c33 e_m1_48B * c13 e_7_48B * c23 e_7_48B + c31 e_3_8B * c32 e_3_8B * c23 e_m1_48B * c33 e_m1_48B * c13 e_7_48B * c23 e_7_48B + c31 e_3_8B * c33 e_3_8B * c23 e_m1_48B * c32 e_m1_48B * c13 e_7_48B * c23 e_7_48B;
    RtoC 0;
    c12 e_3_8B * c32 e_3_8B * c11 e_m1_48B * c21 e_m1_48B * c23 e_7_48B * c23 e_7_48B + c22 e_3_8B * c31 e_3_8B * c11 e_m1_48B * c12 e_m1_48B * c23 e_7_48B * c23 e_7_48B + c12 e_3_8B * c33 e_3_8B * c11 e_m1_48B * c31 e_m1_48B * c23 e_7_48B * c23 e_7_48B + c31 e_3_8B * c32 e_3_8B * c11 e_m1_48B * c13 e_m1_48B * c23 e_7_48B * c23 e_7_48B + c11 e_3_8B * c12 e_3_8B * c11 e_m1_48B * c11 e_m1_48B * c21 e_7_48B * c23 e_7_48B + c11 e_3_8B * c21 e_3_8B * c11 e_m1_48B * c11 e_m1_48B * c13 e_7_48B * c22 e_7_48B + c11 e_3_8B * c13 e_3_8B * c11 e_m1_48B * c11 e_m1_48B * c21 e_7_48B * c33 e_7_48B + c11 e_3_8B * c31 e_3_8B * c11 e_m1_48B * c11 e_m1_48B * c13 e_7_48B * c23 e_7_48B + c12 e_3_8B * c21 e_3_8B * c22 e_m1_48B * c22 e_m1_48B * c13 e_7_48B * c21 e_7_48B + c13 e_3_8B * c31 e_3_8B * c33 e_m1_48B * c33 e_m1_48B * c13 e_7_48B * c21 e_7_48B + c12 e_3_8B * c22 e_3_8B * c11 e_m1_48B * c21 e_m1_48B * c22 e_7_48B * c23 e_7_48B + c21 e_3_8B * c22 e_3_8B * c11 e_m1_48B * c12 e_m1_48B * c22 e_7_48B * c23 e_7_48B + c12 e_3_8B * c21 e_3_8B * c23 e_m1_48B * c32 e_m1_48B * c13 e_7_48B * c21 e_7_48B + c12 e_3_8B * c23 e_3_8B * c11 e_m1_48B * c31 e_m1_48B * c22 e_7_48B * c23 e_7_48B + c12 e_3_8B * c31 e_3_8B * c22 e_m1_48B * c23 e_m1_48B * c13 e_7_48B * c21 e_7_48B + c13 e_3_8B * c21 e_3_8B * c22 e_m1_48B * c32 e_m1_48B * c13 e_7_48B * c21 e_7_48B + c13 e_3_8B * c22 e_3_8B * c11 e_m1_48B * c21 e_m1_48B * c22 e_7_48B * c33 e_7_48B + c21 e_3_8B * c23 e_3_8B * c11 e_m1_48B * c12 e_m1_48B * c22 e_7_48B * c33 e_7_48B + c21 e_3_8B * c32 e_3_8B * c11 e_m1_48B * c13 e_m1_48B * c22 e_7_48B * c23 e_7_48B + c12 e_3_8B * c31 e_3_8B * c23 e_m1_48B * c33 e_m1_48B * c13 e_7_48B * c21 e_7_48B + c13 e_3_8B * c21 e_3_8B * c32 e_m1_48B * c33 e_m1_48B * c13 e_7_48B * c21 e_7_48B + c13 e_3_8B * c23 e_3_8B * c11 e_m1_48B * c31 e_m1_48B * c22 e_7_48B * c33 e_7_48B + c13 e_3_8B * c31 e_3_8B * c23 e_m1_48B * c32 e_m1_48B * c13 e_7_48B * c21 e_7_48B + c13 e_3_8B * c32 e_3_8B * c11 e_m1_48B * c21 e_m1_48B * c23 e_7_48B * c33 e_7_48B + c21 e_3_8B * c33 e_3_8B * c11 e_m1_48B * c13 e_m1_48B * c22 e_7_48B * c33 e_7_48B + c23 e_3_8B * c31 e_3_8B * c11 e_m1_48B * c12 e_m1_48B * c23 e_7_48B * c33 e_7_48B + c13 e_3_8B * c33 e_3_8B * c11 e_m1_48B * c31 e_m1_48B * c23 e_7_48B * c33 e_7_48B + c31 e_3_8B * c33 e_3_8B * c11 e_m1_48B * c13 e_m1_48B * c23 e_7_48B * c33 e_7_48B;
    RtoC 0;
    c32 e_3_8B * c32 e_3_8B * c13 e_m1_48B * c21 e_m1_48B * c23 e_7_48B * c23 e_7_48B + c11 e_3_8B * c11 e_3_8B * c11 e_m1_48B * c11 e_m1_48B * c13 e_7_48B * c21 e_7_48B + c22 e_3_8B * c32 e_3_8B * c12 e_m1_48B * c21 e_m1_48B * c23 e_7_48B * c23 e_7_48B + c22 e_3_8B * c33 e_3_8B * c12 e_m1_48B * c31 e_m1_48B * c23 e_7_48B * c23 e_7_48B + c32 e_3_8B * c33 e_3_8B * c13 e_m1_48B * c31 e_m1_48B * c23 e_7_48B * c23 e_7_48B + c21 e_3_8B * c21 e_3_8B * c11 e_m1_48B * c12 e_m1_48B * c13 e_7_48B * c22 e_7_48B + c12 e_3_8B * c12 e_3_8B * c11 e_m1_48B * c21 e_m1_48B * c21 e_7_48B * c23 e_7_48B + c31 e_3_8B * c31 e_3_8B * c11 e_m1_48B * c13 e_m1_48B * c13 e_7_48B * c23 e_7_48B + c22 e_3_8B * c22 e_3_8B * c12 e_m1_48B * c21 e_m1_48B * c22 e_7_48B * c23 e_7_48B + c13 e_3_8B * c13 e_3_8B * c11 e_m1_48B * c31 e_m1_48B * c21 e_7_48B * c33 e_7_48B + c23 e_3_8B * c23 e_3_8B * c12 e_m1_48B * c31 e_m1_48B * c22 e_7_48B * c33 e_7_48B + c33 e_3_8B * c33 e_3_8B * c13 e_m1_48B * c31 e_m1_48B * c23 e_7_48B * c33 e_7_48B + c11 e_3_8B * c22 e_3_8B * c11 e_m1_48B * c12 e_m1_48B * c21 e_7_48B * c23 e_7_48B + c11 e_3_8B * c22 e_3_8B * c11 e_m1_48B * c21 e_m1_48B * c13 e_7_48B * c22 e_7_48B + c11 e_3_8B * c23 e_3_8B * c11 e_m1_48B * c12 e_m1_48B * c21 e_7_48B * c33 e_7_48B + c11 e_3_8B * c23 e_3_8B * c11 e_m1_48B * c31 e_m1_48B * c13 e_7_48B * c22 e_7_48B + c11 e_3_8B * c32 e_3_8B * c11 e_m1_48B * c13 e_m1_48B * c21 e_7_48B * c23 e_7_48B + c11 e_3_8B * c32 e_3_8B * c11 e_m1_48B * c21 e_m1_48B * c13 e_7_48B * c23 e_7_48B + c12 e_3_8B * c13 e_3_8B * c11 e_m1_48B * c21 e_m1_48B * c21 e_7_48B * c33 e_7_48B + c12 e_3_8B * c13 e_3_8B * c11 e_m1_48B * c31 e_m1_48B * c21 e_7_48B * c23 e_7_48B + c21 e_3_8B * c31 e_3_8B * c11 e_m1_48B * c12 e_m1_48B * c13 e_7_48B * c23 e_7_48B + c21 e_3_8B * c31 e_3_8B * c11 e_m1_48B * c13 e_m1_48B * c13 e_7_48B * c22 e_7_48B + c11 e_3_8B * c33 e_3_8B * c11 e_m1_48B * c13 e_m1_48B * c21 e_7_48B * c33 e_7_48B + c11 e_3_8B * c33 e_3_8B * c11 e_m1_48B * c31 e_m1_48B * c13 e_7_48B * c23 e_7_48B + c22 e_3_8B * c23 e_3_8B * c12 e_m1_48B * c21 e_m1_48B * c22 e_7_48B * c33 e_7_48B + c22 e_3_8B * c23 e_3_8B * c12 e_m1_48B * c31 e_m1_48B * c22 e_7_48B * c23 e_7_48B + c22 e_3_8B * c32 e_3_8B * c13 e_m1_48B * c21 e_m1_48B * c22 e_7_48B * c23 e_7_48B + c22 e_3_8B * c33 e_3_8B * c13 e_m1_48B * c21 e_m1_48B * c22 e_7_48B * c33 e_7_48B + c23 e_3_8B * c32 e_3_8B * c12 e_m1_48B * c21 e_m1_48B * c23 e_7_48B * c33 e_7_48B + c23 e_3_8B * c32 e_3_8B * c13 e_m1_48B * c31 e_m1_48B * c22 e_7_48B * c23 e_7_48B + c23 e_3_8B * c33 e_3_8B * c12 e_m1_48B * c31 e_m1_48B * c23 e_7_48B * c33 e_7_48B + c23 e_3_8B * c33 e_3_8B * c13 e_m1_48B * c31 e_m1_48B * c22 e_7_48B * c33 e_7_48B + c32 e_3_8B * c33 e_3_8B * c13 e_m1_48B * c21 e_m1_48B * c23 e_7_48B * c33 e_7_48B;
    RtoC 0;
    c11 e_3_8B * c12 e_3_8B * c11 e_m1_48B * c21 e_m1_48B * c13 e_7_48B * c21 e_7_48B + c11 e_3_8B * c21 e_3_8B * c11 e_m1_48B * c12 e_m1_48B * c13 e_7_48B * c21 e_7_48B + c11 e_3_8B * c13 e_3_8B * c11 e_m1_48B * c31 e_m1_48B * c13 e_7_48B * c21 e_7_48B + c11 e_3_8B * c31 e_3_8B * c11 e_m1_48B * c13 e_m1_48B * c13 e_7_48B * c21 e_7_48B + c12 e_3_8B * c22 e_3_8B * c12 e_m1_48B * c21 e_m1_48B * c21 e_7_48B * c23 e_7_48B + c21 e_3_8B * c22 e_3_8B * c12 e_m1_48B * c21 e_m1_48B * c13 e_7_48B * c22 e_7_48B + c12 e_3_8B * c23 e_3_8B * c12 e_m1_48B * c21 e_m1_48B * c21 e_7_48B * c33 e_7_48B + c12 e_3_8B * c32 e_3_8B * c13 e_m1_48B * c21 e_m1_48B * c21 e_7_48B * c23 e_7_48B + c13 e_3_8B * c22 e_3_8B * c12 e_m1_48B * c31 e_m1_48B * c21 e_7_48B * c23 e_7_48B + c21 e_3_8B * c23 e_3_8B * c12 e_m1_48B * c31 e_m1_48B * c13 e_7_48B * c22 e_7_48B + c21 e_3_8B * c32 e_3_8B * c12 e_m1_48B * c21 e_m1_48B * c13 e_7_48B * c23 e_7_48B + c22 e_3_8B * c31 e_3_8B * c13 e_m1_48B * c21 e_m1_48B * c13 e_7_48B * c22 e_7_48B + c12 e_3_8B * c33 e_3_8B * c13 e_m1_48B * c21 e_m1_48B * c21 e_7_48B * c33 e_7_48B + c13 e_3_8B * c23 e_3_8B * c12 e_m1_48B * c31 e_m1_48B * c21 e_7_48B * c33 e_7_48B + c13 e_3_8B * c32 e_3_8B * c13 e_m1_48B * c31 e_m1_48B * c21 e_7_48B * c23 e_7_48B + c21 e_3_8B * c33 e_3_8B * c12 e_m1_48B * c31 e_m1_48B * c13 e_7_48B * c23 e_7_48B + c23 e_3_8B * c31 e_3_8B * c13 e_m1_48B * c31 e_m1_48B * c13 e_7_48B * c22 e_7_48B + c31 e_3_8B * c32 e_3_8B * c13 e_m1_48B * c21 e_m1_48B * c13 e_7_48B * c23 e_7_48B + c13 e_3_8B * c33 e_3_8B * c13 e_m1_48B * c31 e_m1_48B * c21 e_7_48B * c33 e_7_48B + c31 e_3_8B * c33 e_3_8B * c13 e_m1_48B * c31 e_m1_48B * c13 e_7_48B * c23 e_7_48B;
    RtoC 0;
    c12 e_3_8B * c21 e_3_8B * c12 e_m1_48B * c21 e_m1_48B * c13 e_7_48B * c21 e_7_48B + c12 e_3_8B * c31 e_3_8B * c13 e_m1_48B * c21 e_m1_48B * c13 e_7_48B * c21 e_7_48B + c13 e_3_8B * c21 e_3_8B * c12 e_m1_48B * c31 e_m1_48B * c13 e_7_48B * c21 e_7_48B + c13 e_3_8B * c31 e_3_8B * c13 e_m1_48B * c31 e_m1_48B * c13 e_7_48B * c21 e_7_48B];
   [c12 e_3_8B * c21 e_3_8B * c12 e_m1_48B * c21 e_m1_48B * c21 e_7_48B * c32 e_7_48B + c12 e_3_8B * c21 e_3_8B * c13 e_m1_48B * c31 e_m1_48B * c21 e_7_48B * c32 e_7_48B + c12 e_3_8B * c31 e_3_8B * c12 e_m1_48B * c21 e_m1_48B * c21 e_7_48B * c33 e_7_48B + c13 e_3_8B * c21 e_3_8B * c12 e_m1_48B * c21 e_m1_48B * c31 e_7_48B * c32 e_7_48B + c12 e_3_8B * c31 e_3_8B * c13 e_m1_48B * c31 e_m1_48B * c21 e_7_48B * c33 e_7_48B + c13 e_3_8B * c21 e_3_8B * c13 e_m1_48B * c31 e_m1_48B * c31 e_7_48B * c32 e_7_48B + c13 e_3_8B * c31 e_3_8B * c12 e_m1_48B * c21 e_m1_48B * c31 e_7_48B * c33 e_7_48B + c13 e_3_8B * c31 e_3_8B * c13 e_m1_48B * c31 e_m1_48B * c31 e_7_48B * c33 e_7_48B;
    RtoC 0;
    c11 e_3_8B * c13 e_3_8B * c12 e_m1_48B * c21 e_m1_48B * c31 e_7_48B * c31 e_7_48B + c11 e_3_8B * c13 e_3_8B * c13 e_m1_48B * c31 e_m1_48B * c31 e_7_48B * c31 e_7_48B + c11 e_3_8B * c12 e_3_8B * c12 e_m1_48B * c21 e_m1_48B * c21 e_7_48B * c31 e_7_48B + c11 e_3_8B * c21 e_3_8B * c12 e_m1_48B * c21 e_m1_48B * c11 e_7_48B * c32 e_7_48B + c11 e_3_8B * c12 e_3_8B * c13 e_m1_48B * c31 e_m1_48B * c21 e_7_48B * c31 e_7_48B + c11 e_3_8B * c21 e_3_8B * c13 e_m1_48B * c31 e_m1_48B * c11 e_7_48B * c32 e_7_48B + c11 e_3_8B * c31 e_3_8B * c12 e_m1_48B * c21 e_m1_48B * c11 e_7_48B * c33 e_7_48B + c11 e_3_8B * c31 e_3_8B * c13 e_m1_48B * c31 e_m1_48B * c11 e_7_48B * c33 e_7_48B + c12 e_3_8B * c22 e_3_8B * c21 e_m1_48B * c22 e_m1_48B * c21 e_7_48B * c32 e_7_48B + c21 e_3_8B * c22 e_3_8B * c12 e_m1_48B * c22 e_m1_48B * c21 e_7_48B * c32 e_7_48B + c12 e_3_8B * c22 e_3_8B * c23 e_m1_48B * c31 e_m1_48B * c21 e_7_48B * c32 e_7_48B + c12 e_3_8B * c23 e_3_8B * c21 e_m1_48B * c32 e_m1_48B * c21 e_7_48B * c32 e_7_48B + c12 e_3_8B * c32 e_3_8B * c21 e_m1_48B * c22 e_m1_48B * c21 e_7_48B * c33 e_7_48B + c13 e_3_8B * c22 e_3_8B * c21 e_m1_48B * c22 e_m1_48B * c31 e_7_48B * c32 e_7_48B + c21 e_3_8B * c22 e_3_8B * c13 e_m1_48B * c32 e_m1_48B * c21 e_7_48B * c32 e_7_48B + c21 e_3_8B * c23 e_3_8B * c12 e_m1_48B * c22 e_m1_48B * c31 e_7_48B * c32 e_7_48B + c21 e_3_8B * c32 e_3_8B * c12 e_m1_48B * c23 e_m1_48B * c21 e_7_48B * c32 e_7_48B + c22 e_3_8B * c31 e_3_8B * c12 e_m1_48B * c22 e_m1_48B * c21 e_7_48B * c33 e_7_48B + c12 e_3_8B * c23 e_3_8B * c31 e_m1_48B * c33 e_m1_48B * c21 e_7_48B * c32 e_7_48B + c12 e_3_8B * c32 e_3_8B * c23 e_m1_48B * c31 e_m1_48B * c21 e_7_48B * c33 e_7_48B + c12 e_3_8B * c33 e_3_8B * c21 e_m1_48B * c32 e_m1_48B * c21 e_7_48B * c33 e_7_48B + c13 e_3_8B * c22 e_3_8B * c23 e_m1_48B * c31 e_m1_48B * c31 e_7_48B * c32 e_7_48B + c13 e_3_8B * c23 e_3_8B * c21 e_m1_48B * c32 e_m1_48B * c31 e_7_48B * c32 e_7_48B + c13 e_3_8B * c32 e_3_8B * c21 e_m1_48B * c22 e_m1_48B * c31 e_7_48B * c33 e_7_48B + c21 e_3_8B * c23 e_3_8B * c13 e_m1_48B * c32 e_m1_48B * c31 e_7_48B * c32 e_7_48B + c21 e_3_8B * c32 e_3_8B * c13 e_m1_48B * c33 e_m1_48B * c21 e_7_48B * c32 e_7_48B + c21 e_3_8B * c33 e_3_8B * c12 e_m1_48B * c23 e_m1_48B * c31 e_7_48B * c32 e_7_48B + c22 e_3_8B * c31 e_3_8B * c13 e_m1_48B * c32 e_m1_48B * c21 e_7_48B * c33 e_7_48B + c23 e_3_8B * c31 e_3_8B * c12 e_m1_48B * c22 e_m1_48B * c31 e_7_48B * c33 e_7_48B + c31 e_3_8B * c32 e_3_8B * c12 e_m1_48B * c23 e_m1_48B * c21 e_7_48B * c33 e_7_48B + c12 e_3_8B * c33 e_3_8B * c31 e_m1_48B * c33 e_m1_48B * c21 e_7_48B * c33 e_7_48B + c13 e_3_8B * c23 e_3_8B * c31 e_m1_48B * c33 e_m1_48B * c31 e_7_48B * c32 e_7_48B + c13 e_3_8B * c32 e_3_8B * c23 e_m1_48B * c31 e_m1_48B * c31 e_7_48B * c33 e_7_48B + c13 e_3_8B * c33 e_3_8B * c21 e_m1_48B * c32 e_m1_48B * c31 e_7_48B * c33 e_7_48B + c21 e_3_8B * c33 e_3_8B * c13 e_m1_48B * c33 e_m1_48B * c31 e_7_48B * c32 e_7_48B + c23 e_3_8B * c31 e_3_8B * c13 e_m1_48B * c32 e_m1_48B * c31 e_7_48B * c33 e_7_48B + c31 e_3_8B * c32 e_3_8B * c13 e_m1_48B * c33 e_m1_48B * c21 e_7_48B * c33 e_7_48B + c31 e_3_8B * c33 e_3_8B * c12 e_m1_48B * c23 e_m1_48B * c31 e_7_48B * c33 e_7_48B + c13 e_3_8B * c33 e_3_8B * c31 e_m1_48B * c33 e_m1_48B * c31 e_7_48B * c33 e_7_48B + c31 e_3_8B * c33 e_3_8B * c13 e_m1_48B * c33 e_m1_48B * c31 e_7_48B * c33 e_7_48B;
    RtoC 0;
    c13 e_3_8B * c13 e_3_8B * c21 e_m1_48B * c32 e_m1_48B * c31 e_7_48B * c31 e_7_48B + c13 e_3_8B * c13 e_3_8B * c31 e_m1_48B * c33 e_m1_48B * c31 e_7_48B * c31 e_7_48B + c22 e_3_8B * c22 e_3_8B * c22 e_m1_48B * c22 e_m1_48B * c21 e_7_48B * c32 e_7_48B + c33 e_3_8B * c33 e_3_8B * c33 e_m1_48B * c33 e_m1_48B * c31 e_7_48B * c33 e_7_48B + c11 e_3_8B * c23 e_3_8B * c12 e_m1_48B * c22 e_m1_48B * c31 e_7_48B * c31 e_7_48B + c12 e_3_8B * c13 e_3_8B * c21 e_m1_48B * c22 e_m1_48B * c31 e_7_48B * c31 e_7_48B + c11 e_3_8B * c23 e_3_8B * c13 e_m1_48B * c32 e_m1_48B * c31 e_7_48B * c31 e_7_48B + c11 e_3_8B * c33 e_3_8B * c12 e_m1_48B * c23 e_m1_48B * c31 e_7_48B * c31 e_7_48B + c12 e_3_8B * c13 e_3_8B * c23 e_m1_48B * c31 e_m1_48B * c31 e_7_48B * c31 e_7_48B + c11 e_3_8B * c33 e_3_8B * c13 e_m1_48B * c33 e_m1_48B * c31 e_7_48B * c31 e_7_48B + c22 e_3_8B * c23 e_3_8B * c22 e_m1_48B * c22 e_m1_48B * c31 e_7_48B * c32 e_7_48B + c22 e_3_8B * c32 e_3_8B * c22 e_m1_48B * c22 e_m1_48B * c21 e_7_48B * c33 e_7_48B + c23 e_3_8B * c32 e_3_8B * c22 e_m1_48B * c22 e_m1_48B * c31 e_7_48B * c33 e_7_48B + c23 e_3_8B * c32 e_3_8B * c33 e_m1_48B * c33 e_m1_48B * c21 e_7_48B * c32 e_7_48B + c23 e_3_8B * c33 e_3_8B * c33 e_m1_48B * c33 e_m1_48B * c31 e_7_48B * c32 e_7_48B + c32 e_3_8B * c33 e_3_8B * c33 e_m1_48B * c33 e_m1_48B * c21 e_7_48B * c33 e_7_48B + c11 e_3_8B * c11 e_3_8B * c12 e_m1_48B * c21 e_m1_48B * c11 e_7_48B * c31 e_7_48B + c11 e_3_8B * c11 e_3_8B * c13 e_m1_48B * c31 e_m1_48B * c11 e_7_48B * c31 e_7_48B + c21 e_3_8B * c21 e_3_8B * c12 e_m1_48B * c22 e_m1_48B * c11 e_7_48B * c32 e_7_48B + c12 e_3_8B * c12 e_3_8B * c21 e_m1_48B * c22 e_m1_48B * c21 e_7_48B * c31 e_7_48B + c21 e_3_8B * c21 e_3_8B * c13 e_m1_48B * c32 e_m1_48B * c11 e_7_48B * c32 e_7_48B + c31 e_3_8B * c31 e_3_8B * c12 e_m1_48B * c23 e_m1_48B * c11 e_7_48B * c33 e_7_48B + c12 e_3_8B * c12 e_3_8B * c23 e_m1_48B * c31 e_m1_48B * c21 e_7_48B * c31 e_7_48B + c31 e_3_8B * c31 e_3_8B * c13 e_m1_48B * c33 e_m1_48B * c11 e_7_48B * c33 e_7_48B + c22 e_3_8B * c22 e_3_8B * c23 e_m1_48B * c32 e_m1_48B * c21 e_7_48B * c32 e_7_48B + c32 e_3_8B * c32 e_3_8B * c22 e_m1_48B * c23 e_m1_48B * c21 e_7_48B * c33 e_7_48B + c23 e_3_8B * c23 e_3_8B * c22 e_m1_48B * c32 e_m1_48B * c31 e_7_48B * c32 e_7_48B + c32 e_3_8B * c32 e_3_8B * c23 e_m1_48B * c33 e_m1_48B * c21 e_7_48B * c33 e_7_48B + c23 e_3_8B * c23 e_3_8B * c32 e_m1_48B * c33 e_m1_48B * c31 e_7_48B * c32 e_7_48B + c33 e_3_8B * c33 e_3_8B * c23 e_m1_48B * c32 e_m1_48B * c31 e_7_48B * c33 e_7_48B + c11 e_3_8B * c22 e_3_8B * c12 e_m1_48B * c22 e_m1_48B * c21 e_7_48B * c31 e_7_48B + c11 e_3_8B * c22 e_3_8B * c21 e_m1_48B * c22 e_m1_48B * c11 e_7_48B * c32 e_7_48B + c11 e_3_8B * c22 e_3_8B * c13 e_m1_48B * c32 e_m1_48B * c21 e_7_48B * c31 e_7_48B + c11 e_3_8B * c22 e_3_8B * c23 e_m1_48B * c31 e_m1_48B * c11 e_7_48B * c32 e_7_48B + c11 e_3_8B * c23 e_3_8B * c21 e_m1_48B * c32 e_m1_48B * c11 e_7_48B * c32 e_7_48B + c11 e_3_8B * c32 e_3_8B * c12 e_m1_48B * c23 e_m1_48B * c21 e_7_48B * c31 e_7_48B + c11 e_3_8B * c32 e_3_8B * c21 e_m1_48B * c22 e_m1_48B * c11 e_7_48B * c33 e_7_48B + c12 e_3_8B * c13 e_3_8B * c21 e_m1_48B * c32 e_m1_48B * c21 e_7_48B * c31 e_7_48B + c21 e_3_8B * c31 e_3_8B * c12 e_m1_48B * c22 e_m1_48B * c11 e_7_48B * c33 e_7_48B + c21 e_3_8B * c31 e_3_8B * c12 e_m1_48B * c23 e_m1_48B * c11 e_7_48B * c32 e_7_48B + c11 e_3_8B * c23 e_3_8B * c31 e_m1_48B * c33 e_m1_48B * c11 e_7_48B * c32 e_7_48B + c11 e_3_8B * c32 e_3_8B * c13 e_m1_48B * c33 e_m1_48B * c21 e_7_48B * c31 e_7_48B + c11 e_3_8B * c32 e_3_8B * c23 e_m1_48B * c31 e_m1_48B * c11 e_7_48B * c33 e_7_48B + c11 e_3_8B * c33 e_3_8B * c21 e_m1_48B * c32 e_m1_48B * c11 e_7_48B * c33 e_7_48B + c12 e_3_8B * c13 e_3_8B * c31 e_m1_48B * c33 e_m1_48B * c21 e_7_48B * c31 e_7_48B + c21 e_3_8B * c31 e_3_8B * c13 e_m1_48B * c32 e_m1_48B * c11 e_7_48B * c33 e_7_48B + c21 e_3_8B * c31 e_3_8B * c13 e_m1_48B * c33 e_m1_48B * c11 e_7_48B * c32 e_7_48B + c11 e_3_8B * c33 e_3_8B * c31 e_m1_48B * c33 e_m1_48B * c11 e_7_48B * c33 e_7_48B + c22 e_3_8B * c23 e_3_8B * c22 e_m1_48B * c32 e_m1_48B * c21 e_7_48B * c32 e_7_48B + c22 e_3_8B * c32 e_3_8B * c22 e_m1_48B * c23 e_m1_48B * c21 e_7_48B * c32 e_7_48B + c22 e_3_8B * c23 e_3_8B * c23 e_m1_48B * c32 e_m1_48B * c31 e_7_48B * c32 e_7_48B + c22 e_3_8B * c23 e_3_8B * c32 e_m1_48B * c33 e_m1_48B * c21 e_7_48B * c32 e_7_48B + c22 e_3_8B * c32 e_3_8B * c23 e_m1_48B * c32 e_m1_48B * c21 e_7_48B * c33 e_7_48B + c22 e_3_8B * c32 e_3_8B * c23 e_m1_48B * c33 e_m1_48B * c21 e_7_48B * c32 e_7_48B + c22 e_3_8B * c33 e_3_8B * c22 e_m1_48B * c23 e_m1_48B * c31 e_7_48B * c32 e_7_48B + c22 e_3_8B * c33 e_3_8B * c22 e_m1_48B * c32 e_m1_48B * c21 e_7_48B * c33 e_7_48B + c23 e_3_8B * c32 e_3_8B * c23 e_m1_48B * c32 e_m1_48B * c21 e_7_48B * c32 e_7_48B + c22 e_3_8B * c33 e_3_8B * c23 e_m1_48B * c33 e_m1_48B * c31 e_7_48B * c32 e_7_48B + c22 e_3_8B * c33 e_3_8B * c32 e_m1_48B * c33 e_m1_48B * c21 e_7_48B * c33 e_7_48B + c23 e_3_8B * c32 e_3_8B * c23 e_m1_48B * c32 e_m1_48B * c31 e_7_48B * c33 e_7_48B + c23 e_3_8B * c33 e_3_8B * c22 e_m1_48B * c32 e_m1_48B * c31 e_7_48B * c33 e_7_48B + c23 e_3_8B * c33 e_3_8B * c23 e_m1_48B * c32 e_m1_48B * c31 e_7_48B * c32 e_7_48B + c32 e_3_8B * c33 e_3_8B * c22 e_m1_48B * c23 e_m1_48B * c31 e_7_48B * c33 e_7_48B + c32 e_3_8B * c33 e_3_8B * c23 e_m1_48B * c32 e_m1_48B * c21 e_7_48B * c33 e_7_48B + c23 e_3_8B * c33 e_3_8B * c32 e_m1_48B * c33 e_m1_48B * c31 e_7_48B * c33 e_7_48B + c32 e_3_8B * c33 e_3_8B * c23 e_m1_48B * c33 e_m1_48B * c31 e_7_48B * c33 e_7_48B;
    RtoC 0;
    c12 e_3_8B * c23 e_3_8B * c22 e_m1_48B * c22 e_m1_48B * c31 e_7_48B * c31 e_7_48B + c13 e_3_8B * c33 e_3_8B * c33 e_m1_48B * c33 e_m1_48B * c31 e_7_48B * c31 e_7_48B + c12 e_3_8B * c23 e_3_8B * c23 e_m1_48B * c32 e_m1_48B * c31 e_7_48B * c31 e_7_48B + c12 e_3_8B * c33 e_3_8B * c22 e_m1_48B * c23 e_m1_48B * c31 e_7_48B * c31 e_7_48B + c13 e_3_8B * c23 e_3_8B * c22 e_m1_48B * c32 e_m1_48B * c31 e_7_48B * c31 e_7_48B + c12 e_3_8B * c33 e_3_8B * c23 e_m1_48B * c33 e_m1_48B * c31 e_7_48B * c31 e_7_48B + c13 e_3_8B * c23 e_3_8B * c32 e_m1_48B * c33 e_m1_48B * c31 e_7_48B * c31 e_7_48B + c13 e_3_8B * c33 e_3_8B * c23 e_m1_48B * c32 e_m1_48B * c31 e_7_48B * c31 e_7_48B + c12 e_3_8B * c21 e_3_8B * c11 e_m1_48B * c11 e_m1_48B * c21 e_7_48B * c32 e_7_48B + c12 e_3_8B * c22 e_3_8B * c22 e_m1_48B * c22 e_m1_48B * c21 e_7_48B * c31 e_7_48B + c12 e_3_8B * c31 e_3_8B * c11 e_m1_48B * c11 e_m1_48B * c21 e_7_48B * c33 e_7_48B + c13 e_3_8B * c21 e_3_8B * c11 e_m1_48B * c11 e_m1_48B * c31 e_7_48B * c32 e_7_48B + c21 e_3_8B * c22 e_3_8B * c22 e_m1_48B * c22 e_m1_48B * c11 e_7_48B * c32 e_7_48B + c13 e_3_8B * c31 e_3_8B * c11 e_m1_48B * c11 e_m1_48B * c31 e_7_48B * c33 e_7_48B + c21 e_3_8B * c32 e_3_8B * c22 e_m1_48B * c22 e_m1_48B * c11 e_7_48B * c33 e_7_48B + c13 e_3_8B * c32 e_3_8B * c33 e_m1_48B * c33 e_m1_48B * c21 e_7_48B * c31 e_7_48B + c23 e_3_8B * c31 e_3_8B * c33 e_m1_48B * c33 e_m1_48B * c11 e_7_48B * c32 e_7_48B + c31 e_3_8B * c33 e_3_8B * c33 e_m1_48B * c33 e_m1_48B * c11 e_7_48B * c33 e_7_48B + c11 e_3_8B * c12 e_3_8B * c21 e_m1_48B * c22 e_m1_48B * c11 e_7_48B * c31 e_7_48B + c11 e_3_8B * c21 e_3_8B * c12 e_m1_48B * c22 e_m1_48B * c11 e_7_48B * c31 e_7_48B + c11 e_3_8B * c12 e_3_8B * c23 e_m1_48B * c31 e_m1_48B * c11 e_7_48B * c31 e_7_48B + c11 e_3_8B * c13 e_3_8B * c21 e_m1_48B * c32 e_m1_48B * c11 e_7_48B * c31 e_7_48B + c11 e_3_8B * c21 e_3_8B * c13 e_m1_48B * c32 e_m1_48B * c11 e_7_48B * c31 e_7_48B + c11 e_3_8B * c31 e_3_8B * c12 e_m1_48B * c23 e_m1_48B * c11 e_7_48B * c31 e_7_48B + c11 e_3_8B * c13 e_3_8B * c31 e_m1_48B * c33 e_m1_48B * c11 e_7_48B * c31 e_7_48B + c11 e_3_8B * c31 e_3_8B * c13 e_m1_48B * c33 e_m1_48B * c11 e_7_48B * c31 e_7_48B + c12 e_3_8B * c22 e_3_8B * c23 e_m1_48B * c32 e_m1_48B * c21 e_7_48B * c31 e_7_48B + c12 e_3_8B * c32 e_3_8B * c22 e_m1_48B * c23 e_m1_48B * c21 e_7_48B * c31 e_7_48B + c13 e_3_8B * c22 e_3_8B * c22 e_m1_48B * c32 e_m1_48B * c21 e_7_48B * c31 e_7_48B + c21 e_3_8B * c22 e_3_8B * c23 e_m1_48B * c32 e_m1_48B * c11 e_7_48B * c32 e_7_48B + c21 e_3_8B * c23 e_3_8B * c22 e_m1_48B * c32 e_m1_48B * c11 e_7_48B * c32 e_7_48B + c22 e_3_8B * c31 e_3_8B * c22 e_m1_48B * c23 e_m1_48B * c11 e_7_48B * c32 e_7_48B + c12 e_3_8B * c32 e_3_8B * c23 e_m1_48B * c33 e_m1_48B * c21 e_7_48B * c31 e_7_48B + c13 e_3_8B * c22 e_3_8B * c32 e_m1_48B * c33 e_m1_48B * c21 e_7_48B * c31 e_7_48B + c13 e_3_8B * c32 e_3_8B * c23 e_m1_48B * c32 e_m1_48B * c21 e_7_48B * c31 e_7_48B + c21 e_3_8B * c23 e_3_8B * c32 e_m1_48B * c33 e_m1_48B * c11 e_7_48B * c32 e_7_48B + c21 e_3_8B * c32 e_3_8B * c23 e_m1_48B * c32 e_m1_48B * c11 e_7_48B * c33 e_7_48B + c21 e_3_8B * c33 e_3_8B * c22 e_m1_48B * c32 e_m1_48B * c11 e_7_48B * c33 e_7_48B + c22 e_3_8B * c31 e_3_8B * c23 e_m1_48B * c33 e_m1_48B * c11 e_7_48B * c32 e_7_48B + c23 e_3_8B * c31 e_3_8B * c23 e_m1_48B * c32 e_m1_48B * c11 e_7_48B * c32 e_7_48B + c31 e_3_8B * c32 e_3_8B * c22 e_m1_48B * c23 e_m1_48B * c11 e_7_48B * c33 e_7_48B + c21 e_3_8B * c33 e_3_8B * c32 e_m1_48B * c33 e_m1_48B * c11 e_7_48B * c33 e_7_48B + c31 e_3_8B * c32 e_3_8B * c23 e_m1_48B * c33 e_m1_48B * c11 e_7_48B * c33 e_7_48B + c31 e_3_8B * c33 e_3_8B * c23 e_m1_48B * c32 e_m1_48B * c11 e_7_48B * c33 e_7_48B;
    RtoC 0;
    c11 e_3_8B * c13 e_3_8B * c11 e_m1_48B * c11 e_m1_48B * c31 e_7_48B * c31 e_7_48B + c11 e_3_8B * c12 e_3_8B * c11 e_m1_48B * c11 e_m1_48B * c21 e_7_48B * c31 e_7_48B + c11 e_3_8B * c21 e_3_8B * c11 e_m1_48B * c11 e_m1_48B * c11 e_7_48B * c32 e_7_48B + c11 e_3_8B * c31 e_3_8B * c11 e_m1_48B * c11 e_m1_48B * c11 e_7_48B * c33 e_7_48B + c12 e_3_8B * c21 e_3_8B * c22 e_m1_48B * c22 e_m1_48B * c11 e_7_48B * c31 e_7_48B + c13 e_3_8B * c31 e_3_8B * c33 e_m1_48B * c33 e_m1_48B * c11 e_7_48B * c31 e_7_48B + c12 e_3_8B * c22 e_3_8B * c11 e_m1_48B * c21 e_m1_48B * c21 e_7_48B * c32 e_7_48B + c21 e_3_8B * c22 e_3_8B * c11 e_m1_48B * c12 e_m1_48B * c21 e_7_48B * c32 e_7_48B + c12 e_3_8B * c21 e_3_8B * c23 e_m1_48B * c32 e_m1_48B * c11 e_7_48B * c31 e_7_48B + c12 e_3_8B * c23 e_3_8B * c11 e_m1_48B * c31 e_m1_48B * c21 e_7_48B * c32 e_7_48B + c12 e_3_8B * c31 e_3_8B * c22 e_m1_48B * c23 e_m1_48B * c11 e_7_48B * c31 e_7_48B + c12 e_3_8B * c32 e_3_8B * c11 e_m1_48B * c21 e_m1_48B * c21 e_7_48B * c33 e_7_48B + c13 e_3_8B * c21 e_3_8B * c22 e_m1_48B * c32 e_m1_48B * c11 e_7_48B * c31 e_7_48B + c13 e_3_8B * c22 e_3_8B * c11 e_m1_48B * c21 e_m1_48B * c31 e_7_48B * c32 e_7_48B + c21 e_3_8B * c23 e_3_8B * c11 e_m1_48B * c12 e_m1_48B * c31 e_7_48B * c32 e_7_48B + c21 e_3_8B * c32 e_3_8B * c11 e_m1_48B * c13 e_m1_48B * c21 e_7_48B * c32 e_7_48B + c22 e_3_8B * c31 e_3_8B * c11 e_m1_48B * c12 e_m1_48B * c21 e_7_48B * c33 e_7_48B + c12 e_3_8B * c31 e_3_8B * c23 e_m1_48B * c33 e_m1_48B * c11 e_7_48B * c31 e_7_48B + c12 e_3_8B * c33 e_3_8B * c11 e_m1_48B * c31 e_m1_48B * c21 e_7_48B * c33 e_7_48B + c13 e_3_8B * c21 e_3_8B * c32 e_m1_48B * c33 e_m1_48B * c11 e_7_48B * c31 e_7_48B + c13 e_3_8B * c23 e_3_8B * c11 e_m1_48B * c31 e_m1_48B * c31 e_7_48B * c32 e_7_48B + c13 e_3_8B * c31 e_3_8B * c23 e_m1_48B * c32 e_m1_48B * c11 e_7_48B * c31 e_7_48B + c13 e_3_8B * c32 e_3_8B * c11 e_m1_48B * c21 e_m1_48B * c31 e_7_48B * c33 e_7_48B + c21 e_3_8B * c33 e_3_8B * c11 e_m1_48B * c13 e_m1_48B * c31 e_7_48B * c32 e_7_48B + c23 e_3_8B * c31 e_3_8B * c11 e_m1_48B * c12 e_m1_48B * c31 e_7_48B * c33 e_7_48B + c31 e_3_8B * c32 e_3_8B * c11 e_m1_48B * c13 e_m1_48B * c21 e_7_48B * c33 e_7_48B + c13 e_3_8B * c33 e_3_8B * c11 e_m1_48B * c31 e_m1_48B * c31 e_7_48B * c33 e_7_48B + c31 e_3_8B * c33 e_3_8B * c11 e_m1_48B * c13 e_m1_48B * c31 e_7_48B * c33 e_7_48B;
    RtoC 0;
    c13 e_3_8B * c13 e_3_8B * c11 e_m1_48B * c31 e_m1_48B * c31 e_7_48B * c31 e_7_48B + c11 e_3_8B * c11 e_3_8B * c11 e_m1_48B * c11 e_m1_48B * c11 e_7_48B * c31 e_7_48B + c11 e_3_8B * c23 e_3_8B * c11 e_m1_48B * c12 e_m1_48B * c31 e_7_48B * c31 e_7_48B + c12 e_3_8B * c13 e_3_8B * c11 e_m1_48B * c21 e_m1_48B * c31 e_7_48B * c31 e_7_48B + c11 e_3_8B * c33 e_3_8B * c11 e_m1_48B * c13 e_m1_48B * c31 e_7_48B * c31 e_7_48B + c21 e_3_8B * c21 e_3_8B * c11 e_m1_48B * c12 e_m1_48B * c11 e_7_48B * c32 e_7_48B + c12 e_3_8B * c12 e_3_8B * c11 e_m1_48B * c21 e_m1_48B * c21 e_7_48B * c31 e_7_48B + c31 e_3_8B * c31 e_3_8B * c11 e_m1_48B * c13 e_m1_48B * c11 e_7_48B * c33 e_7_48B + c22 e_3_8B * c22 e_3_8B * c12 e_m1_48B * c21 e_m1_48B * c21 e_7_48B * c32 e_7_48B + c32 e_3_8B * c32 e_3_8B * c13 e_m1_48B * c21 e_m1_48B * c21 e_7_48B * c33 e_7_48B + c23 e_3_8B * c23 e_3_8B * c12 e_m1_48B * c31 e_m1_48B * c31 e_7_48B * c32 e_7_48B + c33 e_3_8B * c33 e_3_8B * c13 e_m1_48B * c31 e_m1_48B * c31 e_7_48B * c33 e_7_48B + c11 e_3_8B * c22 e_3_8B * c11 e_m1_48B * c12 e_m1_48B * c21 e_7_48B * c31 e_7_48B + c11 e_3_8B * c22 e_3_8B * c11 e_m1_48B * c21 e_m1_48B * c11 e_7_48B * c32 e_7_48B + c11 e_3_8B * c23 e_3_8B * c11 e_m1_48B * c31 e_m1_48B * c11 e_7_48B * c32 e_7_48B + c11 e_3_8B * c32 e_3_8B * c11 e_m1_48B * c13 e_m1_48B * c21 e_7_48B * c31 e_7_48B + c11 e_3_8B * c32 e_3_8B * c11 e_m1_48B * c21 e_m1_48B * c11 e_7_48B * c33 e_7_48B + c12 e_3_8B * c13 e_3_8B * c11 e_m1_48B * c31 e_m1_48B * c21 e_7_48B * c31 e_7_48B + c21 e_3_8B * c31 e_3_8B * c11 e_m1_48B * c12 e_m1_48B * c11 e_7_48B * c33 e_7_48B + c21 e_3_8B * c31 e_3_8B * c11 e_m1_48B * c13 e_m1_48B * c11 e_7_48B * c32 e_7_48B + c11 e_3_8B * c33 e_3_8B * c11 e_m1_48B * c31 e_m1_48B * c11 e_7_48B * c33 e_7_48B + c22 e_3_8B * c23 e_3_8B * c12 e_m1_48B * c21 e_m1_48B * c31 e_7_48B * c32 e_7_48B + c22 e_3_8B * c23 e_3_8B * c12 e_m1_48B * c31 e_m1_48B * c21 e_7_48B * c32 e_7_48B + c22 e_3_8B * c32 e_3_8B * c12 e_m1_48B * c21 e_m1_48B * c21 e_7_48B * c33 e_7_48B + c22 e_3_8B * c32 e_3_8B * c13 e_m1_48B * c21 e_m1_48B * c21 e_7_48B * c32 e_7_48B + c22 e_3_8B * c33 e_3_8B * c12 e_m1_48B * c31 e_m1_48B * c21 e_7_48B * c33 e_7_48B + c22 e_3_8B * c33 e_3_8B * c13 e_m1_48B * c21 e_m1_48B * c31 e_7_48B * c32 e_7_48B + c23 e_3_8B * c32 e_3_8B * c12 e_m1_48B * c21 e_m1_48B * c31 e_7_48B * c33 e_7_48B + c23 e_3_8B * c32 e_3_8B * c13 e_m1_48B * c31 e_m1_48B * c21 e_7_48B * c32 e_7_48B + c23 e_3_8B * c33 e_3_8B * c12 e_m1_48B * c31 e_m1_48B * c31 e_7_48B * c33 e_7_48B + c23 e_3_8B * c33 e_3_8B * c13 e_m1_48B * c31 e_m1_48B * c31 e_7_48B * c32 e_7_48B + c32 e_3_8B * c33 e_3_8B * c13 e_m1_48B * c21 e_m1_48B * c31 e_7_48B * c33 e_7_48B + c32 e_3_8B * c33 e_3_8B * c13 e_m1_48B * c31 e_m1_48B * c21 e_7_48B * c33 e_7_48B;
    RtoC 0;
    c12 e_3_8B * c23 e_3_8B * c12 e_m1_48B * c21 e_m1_48B * c31 e_7_48B * c31 e_7_48B + c12 e_3_8B * c33 e_3_8B * c13 e_m1_48B * c21 e_m1_48B * c31 e_7_48B * c31 e_7_48B + c13 e_3_8B * c23 e_3_8B * c12 e_m1_48B * c31 e_m1_48B * c31 e_7_48B * c31 e_7_48B + c13 e_3_8B * c33 e_3_8B * c13 e_m1_48B * c31 e_m1_48B * c31 e_7_48B * c31 e_7_48B + c11 e_3_8B * c12 e_3_8B * c11 e_m1_48B * c21 e_m1_48B * c11 e_7_48B * c31 e_7_48B + c11 e_3_8B * c21 e_3_8B * c11 e_m1_48B * c12 e_m1_48B * c11 e_7_48B * c31 e_7_48B + c11 e_3_8B * c13 e_3_8B * c11 e_m1_48B * c31 e_m1_48B * c11 e_7_48B * c31 e_7_48B + c11 e_3_8B * c31 e_3_8B * c11 e_m1_48B * c13 e_m1_48B * c11 e_7_48B * c31 e_7_48B + c12 e_3_8B * c22 e_3_8B * c12 e_m1_48B * c21 e_m1_48B * c21 e_7_48B * c31 e_7_48B + c21 e_3_8B * c22 e_3_8B * c12 e_m1_48B * c21 e_m1_48B * c11 e_7_48B * c32 e_7_48B + c12 e_3_8B * c32 e_3_8B * c13 e_m1_48B * c21 e_m1_48B * c21 e_7_48B * c31 e_7_48B + c13 e_3_8B * c22 e_3_8B * c12 e_m1_48B * c31 e_m1_48B * c21 e_7_48B * c31 e_7_48B + c21 e_3_8B * c23 e_3_8B * c12 e_m1_48B * c31 e_m1_48B * c11 e_7_48B * c32 e_7_48B + c21 e_3_8B * c32 e_3_8B * c12 e_m1_48B * c21 e_m1_48B * c11 e_7_48B * c33 e_7_48B + c22 e_3_8B * c31 e_3_8B * c13 e_m1_48B * c21 e_m1_48B * c11 e_7_48B * c32 e_7_48B + c13 e_3_8B * c32 e_3_8B * c13 e_m1_48B * c31 e_m1_48B * c21 e_7_48B * c31 e_7_48B + c21 e_3_8B * c33 e_3_8B * c12 e_m1_48B * c31 e_m1_48B * c11 e_7_48B * c33 e_7_48B + c23 e_3_8B * c31 e_3_8B * c13 e_m1_48B * c31 e_m1_48B * c11 e_7_48B * c32 e_7_48B + c31 e_3_8B * c32 e_3_8B * c13 e_m1_48B * c21 e_m1_48B * c11 e_7_48B * c33 e_7_48B + c31 e_3_8B * c33 e_3_8B * c13 e_m1_48B * c31 e_m1_48B * c11 e_7_48B * c33 e_7_48B;
    RtoC 0;
    c12 e_3_8B * c21 e_3_8B * c12 e_m1_48B * c21 e_m1_48B * c11 e_7_48B * c31 e_7_48B + c12 e_3_8B * c31 e_3_8B * c13 e_m1_48B * c21 e_m1_48B * c11 e_7_48B * c31 e_7_48B + c13 e_3_8B * c21 e_3_8B * c12 e_m1_48B * c31 e_m1_48B * c11 e_7_48B * c31 e_7_48B + c13 e_3_8B * c31 e_3_8B * c13 e_m1_48B * c31 e_m1_48B * c11 e_7_48B * c31 e_7_48B];
   [c13 e_3_8B * c21 e_3_8B * c12 e_m1_48B * c21 e_m1_48B * c32 e_7_48B * c32 e_7_48B + c13 e_3_8B * c21 e_3_8B * c13 e_m1_48B * c31 e_m1_48B * c32 e_7_48B * c32 e_7_48B + c12 e_3_8B * c21 e_3_8B * c12 e_m1_48B * c21 e_m1_48B * c22 e_7_48B * c32 e_7_48B + c12 e_3_8B * c21 e_3_8B * c13 e_m1_48B * c31 e_m1_48B * c22 e_7_48B * c32 e_7_48B + c12 e_3_8B * c31 e_3_8B * c12 e_m1_48B * c21 e_m1_48B * c22 e_7_48B * c33 e_7_48B + c12 e_3_8B * c31 e_3_8B * c13 e_m1_48B * c31 e_m1_48B * c22 e_7_48B * c33 e_7_48B + c13 e_3_8B * c31 e_3_8B * c12 e_m1_48B * c21 e_m1_48B * c32 e_7_48B * c33 e_7_48B + c13 e_3_8B * c31 e_3_8B * c13 e_m1_48B * c31 e_m1_48B * c32 e_7_48B * c33 e_7_48B;
    RtoC 0;
    c13 e_3_8B * c22 e_3_8B * c21 e_m1_48B * c22 e_m1_48B * c32 e_7_48B * c32 e_7_48B + c21 e_3_8B * c23 e_3_8B * c12 e_m1_48B * c22 e_m1_48B * c32 e_7_48B * c32 e_7_48B + c13 e_3_8B * c22 e_3_8B * c23 e_m1_48B * c31 e_m1_48B * c32 e_7_48B * c32 e_7_48B + c13 e_3_8B * c23 e_3_8B * c21 e_m1_48B * c32 e_m1_48B * c32 e_7_48B * c32 e_7_48B + c21 e_3_8B * c23 e_3_8B * c13 e_m1_48B * c32 e_m1_48B * c32 e_7_48B * c32 e_7_48B + c21 e_3_8B * c33 e_3_8B * c12 e_m1_48B * c23 e_m1_48B * c32 e_7_48B * c32 e_7_48B + c13 e_3_8B * c23 e_3_8B * c31 e_m1_48B * c33 e_m1_48B * c32 e_7_48B * c32 e_7_48B + c21 e_3_8B * c33 e_3_8B * c13 e_m1_48B * c33 e_m1_48B * c32 e_7_48B * c32 e_7_48B + c11 e_3_8B * c12 e_3_8B * c12 e_m1_48B * c21 e_m1_48B * c22 e_7_48B * c31 e_7_48B + c11 e_3_8B * c21 e_3_8B * c12 e_m1_48B * c21 e_m1_48B * c12 e_7_48B * c32 e_7_48B + c11 e_3_8B * c12 e_3_8B * c13 e_m1_48B * c31 e_m1_48B * c22 e_7_48B * c31 e_7_48B + c11 e_3_8B * c13 e_3_8B * c12 e_m1_48B * c21 e_m1_48B * c31 e_7_48B * c32 e_7_48B + c11 e_3_8B * c21 e_3_8B * c13 e_m1_48B * c31 e_m1_48B * c12 e_7_48B * c32 e_7_48B + c11 e_3_8B * c31 e_3_8B * c12 e_m1_48B * c21 e_m1_48B * c12 e_7_48B * c33 e_7_48B + c11 e_3_8B * c13 e_3_8B * c13 e_m1_48B * c31 e_m1_48B * c31 e_7_48B * c32 e_7_48B + c11 e_3_8B * c31 e_3_8B * c13 e_m1_48B * c31 e_m1_48B * c12 e_7_48B * c33 e_7_48B + c12 e_3_8B * c22 e_3_8B * c21 e_m1_48B * c22 e_m1_48B * c22 e_7_48B * c32 e_7_48B + c21 e_3_8B * c22 e_3_8B * c12 e_m1_48B * c22 e_m1_48B * c22 e_7_48B * c32 e_7_48B + c12 e_3_8B * c22 e_3_8B * c23 e_m1_48B * c31 e_m1_48B * c22 e_7_48B * c32 e_7_48B + c12 e_3_8B * c23 e_3_8B * c21 e_m1_48B * c32 e_m1_48B * c22 e_7_48B * c32 e_7_48B + c12 e_3_8B * c32 e_3_8B * c21 e_m1_48B * c22 e_m1_48B * c22 e_7_48B * c33 e_7_48B + c21 e_3_8B * c22 e_3_8B * c13 e_m1_48B * c32 e_m1_48B * c22 e_7_48B * c32 e_7_48B + c21 e_3_8B * c32 e_3_8B * c12 e_m1_48B * c23 e_m1_48B * c22 e_7_48B * c32 e_7_48B + c22 e_3_8B * c31 e_3_8B * c12 e_m1_48B * c22 e_m1_48B * c22 e_7_48B * c33 e_7_48B + c12 e_3_8B * c23 e_3_8B * c31 e_m1_48B * c33 e_m1_48B * c22 e_7_48B * c32 e_7_48B + c12 e_3_8B * c32 e_3_8B * c23 e_m1_48B * c31 e_m1_48B * c22 e_7_48B * c33 e_7_48B + c12 e_3_8B * c33 e_3_8B * c21 e_m1_48B * c32 e_m1_48B * c22 e_7_48B * c33 e_7_48B + c13 e_3_8B * c32 e_3_8B * c21 e_m1_48B * c22 e_m1_48B * c32 e_7_48B * c33 e_7_48B + c21 e_3_8B * c32 e_3_8B * c13 e_m1_48B * c33 e_m1_48B * c22 e_7_48B * c32 e_7_48B + c22 e_3_8B * c31 e_3_8B * c13 e_m1_48B * c32 e_m1_48B * c22 e_7_48B * c33 e_7_48B + c23 e_3_8B * c31 e_3_8B * c12 e_m1_48B * c22 e_m1_48B * c32 e_7_48B * c33 e_7_48B + c31 e_3_8B * c32 e_3_8B * c12 e_m1_48B * c23 e_m1_48B * c22 e_7_48B * c33 e_7_48B + c12 e_3_8B * c33 e_3_8B * c31 e_m1_48B * c33 e_m1_48B * c22 e_7_48B * c33 e_7_48B + c13 e_3_8B * c32 e_3_8B * c23 e_m1_48B * c31 e_m1_48B * c32 e_7_48B * c33 e_7_48B + c13 e_3_8B * c33 e_3_8B * c21 e_m1_48B * c32 e_m1_48B * c32 e_7_48B * c33 e_7_48B + c23 e_3_8B * c31 e_3_8B * c13 e_m1_48B * c32 e_m1_48B * c32 e_7_48B * c33 e_7_48B + c31 e_3_8B * c32 e_3_8B * c13 e_m1_48B * c33 e_m1_48B * c22 e_7_48B * c33 e_7_48B + c31 e_3_8B * c33 e_3_8B * c12 e_m1_48B * c23 e_m1_48B * c32 e_7_48B * c33 e_7_48B + c13 e_3_8B * c33 e_3_8B * c31 e_m1_48B * c33 e_m1_48B * c32 e_7_48B * c33 e_7_48B + c31 e_3_8B * c33 e_3_8B * c13 e_m1_48B * c33 e_m1_48B * c32 e_7_48B * c33 e_7_48B;
    RtoC 0;
    c22 e_3_8B * c23 e_3_8B * c22 e_m1_48B * c22 e_m1_48B * c32 e_7_48B * c32 e_7_48B + c23 e_3_8B * c33 e_3_8B * c33 e_m1_48B * c33 e_m1_48B * c32 e_7_48B * c32 e_7_48B + c23 e_3_8B * c23 e_3_8B * c22 e_m1_48B * c32 e_m1_48B * c32 e_7_48B * c32 e_7_48B + c23 e_3_8B * c23 e_3_8B * c32 e_m1_48B * c33 e_m1_48B * c32 e_7_48B * c32 e_7_48B + c22 e_3_8B * c22 e_3_8B * c22 e_m1_48B * c22 e_m1_48B * c22 e_7_48B * c32 e_7_48B + c33 e_3_8B * c33 e_3_8B * c33 e_m1_48B * c33 e_m1_48B * c32 e_7_48B * c33 e_7_48B + c22 e_3_8B * c23 e_3_8B * c23 e_m1_48B * c32 e_m1_48B * c32 e_7_48B * c32 e_7_48B + c22 e_3_8B * c33 e_3_8B * c22 e_m1_48B * c23 e_m1_48B * c32 e_7_48B * c32 e_7_48B + c22 e_3_8B * c33 e_3_8B * c23 e_m1_48B * c33 e_m1_48B * c32 e_7_48B * c32 e_7_48B + c23 e_3_8B * c33 e_3_8B * c23 e_m1_48B * c32 e_m1_48B * c32 e_7_48B * c32 e_7_48B + c22 e_3_8B * c32 e_3_8B * c22 e_m1_48B * c22 e_m1_48B * c22 e_7_48B * c33 e_7_48B + c23 e_3_8B * c32 e_3_8B * c22 e_m1_48B * c22 e_m1_48B * c32 e_7_48B * c33 e_7_48B + c23 e_3_8B * c32 e_3_8B * c33 e_m1_48B * c33 e_m1_48B * c22 e_7_48B * c32 e_7_48B + c32 e_3_8B * c33 e_3_8B * c33 e_m1_48B * c33 e_m1_48B * c22 e_7_48B * c33 e_7_48B + c11 e_3_8B * c11 e_3_8B * c12 e_m1_48B * c21 e_m1_48B * c12 e_7_48B * c31 e_7_48B + c11 e_3_8B * c11 e_3_8B * c13 e_m1_48B * c31 e_m1_48B * c12 e_7_48B * c31 e_7_48B + c21 e_3_8B * c21 e_3_8B * c12 e_m1_48B * c22 e_m1_48B * c12 e_7_48B * c32 e_7_48B + c12 e_3_8B * c12 e_3_8B * c21 e_m1_48B * c22 e_m1_48B * c22 e_7_48B * c31 e_7_48B + c21 e_3_8B * c21 e_3_8B * c13 e_m1_48B * c32 e_m1_48B * c12 e_7_48B * c32 e_7_48B + c31 e_3_8B * c31 e_3_8B * c12 e_m1_48B * c23 e_m1_48B * c12 e_7_48B * c33 e_7_48B + c12 e_3_8B * c12 e_3_8B * c23 e_m1_48B * c31 e_m1_48B * c22 e_7_48B * c31 e_7_48B + c31 e_3_8B * c31 e_3_8B * c13 e_m1_48B * c33 e_m1_48B * c12 e_7_48B * c33 e_7_48B + c13 e_3_8B * c13 e_3_8B * c21 e_m1_48B * c32 e_m1_48B * c31 e_7_48B * c32 e_7_48B + c22 e_3_8B * c22 e_3_8B * c23 e_m1_48B * c32 e_m1_48B * c22 e_7_48B * c32 e_7_48B + c32 e_3_8B * c32 e_3_8B * c22 e_m1_48B * c23 e_m1_48B * c22 e_7_48B * c33 e_7_48B + c13 e_3_8B * c13 e_3_8B * c31 e_m1_48B * c33 e_m1_48B * c31 e_7_48B * c32 e_7_48B + c32 e_3_8B * c32 e_3_8B * c23 e_m1_48B * c33 e_m1_48B * c22 e_7_48B * c33 e_7_48B + c33 e_3_8B * c33 e_3_8B * c23 e_m1_48B * c32 e_m1_48B * c32 e_7_48B * c33 e_7_48B + c11 e_3_8B * c22 e_3_8B * c12 e_m1_48B * c22 e_m1_48B * c22 e_7_48B * c31 e_7_48B + c11 e_3_8B * c22 e_3_8B * c21 e_m1_48B * c22 e_m1_48B * c12 e_7_48B * c32 e_7_48B + c11 e_3_8B * c22 e_3_8B * c13 e_m1_48B * c32 e_m1_48B * c22 e_7_48B * c31 e_7_48B + c11 e_3_8B * c22 e_3_8B * c23 e_m1_48B * c31 e_m1_48B * c12 e_7_48B * c32 e_7_48B + c11 e_3_8B * c23 e_3_8B * c12 e_m1_48B * c22 e_m1_48B * c31 e_7_48B * c32 e_7_48B + c11 e_3_8B * c23 e_3_8B * c21 e_m1_48B * c32 e_m1_48B * c12 e_7_48B * c32 e_7_48B + c11 e_3_8B * c32 e_3_8B * c12 e_m1_48B * c23 e_m1_48B * c22 e_7_48B * c31 e_7_48B + c11 e_3_8B * c32 e_3_8B * c21 e_m1_48B * c22 e_m1_48B * c12 e_7_48B * c33 e_7_48B + c12 e_3_8B * c13 e_3_8B * c21 e_m1_48B * c22 e_m1_48B * c31 e_7_48B * c32 e_7_48B + c12 e_3_8B * c13 e_3_8B * c21 e_m1_48B * c32 e_m1_48B * c22 e_7_48B * c31 e_7_48B + c21 e_3_8B * c31 e_3_8B * c12 e_m1_48B * c22 e_m1_48B * c12 e_7_48B * c33 e_7_48B + c21 e_3_8B * c31 e_3_8B * c12 e_m1_48B * c23 e_m1_48B * c12 e_7_48B * c32 e_7_48B + c11 e_3_8B * c23 e_3_8B * c13 e_m1_48B * c32 e_m1_48B * c31 e_7_48B * c32 e_7_48B + c11 e_3_8B * c23 e_3_8B * c31 e_m1_48B * c33 e_m1_48B * c12 e_7_48B * c32 e_7_48B + c11 e_3_8B * c32 e_3_8B * c13 e_m1_48B * c33 e_m1_48B * c22 e_7_48B * c31 e_7_48B + c11 e_3_8B * c32 e_3_8B * c23 e_m1_48B * c31 e_m1_48B * c12 e_7_48B * c33 e_7_48B + c11 e_3_8B * c33 e_3_8B * c12 e_m1_48B * c23 e_m1_48B * c31 e_7_48B * c32 e_7_48B + c11 e_3_8B * c33 e_3_8B * c21 e_m1_48B * c32 e_m1_48B * c12 e_7_48B * c33 e_7_48B + c12 e_3_8B * c13 e_3_8B * c23 e_m1_48B * c31 e_m1_48B * c31 e_7_48B * c32 e_7_48B + c12 e_3_8B * c13 e_3_8B * c31 e_m1_48B * c33 e_m1_48B * c22 e_7_48B * c31 e_7_48B + c21 e_3_8B * c31 e_3_8B * c13 e_m1_48B * c32 e_m1_48B * c12 e_7_48B * c33 e_7_48B + c21 e_3_8B * c31 e_3_8B * c13 e_m1_48B * c33 e_m1_48B * c12 e_7_48B * c32 e_7_48B + c11 e_3_8B * c33 e_3_8B * c13 e_m1_48B * c33 e_m1_48B * c31 e_7_48B * c32 e_7_48B + c11 e_3_8B * c33 e_3_8B * c31 e_m1_48B * c33 e_m1_48B * c12 e_7_48B * c33 e_7_48B + c22 e_3_8B * c23 e_3_8B * c22 e_m1_48B * c32 e_m1_48B * c22 e_7_48B * c32 e_7_48B + c22 e_3_8B * c32 e_3_8B * c22 e_m1_48B * c23 e_m1_48B * c22 e_7_48B * c32 e_7_48B + c22 e_3_8B * c23 e_3_8B * c32 e_m1_48B * c33 e_m1_48B * c22 e_7_48B * c32 e_7_48B + c22 e_3_8B * c32 e_3_8B * c23 e_m1_48B * c32 e_m1_48B * c22 e_7_48B * c33 e_7_48B + c22 e_3_8B * c32 e_3_8B * c23 e_m1_48B * c33 e_m1_48B * c22 e_7_48B * c32 e_7_48B + c22 e_3_8B * c33 e_3_8B * c22 e_m1_48B * c32 e_m1_48B * c22 e_7_48B * c33 e_7_48B + c23 e_3_8B * c32 e_3_8B * c23 e_m1_48B * c32 e_m1_48B * c22 e_7_48B * c32 e_7_48B + c22 e_3_8B * c33 e_3_8B * c32 e_m1_48B * c33 e_m1_48B * c22 e_7_48B * c33 e_7_48B + c23 e_3_8B * c32 e_3_8B * c23 e_m1_48B * c32 e_m1_48B * c32 e_7_48B * c33 e_7_48B + c23 e_3_8B * c33 e_3_8B * c22 e_m1_48B * c32 e_m1_48B * c32 e_7_48B * c33 e_7_48B + c32 e_3_8B * c33 e_3_8B * c22 e_m1_48B * c23 e_m1_48B * c32 e_7_48B * c33 e_7_48B + c32 e_3_8B * c33 e_3_8B * c23 e_m1_48B * c32 e_m1_48B * c22 e_7_48B * c33 e_7_48B + c23 e_3_8B * c33 e_3_8B * c32 e_m1_48B * c33 e_m1_48B * c32 e_7_48B * c33 e_7_48B + c32 e_3_8B * c33 e_3_8B * c23 e_m1_48B * c33 e_m1_48B * c32 e_7_48B * c33 e_7_48B;
    RtoC 0;
    c13 e_3_8B * c21 e_3_8B * c11 e_m1_48B * c11 e_m1_48B * c32 e_7_48B * c32 e_7_48B + c12 e_3_8B * c21 e_3_8B * c11 e_m1_48B * c11 e_m1_48B * c22 e_7_48B * c32 e_7_48B + c12 e_3_8B * c22 e_3_8B * c22 e_m1_48B * c22 e_m1_48B * c22 e_7_48B * c31 e_7_48B + c12 e_3_8B * c31 e_3_8B * c11 e_m1_48B * c11 e_m1_48B * c22 e_7_48B * c33 e_7_48B + c21 e_3_8B * c22 e_3_8B * c22 e_m1_48B * c22 e_m1_48B * c12 e_7_48B * c32 e_7_48B + c12 e_3_8B * c23 e_3_8B * c22 e_m1_48B * c22 e_m1_48B * c31 e_7_48B * c32 e_7_48B + c13 e_3_8B * c31 e_3_8B * c11 e_m1_48B * c11 e_m1_48B * c32 e_7_48B * c33 e_7_48B + c21 e_3_8B * c32 e_3_8B * c22 e_m1_48B * c22 e_m1_48B * c12 e_7_48B * c33 e_7_48B + c13 e_3_8B * c32 e_3_8B * c33 e_m1_48B * c33 e_m1_48B * c22 e_7_48B * c31 e_7_48B + c23 e_3_8B * c31 e_3_8B * c33 e_m1_48B * c33 e_m1_48B * c12 e_7_48B * c32 e_7_48B + c13 e_3_8B * c33 e_3_8B * c33 e_m1_48B * c33 e_m1_48B * c31 e_7_48B * c32 e_7_48B + c31 e_3_8B * c33 e_3_8B * c33 e_m1_48B * c33 e_m1_48B * c12 e_7_48B * c33 e_7_48B + c11 e_3_8B * c12 e_3_8B * c21 e_m1_48B * c22 e_m1_48B * c12 e_7_48B * c31 e_7_48B + c11 e_3_8B * c21 e_3_8B * c12 e_m1_48B * c22 e_m1_48B * c12 e_7_48B * c31 e_7_48B + c11 e_3_8B * c12 e_3_8B * c23 e_m1_48B * c31 e_m1_48B * c12 e_7_48B * c31 e_7_48B + c11 e_3_8B * c13 e_3_8B * c21 e_m1_48B * c32 e_m1_48B * c12 e_7_48B * c31 e_7_48B + c11 e_3_8B * c21 e_3_8B * c13 e_m1_48B * c32 e_m1_48B * c12 e_7_48B * c31 e_7_48B + c11 e_3_8B * c31 e_3_8B * c12 e_m1_48B * c23 e_m1_48B * c12 e_7_48B * c31 e_7_48B + c11 e_3_8B * c13 e_3_8B * c31 e_m1_48B * c33 e_m1_48B * c12 e_7_48B * c31 e_7_48B + c11 e_3_8B * c31 e_3_8B * c13 e_m1_48B * c33 e_m1_48B * c12 e_7_48B * c31 e_7_48B + c12 e_3_8B * c22 e_3_8B * c23 e_m1_48B * c32 e_m1_48B * c22 e_7_48B * c31 e_7_48B + c12 e_3_8B * c32 e_3_8B * c22 e_m1_48B * c23 e_m1_48B * c22 e_7_48B * c31 e_7_48B + c13 e_3_8B * c22 e_3_8B * c22 e_m1_48B * c32 e_m1_48B * c22 e_7_48B * c31 e_7_48B + c21 e_3_8B * c22 e_3_8B * c23 e_m1_48B * c32 e_m1_48B * c12 e_7_48B * c32 e_7_48B + c21 e_3_8B * c23 e_3_8B * c22 e_m1_48B * c32 e_m1_48B * c12 e_7_48B * c32 e_7_48B + c22 e_3_8B * c31 e_3_8B * c22 e_m1_48B * c23 e_m1_48B * c12 e_7_48B * c32 e_7_48B + c12 e_3_8B * c23 e_3_8B * c23 e_m1_48B * c32 e_m1_48B * c31 e_7_48B * c32 e_7_48B + c12 e_3_8B * c32 e_3_8B * c23 e_m1_48B * c33 e_m1_48B * c22 e_7_48B * c31 e_7_48B + c12 e_3_8B * c33 e_3_8B * c22 e_m1_48B * c23 e_m1_48B * c31 e_7_48B * c32 e_7_48B + c13 e_3_8B * c22 e_3_8B * c32 e_m1_48B * c33 e_m1_48B * c22 e_7_48B * c31 e_7_48B + c13 e_3_8B * c23 e_3_8B * c22 e_m1_48B * c32 e_m1_48B * c31 e_7_48B * c32 e_7_48B + c13 e_3_8B * c32 e_3_8B * c23 e_m1_48B * c32 e_m1_48B * c22 e_7_48B * c31 e_7_48B + c21 e_3_8B * c23 e_3_8B * c32 e_m1_48B * c33 e_m1_48B * c12 e_7_48B * c32 e_7_48B + c21 e_3_8B * c32 e_3_8B * c23 e_m1_48B * c32 e_m1_48B * c12 e_7_48B * c33 e_7_48B + c21 e_3_8B * c33 e_3_8B * c22 e_m1_48B * c32 e_m1_48B * c12 e_7_48B * c33 e_7_48B + c22 e_3_8B * c31 e_3_8B * c23 e_m1_48B * c33 e_m1_48B * c12 e_7_48B * c32 e_7_48B + c23 e_3_8B * c31 e_3_8B * c23 e_m1_48B * c32 e_m1_48B * c12 e_7_48B * c32 e_7_48B + c31 e_3_8B * c32 e_3_8B * c22 e_m1_48B * c23 e_m1_48B * c12 e_7_48B * c33 e_7_48B + c12 e_3_8B * c33 e_3_8B * c23 e_m1_48B * c33 e_m1_48B * c31 e_7_48B * c32 e_7_48B + c13 e_3_8B * c23 e_3_8B * c32 e_m1_48B * c33 e_m1_48B * c31 e_7_48B * c32 e_7_48B + c13 e_3_8B * c33 e_3_8B * c23 e_m1_48B * c32 e_m1_48B * c31 e_7_48B * c32 e_7_48B + c21 e_3_8B * c33 e_3_8B * c32 e_m1_48B * c33 e_m1_48B * c12 e_7_48B * c33 e_7_48B + c31 e_3_8B * c32 e_3_8B * c23 e_m1_48B * c33 e_m1_48B * c12 e_7_48B * c33 e_7_48B + c31 e_3_8B * c33 e_3_8B * c23 e_m1_48B * c32 e_m1_48B * c12 e_7_48B * c33 e_7_48B;
    RtoC 0;
    c13 e_3_8B * c22 e_3_8B * c11 e_m1_48B * c21 e_m1_48B * c32 e_7_48B * c32 e_7_48B + c21 e_3_8B * c23 e_3_8B * c11 e_m1_48B * c12 e_m1_48B * c32 e_7_48B * c32 e_7_48B + c13 e_3_8B * c23 e_3_8B * c11 e_m1_48B * c31 e_m1_48B * c32 e_7_48B * c32 e_7_48B + c21 e_3_8B * c33 e_3_8B * c11 e_m1_48B * c13 e_m1_48B * c32 e_7_48B * c32 e_7_48B + c11 e_3_8B * c12 e_3_8B * c11 e_m1_48B * c11 e_m1_48B * c22 e_7_48B * c31 e_7_48B + c11 e_3_8B * c21 e_3_8B * c11 e_m1_48B * c11 e_m1_48B * c12 e_7_48B * c32 e_7_48B + c11 e_3_8B * c13 e_3_8B * c11 e_m1_48B * c11 e_m1_48B * c31 e_7_48B * c32 e_7_48B + c11 e_3_8B * c31 e_3_8B * c11 e_m1_48B * c11 e_m1_48B * c12 e_7_48B * c33 e_7_48B + c12 e_3_8B * c21 e_3_8B * c22 e_m1_48B * c22 e_m1_48B * c12 e_7_48B * c31 e_7_48B + c13 e_3_8B * c31 e_3_8B * c33 e_m1_48B * c33 e_m1_48B * c12 e_7_48B * c31 e_7_48B + c12 e_3_8B * c22 e_3_8B * c11 e_m1_48B * c21 e_m1_48B * c22 e_7_48B * c32 e_7_48B + c21 e_3_8B * c22 e_3_8B * c11 e_m1_48B * c12 e_m1_48B * c22 e_7_48B * c32 e_7_48B + c12 e_3_8B * c21 e_3_8B * c23 e_m1_48B * c32 e_m1_48B * c12 e_7_48B * c31 e_7_48B + c12 e_3_8B * c23 e_3_8B * c11 e_m1_48B * c31 e_m1_48B * c22 e_7_48B * c32 e_7_48B + c12 e_3_8B * c31 e_3_8B * c22 e_m1_48B * c23 e_m1_48B * c12 e_7_48B * c31 e_7_48B + c12 e_3_8B * c32 e_3_8B * c11 e_m1_48B * c21 e_m1_48B * c22 e_7_48B * c33 e_7_48B + c13 e_3_8B * c21 e_3_8B * c22 e_m1_48B * c32 e_m1_48B * c12 e_7_48B * c31 e_7_48B + c21 e_3_8B * c32 e_3_8B * c11 e_m1_48B * c13 e_m1_48B * c22 e_7_48B * c32 e_7_48B + c22 e_3_8B * c31 e_3_8B * c11 e_m1_48B * c12 e_m1_48B * c22 e_7_48B * c33 e_7_48B + c12 e_3_8B * c31 e_3_8B * c23 e_m1_48B * c33 e_m1_48B * c12 e_7_48B * c31 e_7_48B + c12 e_3_8B * c33 e_3_8B * c11 e_m1_48B * c31 e_m1_48B * c22 e_7_48B * c33 e_7_48B + c13 e_3_8B * c21 e_3_8B * c32 e_m1_48B * c33 e_m1_48B * c12 e_7_48B * c31 e_7_48B + c13 e_3_8B * c31 e_3_8B * c23 e_m1_48B * c32 e_m1_48B * c12 e_7_48B * c31 e_7_48B + c13 e_3_8B * c32 e_3_8B * c11 e_m1_48B * c21 e_m1_48B * c32 e_7_48B * c33 e_7_48B + c23 e_3_8B * c31 e_3_8B * c11 e_m1_48B * c12 e_m1_48B * c32 e_7_48B * c33 e_7_48B + c31 e_3_8B * c32 e_3_8B * c11 e_m1_48B * c13 e_m1_48B * c22 e_7_48B * c33 e_7_48B + c13 e_3_8B * c33 e_3_8B * c11 e_m1_48B * c31 e_m1_48B * c32 e_7_48B * c33 e_7_48B + c31 e_3_8B * c33 e_3_8B * c11 e_m1_48B * c13 e_m1_48B * c32 e_7_48B * c33 e_7_48B;
    RtoC 0;
    c23 e_3_8B * c23 e_3_8B * c12 e_m1_48B * c31 e_m1_48B * c32 e_7_48B * c32 e_7_48B + c11 e_3_8B * c11 e_3_8B * c11 e_m1_48B * c11 e_m1_48B * c12 e_7_48B * c31 e_7_48B + c22 e_3_8B * c23 e_3_8B * c12 e_m1_48B * c21 e_m1_48B * c32 e_7_48B * c32 e_7_48B + c22 e_3_8B * c33 e_3_8B * c13 e_m1_48B * c21 e_m1_48B * c32 e_7_48B * c32 e_7_48B + c23 e_3_8B * c33 e_3_8B * c13 e_m1_48B * c31 e_m1_48B * c32 e_7_48B * c32 e_7_48B + c21 e_3_8B * c21 e_3_8B * c11 e_m1_48B * c12 e_m1_48B * c12 e_7_48B * c32 e_7_48B + c12 e_3_8B * c12 e_3_8B * c11 e_m1_48B * c21 e_m1_48B * c22 e_7_48B * c31 e_7_48B + c31 e_3_8B * c31 e_3_8B * c11 e_m1_48B * c13 e_m1_48B * c12 e_7_48B * c33 e_7_48B + c22 e_3_8B * c22 e_3_8B * c12 e_m1_48B * c21 e_m1_48B * c22 e_7_48B * c32 e_7_48B + c13 e_3_8B * c13 e_3_8B * c11 e_m1_48B * c31 e_m1_48B * c31 e_7_48B * c32 e_7_48B + c32 e_3_8B * c32 e_3_8B * c13 e_m1_48B * c21 e_m1_48B * c22 e_7_48B * c33 e_7_48B + c33 e_3_8B * c33 e_3_8B * c13 e_m1_48B * c31 e_m1_48B * c32 e_7_48B * c33 e_7_48B + c11 e_3_8B * c22 e_3_8B * c11 e_m1_48B * c12 e_m1_48B * c22 e_7_48B * c31 e_7_48B + c11 e_3_8B * c22 e_3_8B * c11 e_m1_48B * c21 e_m1_48B * c12 e_7_48B * c32 e_7_48B + c11 e_3_8B * c23 e_3_8B * c11 e_m1_48B * c12 e_m1_48B * c31 e_7_48B * c32 e_7_48B + c11 e_3_8B * c23 e_3_8B * c11 e_m1_48B * c31 e_m1_48B * c12 e_7_48B * c32 e_7_48B + c11 e_3_8B * c32 e_3_8B * c11 e_m1_48B * c13 e_m1_48B * c22 e_7_48B * c31 e_7_48B + c11 e_3_8B * c32 e_3_8B * c11 e_m1_48B * c21 e_m1_48B * c12 e_7_48B * c33 e_7_48B + c12 e_3_8B * c13 e_3_8B * c11 e_m1_48B * c21 e_m1_48B * c31 e_7_48B * c32 e_7_48B + c12 e_3_8B * c13 e_3_8B * c11 e_m1_48B * c31 e_m1_48B * c22 e_7_48B * c31 e_7_48B + c21 e_3_8B * c31 e_3_8B * c11 e_m1_48B * c12 e_m1_48B * c12 e_7_48B * c33 e_7_48B + c21 e_3_8B * c31 e_3_8B * c11 e_m1_48B * c13 e_m1_48B * c12 e_7_48B * c32 e_7_48B + c11 e_3_8B * c33 e_3_8B * c11 e_m1_48B * c13 e_m1_48B * c31 e_7_48B * c32 e_7_48B + c11 e_3_8B * c33 e_3_8B * c11 e_m1_48B * c31 e_m1_48B * c12 e_7_48B * c33 e_7_48B + c22 e_3_8B * c23 e_3_8B * c12 e_m1_48B * c31 e_m1_48B * c22 e_7_48B * c32 e_7_48B + c22 e_3_8B * c32 e_3_8B * c12 e_m1_48B * c21 e_m1_48B * c22 e_7_48B * c33 e_7_48B + c22 e_3_8B * c32 e_3_8B * c13 e_m1_48B * c21 e_m1_48B * c22 e_7_48B * c32 e_7_48B + c22 e_3_8B * c33 e_3_8B * c12 e_m1_48B * c31 e_m1_48B * c22 e_7_48B * c33 e_7_48B + c23 e_3_8B * c32 e_3_8B * c12 e_m1_48B * c21 e_m1_48B * c32 e_7_48B * c33 e_7_48B + c23 e_3_8B * c32 e_3_8B * c13 e_m1_48B * c31 e_m1_48B * c22 e_7_48B * c32 e_7_48B + c23 e_3_8B * c33 e_3_8B * c12 e_m1_48B * c31 e_m1_48B * c32 e_7_48B * c33 e_7_48B + c32 e_3_8B * c33 e_3_8B * c13 e_m1_48B * c21 e_m1_48B * c32 e_7_48B * c33 e_7_48B + c32 e_3_8B * c33 e_3_8B * c13 e_m1_48B * c31 e_m1_48B * c22 e_7_48B * c33 e_7_48B;
    RtoC 0;
    c11 e_3_8B * c12 e_3_8B * c11 e_m1_48B * c21 e_m1_48B * c12 e_7_48B * c31 e_7_48B + c11 e_3_8B * c21 e_3_8B * c11 e_m1_48B * c12 e_m1_48B * c12 e_7_48B * c31 e_7_48B + c11 e_3_8B * c13 e_3_8B * c11 e_m1_48B * c31 e_m1_48B * c12 e_7_48B * c31 e_7_48B + c11 e_3_8B * c31 e_3_8B * c11 e_m1_48B * c13 e_m1_48B * c12 e_7_48B * c31 e_7_48B + c12 e_3_8B * c22 e_3_8B * c12 e_m1_48B * c21 e_m1_48B * c22 e_7_48B * c31 e_7_48B + c21 e_3_8B * c22 e_3_8B * c12 e_m1_48B * c21 e_m1_48B * c12 e_7_48B * c32 e_7_48B + c12 e_3_8B * c23 e_3_8B * c12 e_m1_48B * c21 e_m1_48B * c31 e_7_48B * c32 e_7_48B + c12 e_3_8B * c32 e_3_8B * c13 e_m1_48B * c21 e_m1_48B * c22 e_7_48B * c31 e_7_48B + c13 e_3_8B * c22 e_3_8B * c12 e_m1_48B * c31 e_m1_48B * c22 e_7_48B * c31 e_7_48B + c21 e_3_8B * c23 e_3_8B * c12 e_m1_48B * c31 e_m1_48B * c12 e_7_48B * c32 e_7_48B + c21 e_3_8B * c32 e_3_8B * c12 e_m1_48B * c21 e_m1_48B * c12 e_7_48B * c33 e_7_48B + c22 e_3_8B * c31 e_3_8B * c13 e_m1_48B * c21 e_m1_48B * c12 e_7_48B * c32 e_7_48B + c12 e_3_8B * c33 e_3_8B * c13 e_m1_48B * c21 e_m1_48B * c31 e_7_48B * c32 e_7_48B + c13 e_3_8B * c23 e_3_8B * c12 e_m1_48B * c31 e_m1_48B * c31 e_7_48B * c32 e_7_48B + c13 e_3_8B * c32 e_3_8B * c13 e_m1_48B * c31 e_m1_48B * c22 e_7_48B * c31 e_7_48B + c21 e_3_8B * c33 e_3_8B * c12 e_m1_48B * c31 e_m1_48B * c12 e_7_48B * c33 e_7_48B + c23 e_3_8B * c31 e_3_8B * c13 e_m1_48B * c31 e_m1_48B * c12 e_7_48B * c32 e_7_48B + c31 e_3_8B * c32 e_3_8B * c13 e_m1_48B * c21 e_m1_48B * c12 e_7_48B * c33 e_7_48B + c13 e_3_8B * c33 e_3_8B * c13 e_m1_48B * c31 e_m1_48B * c31 e_7_48B * c32 e_7_48B + c31 e_3_8B * c33 e_3_8B * c13 e_m1_48B * c31 e_m1_48B * c12 e_7_48B * c33 e_7_48B;
    RtoC 0;
    c12 e_3_8B * c21 e_3_8B * c12 e_m1_48B * c21 e_m1_48B * c12 e_7_48B * c31 e_7_48B + c12 e_3_8B * c31 e_3_8B * c13 e_m1_48B * c21 e_m1_48B * c12 e_7_48B * c31 e_7_48B + c13 e_3_8B * c21 e_3_8B * c12 e_m1_48B * c31 e_m1_48B * c12 e_7_48B * c31 e_7_48B + c13 e_3_8B * c31 e_3_8B * c13 e_m1_48B * c31 e_m1_48B * c12 e_7_48B * c31 e_7_48B];
   [c13 e_3_8B * c31 e_3_8B * c12 e_m1_48B * c21 e_m1_48B * c33 e_7_48B * c33 e_7_48B + c13 e_3_8B * c31 e_3_8B * c13 e_m1_48B * c31 e_m1_48B * c33 e_7_48B * c33 e_7_48B + c12 e_3_8B * c21 e_3_8B * c12 e_m1_48B * c21 e_m1_48B * c23 e_7_48B * c32 e_7_48B + c12 e_3_8B * c21 e_3_8B * c13 e_m1_48B * c31 e_m1_48B * c23 e_7_48B * c32 e_7_48B + c12 e_3_8B * c31 e_3_8B * c12 e_m1_48B * c21 e_m1_48B * c23 e_7_48B * c33 e_7_48B + c13 e_3_8B * c21 e_3_8B * c12 e_m1_48B * c21 e_m1_48B * c32 e_7_48B * c33 e_7_48B + c12 e_3_8B * c31 e_3_8B * c13 e_m1_48B * c31 e_m1_48B * c23 e_7_48B * c33 e_7_48B + c13 e_3_8B * c21 e_3_8B * c13 e_m1_48B * c31 e_m1_48B * c32 e_7_48B * c33 e_7_48B;
    RtoC 0;
    c13 e_3_8B * c32 e_3_8B * c21 e_m1_48B * c22 e_m1_48B * c33 e_7_48B * c33 e_7_48B + c23 e_3_8B * c31 e_3_8B * c12 e_m1_48B * c22 e_m1_48B * c33 e_7_48B * c33 e_7_48B + c13 e_3_8B * c32 e_3_8B * c23 e_m1_48B * c31 e_m1_48B * c33 e_7_48B * c33 e_7_48B + c13 e_3_8B * c33 e_3_8B * c21 e_m1_48B * c32 e_m1_48B * c33 e_7_48B * c33 e_7_48B + c23 e_3_8B * c31 e_3_8B * c13 e_m1_48B * c32 e_m1_48B * c33 e_7_48B * c33 e_7_48B + c31 e_3_8B * c33 e_3_8B * c12 e_m1_48B * c23 e_m1_48B * c33 e_7_48B * c33 e_7_48B + c13 e_3_8B * c33 e_3_8B * c31 e_m1_48B * c33 e_m1_48B * c33 e_7_48B * c33 e_7_48B + c31 e_3_8B * c33 e_3_8B * c13 e_m1_48B * c33 e_m1_48B * c33 e_7_48B * c33 e_7_48B + c11 e_3_8B * c12 e_3_8B * c12 e_m1_48B * c21 e_m1_48B * c23 e_7_48B * c31 e_7_48B + c11 e_3_8B * c21 e_3_8B * c12 e_m1_48B * c21 e_m1_48B * c13 e_7_48B * c32 e_7_48B + c11 e_3_8B * c12 e_3_8B * c13 e_m1_48B * c31 e_m1_48B * c23 e_7_48B * c31 e_7_48B + c11 e_3_8B * c13 e_3_8B * c12 e_m1_48B * c21 e_m1_48B * c31 e_7_48B * c33 e_7_48B + c11 e_3_8B * c21 e_3_8B * c13 e_m1_48B * c31 e_m1_48B * c13 e_7_48B * c32 e_7_48B + c11 e_3_8B * c31 e_3_8B * c12 e_m1_48B * c21 e_m1_48B * c13 e_7_48B * c33 e_7_48B + c11 e_3_8B * c13 e_3_8B * c13 e_m1_48B * c31 e_m1_48B * c31 e_7_48B * c33 e_7_48B + c11 e_3_8B * c31 e_3_8B * c13 e_m1_48B * c31 e_m1_48B * c13 e_7_48B * c33 e_7_48B + c12 e_3_8B * c22 e_3_8B * c21 e_m1_48B * c22 e_m1_48B * c23 e_7_48B * c32 e_7_48B + c21 e_3_8B * c22 e_3_8B * c12 e_m1_48B * c22 e_m1_48B * c23 e_7_48B * c32 e_7_48B + c12 e_3_8B * c22 e_3_8B * c23 e_m1_48B * c31 e_m1_48B * c23 e_7_48B * c32 e_7_48B + c12 e_3_8B * c23 e_3_8B * c21 e_m1_48B * c32 e_m1_48B * c23 e_7_48B * c32 e_7_48B + c12 e_3_8B * c32 e_3_8B * c21 e_m1_48B * c22 e_m1_48B * c23 e_7_48B * c33 e_7_48B + c13 e_3_8B * c22 e_3_8B * c21 e_m1_48B * c22 e_m1_48B * c32 e_7_48B * c33 e_7_48B + c21 e_3_8B * c22 e_3_8B * c13 e_m1_48B * c32 e_m1_48B * c23 e_7_48B * c32 e_7_48B + c21 e_3_8B * c23 e_3_8B * c12 e_m1_48B * c22 e_m1_48B * c32 e_7_48B * c33 e_7_48B + c21 e_3_8B * c32 e_3_8B * c12 e_m1_48B * c23 e_m1_48B * c23 e_7_48B * c32 e_7_48B + c22 e_3_8B * c31 e_3_8B * c12 e_m1_48B * c22 e_m1_48B * c23 e_7_48B * c33 e_7_48B + c12 e_3_8B * c23 e_3_8B * c31 e_m1_48B * c33 e_m1_48B * c23 e_7_48B * c32 e_7_48B + c12 e_3_8B * c32 e_3_8B * c23 e_m1_48B * c31 e_m1_48B * c23 e_7_48B * c33 e_7_48B + c12 e_3_8B * c33 e_3_8B * c21 e_m1_48B * c32 e_m1_48B * c23 e_7_48B * c33 e_7_48B + c13 e_3_8B * c22 e_3_8B * c23 e_m1_48B * c31 e_m1_48B * c32 e_7_48B * c33 e_7_48B + c13 e_3_8B * c23 e_3_8B * c21 e_m1_48B * c32 e_m1_48B * c32 e_7_48B * c33 e_7_48B + c21 e_3_8B * c23 e_3_8B * c13 e_m1_48B * c32 e_m1_48B * c32 e_7_48B * c33 e_7_48B + c21 e_3_8B * c32 e_3_8B * c13 e_m1_48B * c33 e_m1_48B * c23 e_7_48B * c32 e_7_48B + c21 e_3_8B * c33 e_3_8B * c12 e_m1_48B * c23 e_m1_48B * c32 e_7_48B * c33 e_7_48B + c22 e_3_8B * c31 e_3_8B * c13 e_m1_48B * c32 e_m1_48B * c23 e_7_48B * c33 e_7_48B + c31 e_3_8B * c32 e_3_8B * c12 e_m1_48B * c23 e_m1_48B * c23 e_7_48B * c33 e_7_48B + c12 e_3_8B * c33 e_3_8B * c31 e_m1_48B * c33 e_m1_48B * c23 e_7_48B * c33 e_7_48B + c13 e_3_8B * c23 e_3_8B * c31 e_m1_48B * c33 e_m1_48B * c32 e_7_48B * c33 e_7_48B + c21 e_3_8B * c33 e_3_8B * c13 e_m1_48B * c33 e_m1_48B * c32 e_7_48B * c33 e_7_48B + c31 e_3_8B * c32 e_3_8B * c13 e_m1_48B * c33 e_m1_48B * c23 e_7_48B * c33 e_7_48B;
    RtoC 0;
    c33 e_3_8B * c33 e_3_8B * c33 e_m1_48B * c33 e_m1_48B * c33 e_7_48B * c33 e_7_48B + c23 e_3_8B * c32 e_3_8B * c22 e_m1_48B * c22 e_m1_48B * c33 e_7_48B * c33 e_7_48B + c33 e_3_8B * c33 e_3_8B * c23 e_m1_48B * c32 e_m1_48B * c33 e_7_48B * c33 e_7_48B + c22 e_3_8B * c22 e_3_8B * c22 e_m1_48B * c22 e_m1_48B * c23 e_7_48B * c32 e_7_48B + c23 e_3_8B * c32 e_3_8B * c23 e_m1_48B * c32 e_m1_48B * c33 e_7_48B * c33 e_7_48B + c23 e_3_8B * c33 e_3_8B * c22 e_m1_48B * c32 e_m1_48B * c33 e_7_48B * c33 e_7_48B + c32 e_3_8B * c33 e_3_8B * c22 e_m1_48B * c23 e_m1_48B * c33 e_7_48B * c33 e_7_48B + c23 e_3_8B * c33 e_3_8B * c32 e_m1_48B * c33 e_m1_48B * c33 e_7_48B * c33 e_7_48B + c32 e_3_8B * c33 e_3_8B * c23 e_m1_48B * c33 e_m1_48B * c33 e_7_48B * c33 e_7_48B + c22 e_3_8B * c23 e_3_8B * c22 e_m1_48B * c22 e_m1_48B * c32 e_7_48B * c33 e_7_48B + c22 e_3_8B * c32 e_3_8B * c22 e_m1_48B * c22 e_m1_48B * c23 e_7_48B * c33 e_7_48B + c23 e_3_8B * c32 e_3_8B * c33 e_m1_48B * c33 e_m1_48B * c23 e_7_48B * c32 e_7_48B + c23 e_3_8B * c33 e_3_8B * c33 e_m1_48B * c33 e_m1_48B * c32 e_7_48B * c33 e_7_48B + c32 e_3_8B * c33 e_3_8B * c33 e_m1_48B * c33 e_m1_48B * c23 e_7_48B * c33 e_7_48B + c11 e_3_8B * c11 e_3_8B * c12 e_m1_48B * c21 e_m1_48B * c13 e_7_48B * c31 e_7_48B + c11 e_3_8B * c11 e_3_8B * c13 e_m1_48B * c31 e_m1_48B * c13 e_7_48B * c31 e_7_48B + c21 e_3_8B * c21 e_3_8B * c12 e_m1_48B * c22 e_m1_48B * c13 e_7_48B * c32 e_7_48B + c12 e_3_8B * c12 e_3_8B * c21 e_m1_48B * c22 e_m1_48B * c23 e_7_48B * c31 e_7_48B + c21 e_3_8B * c21 e_3_8B * c13 e_m1_48B * c32 e_m1_48B * c13 e_7_48B * c32 e_7_48B + c31 e_3_8B * c31 e_3_8B * c12 e_m1_48B * c23 e_m1_48B * c13 e_7_48B * c33 e_7_48B + c12 e_3_8B * c12 e_3_8B * c23 e_m1_48B * c31 e_m1_48B * c23 e_7_48B * c31 e_7_48B + c31 e_3_8B * c31 e_3_8B * c13 e_m1_48B * c33 e_m1_48B * c13 e_7_48B * c33 e_7_48B + c13 e_3_8B * c13 e_3_8B * c21 e_m1_48B * c32 e_m1_48B * c31 e_7_48B * c33 e_7_48B + c22 e_3_8B * c22 e_3_8B * c23 e_m1_48B * c32 e_m1_48B * c23 e_7_48B * c32 e_7_48B + c32 e_3_8B * c32 e_3_8B * c22 e_m1_48B * c23 e_m1_48B * c23 e_7_48B * c33 e_7_48B + c13 e_3_8B * c13 e_3_8B * c31 e_m1_48B * c33 e_m1_48B * c31 e_7_48B * c33 e_7_48B + c23 e_3_8B * c23 e_3_8B * c22 e_m1_48B * c32 e_m1_48B * c32 e_7_48B * c33 e_7_48B + c32 e_3_8B * c32 e_3_8B * c23 e_m1_48B * c33 e_m1_48B * c23 e_7_48B * c33 e_7_48B + c23 e_3_8B * c23 e_3_8B * c32 e_m1_48B * c33 e_m1_48B * c32 e_7_48B * c33 e_7_48B + c11 e_3_8B * c22 e_3_8B * c12 e_m1_48B * c22 e_m1_48B * c23 e_7_48B * c31 e_7_48B + c11 e_3_8B * c22 e_3_8B * c21 e_m1_48B * c22 e_m1_48B * c13 e_7_48B * c32 e_7_48B + c11 e_3_8B * c22 e_3_8B * c13 e_m1_48B * c32 e_m1_48B * c23 e_7_48B * c31 e_7_48B + c11 e_3_8B * c22 e_3_8B * c23 e_m1_48B * c31 e_m1_48B * c13 e_7_48B * c32 e_7_48B + c11 e_3_8B * c23 e_3_8B * c12 e_m1_48B * c22 e_m1_48B * c31 e_7_48B * c33 e_7_48B + c11 e_3_8B * c23 e_3_8B * c21 e_m1_48B * c32 e_m1_48B * c13 e_7_48B * c32 e_7_48B + c11 e_3_8B * c32 e_3_8B * c12 e_m1_48B * c23 e_m1_48B * c23 e_7_48B * c31 e_7_48B + c11 e_3_8B * c32 e_3_8B * c21 e_m1_48B * c22 e_m1_48B * c13 e_7_48B * c33 e_7_48B + c12 e_3_8B * c13 e_3_8B * c21 e_m1_48B * c22 e_m1_48B * c31 e_7_48B * c33 e_7_48B + c12 e_3_8B * c13 e_3_8B * c21 e_m1_48B * c32 e_m1_48B * c23 e_7_48B * c31 e_7_48B + c21 e_3_8B * c31 e_3_8B * c12 e_m1_48B * c22 e_m1_48B * c13 e_7_48B * c33 e_7_48B + c21 e_3_8B * c31 e_3_8B * c12 e_m1_48B * c23 e_m1_48B * c13 e_7_48B * c32 e_7_48B + c11 e_3_8B * c23 e_3_8B * c13 e_m1_48B * c32 e_m1_48B * c31 e_7_48B * c33 e_7_48B + c11 e_3_8B * c23 e_3_8B * c31 e_m1_48B * c33 e_m1_48B * c13 e_7_48B * c32 e_7_48B + c11 e_3_8B * c32 e_3_8B * c13 e_m1_48B * c33 e_m1_48B * c23 e_7_48B * c31 e_7_48B + c11 e_3_8B * c32 e_3_8B * c23 e_m1_48B * c31 e_m1_48B * c13 e_7_48B * c33 e_7_48B + c11 e_3_8B * c33 e_3_8B * c12 e_m1_48B * c23 e_m1_48B * c31 e_7_48B * c33 e_7_48B + c11 e_3_8B * c33 e_3_8B * c21 e_m1_48B * c32 e_m1_48B * c13 e_7_48B * c33 e_7_48B + c12 e_3_8B * c13 e_3_8B * c23 e_m1_48B * c31 e_m1_48B * c31 e_7_48B * c33 e_7_48B + c12 e_3_8B * c13 e_3_8B * c31 e_m1_48B * c33 e_m1_48B * c23 e_7_48B * c31 e_7_48B + c21 e_3_8B * c31 e_3_8B * c13 e_m1_48B * c32 e_m1_48B * c13 e_7_48B * c33 e_7_48B + c21 e_3_8B * c31 e_3_8B * c13 e_m1_48B * c33 e_m1_48B * c13 e_7_48B * c32 e_7_48B + c11 e_3_8B * c33 e_3_8B * c13 e_m1_48B * c33 e_m1_48B * c31 e_7_48B * c33 e_7_48B + c11 e_3_8B * c33 e_3_8B * c31 e_m1_48B * c33 e_m1_48B * c13 e_7_48B * c33 e_7_48B + c22 e_3_8B * c23 e_3_8B * c22 e_m1_48B * c32 e_m1_48B * c23 e_7_48B * c32 e_7_48B + c22 e_3_8B * c32 e_3_8B * c22 e_m1_48B * c23 e_m1_48B * c23 e_7_48B * c32 e_7_48B + c22 e_3_8B * c23 e_3_8B * c23 e_m1_48B * c32 e_m1_48B * c32 e_7_48B * c33 e_7_48B + c22 e_3_8B * c23 e_3_8B * c32 e_m1_48B * c33 e_m1_48B * c23 e_7_48B * c32 e_7_48B + c22 e_3_8B * c32 e_3_8B * c23 e_m1_48B * c32 e_m1_48B * c23 e_7_48B * c33 e_7_48B + c22 e_3_8B * c32 e_3_8B * c23 e_m1_48B * c33 e_m1_48B * c23 e_7_48B * c32 e_7_48B + c22 e_3_8B * c33 e_3_8B * c22 e_m1_48B * c23 e_m1_48B * c32 e_7_48B * c33 e_7_48B + c22 e_3_8B * c33 e_3_8B * c22 e_m1_48B * c32 e_m1_48B * c23 e_7_48B * c33 e_7_48B + c23 e_3_8B * c32 e_3_8B * c23 e_m1_48B * c32 e_m1_48B * c23 e_7_48B * c32 e_7_48B + c22 e_3_8B * c33 e_3_8B * c23 e_m1_48B * c33 e_m1_48B * c32 e_7_48B * c33 e_7_48B + c22 e_3_8B * c33 e_3_8B * c32 e_m1_48B * c33 e_m1_48B * c23 e_7_48B * c33 e_7_48B + c23 e_3_8B * c33 e_3_8B * c23 e_m1_48B * c32 e_m1_48B * c32 e_7_48B * c33 e_7_48B + c32 e_3_8B * c33 e_3_8B * c23 e_m1_48B * c32 e_m1_48B * c23 e_7_48B * c33 e_7_48B;
    RtoC 0;
    c13 e_3_8B * c31 e_3_8B * c11 e_m1_48B * c11 e_m1_48B * c33 e_7_48B * c33 e_7_48B + c12 e_3_8B * c21 e_3_8B * c11 e_m1_48B * c11 e_m1_48B * c23 e_7_48B * c32 e_7_48B + c12 e_3_8B * c22 e_3_8B * c22 e_m1_48B * c22 e_m1_48B * c23 e_7_48B * c31 e_7_48B + c12 e_3_8B * c31 e_3_8B * c11 e_m1_48B * c11 e_m1_48B * c23 e_7_48B * c33 e_7_48B + c13 e_3_8B * c21 e_3_8B * c11 e_m1_48B * c11 e_m1_48B * c32 e_7_48B * c33 e_7_48B + c21 e_3_8B * c22 e_3_8B * c22 e_m1_48B * c22 e_m1_48B * c13 e_7_48B * c32 e_7_48B + c12 e_3_8B * c23 e_3_8B * c22 e_m1_48B * c22 e_m1_48B * c31 e_7_48B * c33 e_7_48B + c21 e_3_8B * c32 e_3_8B * c22 e_m1_48B * c22 e_m1_48B * c13 e_7_48B * c33 e_7_48B + c13 e_3_8B * c32 e_3_8B * c33 e_m1_48B * c33 e_m1_48B * c23 e_7_48B * c31 e_7_48B + c23 e_3_8B * c31 e_3_8B * c33 e_m1_48B * c33 e_m1_48B * c13 e_7_48B * c32 e_7_48B + c13 e_3_8B * c33 e_3_8B * c33 e_m1_48B * c33 e_m1_48B * c31 e_7_48B * c33 e_7_48B + c31 e_3_8B * c33 e_3_8B * c33 e_m1_48B * c33 e_m1_48B * c13 e_7_48B * c33 e_7_48B + c11 e_3_8B * c12 e_3_8B * c21 e_m1_48B * c22 e_m1_48B * c13 e_7_48B * c31 e_7_48B + c11 e_3_8B * c21 e_3_8B * c12 e_m1_48B * c22 e_m1_48B * c13 e_7_48B * c31 e_7_48B + c11 e_3_8B * c12 e_3_8B * c23 e_m1_48B * c31 e_m1_48B * c13 e_7_48B * c31 e_7_48B + c11 e_3_8B * c13 e_3_8B * c21 e_m1_48B * c32 e_m1_48B * c13 e_7_48B * c31 e_7_48B + c11 e_3_8B * c21 e_3_8B * c13 e_m1_48B * c32 e_m1_48B * c13 e_7_48B * c31 e_7_48B + c11 e_3_8B * c31 e_3_8B * c12 e_m1_48B * c23 e_m1_48B * c13 e_7_48B * c31 e_7_48B + c11 e_3_8B * c13 e_3_8B * c31 e_m1_48B * c33 e_m1_48B * c13 e_7_48B * c31 e_7_48B + c11 e_3_8B * c31 e_3_8B * c13 e_m1_48B * c33 e_m1_48B * c13 e_7_48B * c31 e_7_48B + c12 e_3_8B * c22 e_3_8B * c23 e_m1_48B * c32 e_m1_48B * c23 e_7_48B * c31 e_7_48B + c12 e_3_8B * c32 e_3_8B * c22 e_m1_48B * c23 e_m1_48B * c23 e_7_48B * c31 e_7_48B + c13 e_3_8B * c22 e_3_8B * c22 e_m1_48B * c32 e_m1_48B * c23 e_7_48B * c31 e_7_48B + c21 e_3_8B * c22 e_3_8B * c23 e_m1_48B * c32 e_m1_48B * c13 e_7_48B * c32 e_7_48B + c21 e_3_8B * c23 e_3_8B * c22 e_m1_48B * c32 e_m1_48B * c13 e_7_48B * c32 e_7_48B + c22 e_3_8B * c31 e_3_8B * c22 e_m1_48B * c23 e_m1_48B * c13 e_7_48B * c32 e_7_48B + c12 e_3_8B * c23 e_3_8B * c23 e_m1_48B * c32 e_m1_48B * c31 e_7_48B * c33 e_7_48B + c12 e_3_8B * c32 e_3_8B * c23 e_m1_48B * c33 e_m1_48B * c23 e_7_48B * c31 e_7_48B + c12 e_3_8B * c33 e_3_8B * c22 e_m1_48B * c23 e_m1_48B * c31 e_7_48B * c33 e_7_48B + c13 e_3_8B * c22 e_3_8B * c32 e_m1_48B * c33 e_m1_48B * c23 e_7_48B * c31 e_7_48B + c13 e_3_8B * c23 e_3_8B * c22 e_m1_48B * c32 e_m1_48B * c31 e_7_48B * c33 e_7_48B + c13 e_3_8B * c32 e_3_8B * c23 e_m1_48B * c32 e_m1_48B * c23 e_7_48B * c31 e_7_48B + c21 e_3_8B * c23 e_3_8B * c32 e_m1_48B * c33 e_m1_48B * c13 e_7_48B * c32 e_7_48B + c21 e_3_8B * c32 e_3_8B * c23 e_m1_48B * c32 e_m1_48B * c13 e_7_48B * c33 e_7_48B + c21 e_3_8B * c33 e_3_8B * c22 e_m1_48B * c32 e_m1_48B * c13 e_7_48B * c33 e_7_48B + c22 e_3_8B * c31 e_3_8B * c23 e_m1_48B * c33 e_m1_48B * c13 e_7_48B * c32 e_7_48B + c23 e_3_8B * c31 e_3_8B * c23 e_m1_48B * c32 e_m1_48B * c13 e_7_48B * c32 e_7_48B + c31 e_3_8B * c32 e_3_8B * c22 e_m1_48B * c23 e_m1_48B * c13 e_7_48B * c33 e_7_48B + c12 e_3_8B * c33 e_3_8B * c23 e_m1_48B * c33 e_m1_48B * c31 e_7_48B * c33 e_7_48B + c13 e_3_8B * c23 e_3_8B * c32 e_m1_48B * c33 e_m1_48B * c31 e_7_48B * c33 e_7_48B + c13 e_3_8B * c33 e_3_8B * c23 e_m1_48B * c32 e_m1_48B * c31 e_7_48B * c33 e_7_48B + c21 e_3_8B * c33 e_3_8B * c32 e_m1_48B * c33 e_m1_48B * c13 e_7_48B * c33 e_7_48B + c31 e_3_8B * c32 e_3_8B * c23 e_m1_48B * c33 e_m1_48B * c13 e_7_48B * c33 e_7_48B + c31 e_3_8B * c33 e_3_8B * c23 e_m1_48B * c32 e_m1_48B * c13 e_7_48B * c33 e_7_48B;
    RtoC 0;
    c13 e_3_8B * c32 e_3_8B * c11 e_m1_48B * c21 e_m1_48B * c33 e_7_48B * c33 e_7_48B + c23 e_3_8B * c31 e_3_8B * c11 e_m1_48B * c12 e_m1_48B * c33 e_7_48B * c33 e_7_48B + c13 e_3_8B * c33 e_3_8B * c11 e_m1_48B * c31 e_m1_48B * c33 e_7_48B * c33 e_7_48B + c31 e_3_8B * c33 e_3_8B * c11 e_m1_48B * c13 e_m1_48B * c33 e_7_48B * c33 e_7_48B + c11 e_3_8B * c12 e_3_8B * c11 e_m1_48B * c11 e_m1_48B * c23 e_7_48B * c31 e_7_48B + c11 e_3_8B * c21 e_3_8B * c11 e_m1_48B * c11 e_m1_48B * c13 e_7_48B * c32 e_7_48B + c11 e_3_8B * c13 e_3_8B * c11 e_m1_48B * c11 e_m1_48B * c31 e_7_48B * c33 e_7_48B + c11 e_3_8B * c31 e_3_8B * c11 e_m1_48B * c11 e_m1_48B * c13 e_7_48B * c33 e_7_48B + c12 e_3_8B * c21 e_3_8B * c22 e_m1_48B * c22 e_m1_48B * c13 e_7_48B * c31 e_7_48B + c13 e_3_8B * c31 e_3_8B * c33 e_m1_48B * c33 e_m1_48B * c13 e_7_48B * c31 e_7_48B + c12 e_3_8B * c22 e_3_8B * c11 e_m1_48B * c21 e_m1_48B * c23 e_7_48B * c32 e_7_48B + c21 e_3_8B * c22 e_3_8B * c11 e_m1_48B * c12 e_m1_48B * c23 e_7_48B * c32 e_7_48B + c12 e_3_8B * c21 e_3_8B * c23 e_m1_48B * c32 e_m1_48B * c13 e_7_48B * c31 e_7_48B + c12 e_3_8B * c23 e_3_8B * c11 e_m1_48B * c31 e_m1_48B * c23 e_7_48B * c32 e_7_48B + c12 e_3_8B * c31 e_3_8B * c22 e_m1_48B * c23 e_m1_48B * c13 e_7_48B * c31 e_7_48B + c12 e_3_8B * c32 e_3_8B * c11 e_m1_48B * c21 e_m1_48B * c23 e_7_48B * c33 e_7_48B + c13 e_3_8B * c21 e_3_8B * c22 e_m1_48B * c32 e_m1_48B * c13 e_7_48B * c31 e_7_48B + c13 e_3_8B * c22 e_3_8B * c11 e_m1_48B * c21 e_m1_48B * c32 e_7_48B * c33 e_7_48B + c21 e_3_8B * c23 e_3_8B * c11 e_m1_48B * c12 e_m1_48B * c32 e_7_48B * c33 e_7_48B + c21 e_3_8B * c32 e_3_8B * c11 e_m1_48B * c13 e_m1_48B * c23 e_7_48B * c32 e_7_48B + c22 e_3_8B * c31 e_3_8B * c11 e_m1_48B * c12 e_m1_48B * c23 e_7_48B * c33 e_7_48B + c12 e_3_8B * c31 e_3_8B * c23 e_m1_48B * c33 e_m1_48B * c13 e_7_48B * c31 e_7_48B + c12 e_3_8B * c33 e_3_8B * c11 e_m1_48B * c31 e_m1_48B * c23 e_7_48B * c33 e_7_48B + c13 e_3_8B * c21 e_3_8B * c32 e_m1_48B * c33 e_m1_48B * c13 e_7_48B * c31 e_7_48B + c13 e_3_8B * c23 e_3_8B * c11 e_m1_48B * c31 e_m1_48B * c32 e_7_48B * c33 e_7_48B + c13 e_3_8B * c31 e_3_8B * c23 e_m1_48B * c32 e_m1_48B * c13 e_7_48B * c31 e_7_48B + c21 e_3_8B * c33 e_3_8B * c11 e_m1_48B * c13 e_m1_48B * c32 e_7_48B * c33 e_7_48B + c31 e_3_8B * c32 e_3_8B * c11 e_m1_48B * c13 e_m1_48B * c23 e_7_48B * c33 e_7_48B;
    RtoC 0;
    c33 e_3_8B * c33 e_3_8B * c13 e_m1_48B * c31 e_m1_48B * c33 e_7_48B * c33 e_7_48B + c11 e_3_8B * c11 e_3_8B * c11 e_m1_48B * c11 e_m1_48B * c13 e_7_48B * c31 e_7_48B + c23 e_3_8B * c32 e_3_8B * c12 e_m1_48B * c21 e_m1_48B * c33 e_7_48B * c33 e_7_48B + c23 e_3_8B * c33 e_3_8B * c12 e_m1_48B * c31 e_m1_48B * c33 e_7_48B * c33 e_7_48B + c32 e_3_8B * c33 e_3_8B * c13 e_m1_48B * c21 e_m1_48B * c33 e_7_48B * c33 e_7_48B + c21 e_3_8B * c21 e_3_8B * c11 e_m1_48B * c12 e_m1_48B * c13 e_7_48B * c32 e_7_48B + c12 e_3_8B * c12 e_3_8B * c11 e_m1_48B * c21 e_m1_48B * c23 e_7_48B * c31 e_7_48B + c31 e_3_8B * c31 e_3_8B * c11 e_m1_48B * c13 e_m1_48B * c13 e_7_48B * c33 e_7_48B + c22 e_3_8B * c22 e_3_8B * c12 e_m1_48B * c21 e_m1_48B * c23 e_7_48B * c32 e_7_48B + c13 e_3_8B * c13 e_3_8B * c11 e_m1_48B * c31 e_m1_48B * c31 e_7_48B * c33 e_7_48B + c32 e_3_8B * c32 e_3_8B * c13 e_m1_48B * c21 e_m1_48B * c23 e_7_48B * c33 e_7_48B + c23 e_3_8B * c23 e_3_8B * c12 e_m1_48B * c31 e_m1_48B * c32 e_7_48B * c33 e_7_48B + c11 e_3_8B * c22 e_3_8B * c11 e_m1_48B * c12 e_m1_48B * c23 e_7_48B * c31 e_7_48B + c11 e_3_8B * c22 e_3_8B * c11 e_m1_48B * c21 e_m1_48B * c13 e_7_48B * c32 e_7_48B + c11 e_3_8B * c23 e_3_8B * c11 e_m1_48B * c12 e_m1_48B * c31 e_7_48B * c33 e_7_48B + c11 e_3_8B * c23 e_3_8B * c11 e_m1_48B * c31 e_m1_48B * c13 e_7_48B * c32 e_7_48B + c11 e_3_8B * c32 e_3_8B * c11 e_m1_48B * c13 e_m1_48B * c23 e_7_48B * c31 e_7_48B + c11 e_3_8B * c32 e_3_8B * c11 e_m1_48B * c21 e_m1_48B * c13 e_7_48B * c33 e_7_48B + c12 e_3_8B * c13 e_3_8B * c11 e_m1_48B * c21 e_m1_48B * c31 e_7_48B * c33 e_7_48B + c12 e_3_8B * c13 e_3_8B * c11 e_m1_48B * c31 e_m1_48B * c23 e_7_48B * c31 e_7_48B + c21 e_3_8B * c31 e_3_8B * c11 e_m1_48B * c12 e_m1_48B * c13 e_7_48B * c33 e_7_48B + c21 e_3_8B * c31 e_3_8B * c11 e_m1_48B * c13 e_m1_48B * c13 e_7_48B * c32 e_7_48B + c11 e_3_8B * c33 e_3_8B * c11 e_m1_48B * c13 e_m1_48B * c31 e_7_48B * c33 e_7_48B + c11 e_3_8B * c33 e_3_8B * c11 e_m1_48B * c31 e_m1_48B * c13 e_7_48B * c33 e_7_48B + c22 e_3_8B * c23 e_3_8B * c12 e_m1_48B * c21 e_m1_48B * c32 e_7_48B * c33 e_7_48B + c22 e_3_8B * c23 e_3_8B * c12 e_m1_48B * c31 e_m1_48B * c23 e_7_48B * c32 e_7_48B + c22 e_3_8B * c32 e_3_8B * c12 e_m1_48B * c21 e_m1_48B * c23 e_7_48B * c33 e_7_48B + c22 e_3_8B * c32 e_3_8B * c13 e_m1_48B * c21 e_m1_48B * c23 e_7_48B * c32 e_7_48B + c22 e_3_8B * c33 e_3_8B * c12 e_m1_48B * c31 e_m1_48B * c23 e_7_48B * c33 e_7_48B + c22 e_3_8B * c33 e_3_8B * c13 e_m1_48B * c21 e_m1_48B * c32 e_7_48B * c33 e_7_48B + c23 e_3_8B * c32 e_3_8B * c13 e_m1_48B * c31 e_m1_48B * c23 e_7_48B * c32 e_7_48B + c23 e_3_8B * c33 e_3_8B * c13 e_m1_48B * c31 e_m1_48B * c32 e_7_48B * c33 e_7_48B + c32 e_3_8B * c33 e_3_8B * c13 e_m1_48B * c31 e_m1_48B * c23 e_7_48B * c33 e_7_48B;
    RtoC 0;
    c11 e_3_8B * c12 e_3_8B * c11 e_m1_48B * c21 e_m1_48B * c13 e_7_48B * c31 e_7_48B + c11 e_3_8B * c21 e_3_8B * c11 e_m1_48B * c12 e_m1_48B * c13 e_7_48B * c31 e_7_48B + c11 e_3_8B * c13 e_3_8B * c11 e_m1_48B * c31 e_m1_48B * c13 e_7_48B * c31 e_7_48B + c11 e_3_8B * c31 e_3_8B * c11 e_m1_48B * c13 e_m1_48B * c13 e_7_48B * c31 e_7_48B + c12 e_3_8B * c22 e_3_8B * c12 e_m1_48B * c21 e_m1_48B * c23 e_7_48B * c31 e_7_48B + c21 e_3_8B * c22 e_3_8B * c12 e_m1_48B * c21 e_m1_48B * c13 e_7_48B * c32 e_7_48B + c12 e_3_8B * c23 e_3_8B * c12 e_m1_48B * c21 e_m1_48B * c31 e_7_48B * c33 e_7_48B + c12 e_3_8B * c32 e_3_8B * c13 e_m1_48B * c21 e_m1_48B * c23 e_7_48B * c31 e_7_48B + c13 e_3_8B * c22 e_3_8B * c12 e_m1_48B * c31 e_m1_48B * c23 e_7_48B * c31 e_7_48B + c21 e_3_8B * c23 e_3_8B * c12 e_m1_48B * c31 e_m1_48B * c13 e_7_48B * c32 e_7_48B + c21 e_3_8B * c32 e_3_8B * c12 e_m1_48B * c21 e_m1_48B * c13 e_7_48B * c33 e_7_48B + c22 e_3_8B * c31 e_3_8B * c13 e_m1_48B * c21 e_m1_48B * c13 e_7_48B * c32 e_7_48B + c12 e_3_8B * c33 e_3_8B * c13 e_m1_48B * c21 e_m1_48B * c31 e_7_48B * c33 e_7_48B + c13 e_3_8B * c23 e_3_8B * c12 e_m1_48B * c31 e_m1_48B * c31 e_7_48B * c33 e_7_48B + c13 e_3_8B * c32 e_3_8B * c13 e_m1_48B * c31 e_m1_48B * c23 e_7_48B * c31 e_7_48B + c21 e_3_8B * c33 e_3_8B * c12 e_m1_48B * c31 e_m1_48B * c13 e_7_48B * c33 e_7_48B + c23 e_3_8B * c31 e_3_8B * c13 e_m1_48B * c31 e_m1_48B * c13 e_7_48B * c32 e_7_48B + c31 e_3_8B * c32 e_3_8B * c13 e_m1_48B * c21 e_m1_48B * c13 e_7_48B * c33 e_7_48B + c13 e_3_8B * c33 e_3_8B * c13 e_m1_48B * c31 e_m1_48B * c31 e_7_48B * c33 e_7_48B + c31 e_3_8B * c33 e_3_8B * c13 e_m1_48B * c31 e_m1_48B * c13 e_7_48B * c33 e_7_48B;
    RtoC 0;
    c12 e_3_8B * c21 e_3_8B * c12 e_m1_48B * c21 e_m1_48B * c13 e_7_48B * c31 e_7_48B + c12 e_3_8B * c31 e_3_8B * c13 e_m1_48B * c21 e_m1_48B * c13 e_7_48B * c31 e_7_48B + c13 e_3_8B * c21 e_3_8B * c12 e_m1_48B * c31 e_m1_48B * c13 e_7_48B * c31 e_7_48B + c13 e_3_8B * c31 e_3_8B * c13 e_m1_48B * c31 e_m1_48B * c13 e_7_48B * c31 e_7_48B]].
