(** * Tables of fnft__akns_fscatter.c
   Generated from the C text by a line-by-line translation of the switch in akns_fscatter.
   Every assignment p11[k] = ...; of the loop body for one sample is one let p11_k := ...;
   the four lists are p11[0..deg], p12[0..deg], p21[0..deg], p22[0..deg] (highest power of z first).
   Entries that are not assigned in the loop body are those cleared before the loop by
   for (n=0; n<len; n++) p[n] = 0.0; (2SPLIT5A to 2SPLIT8B); all others are assigned exactly once.
   [e a] stands for akns_fscatter_zero_freq_scatter_matrix(., a*eps_t/deg, q[i], r[i]).
   Arithmetic is exact complex arithmetic instead of double precision. *)
From Coq Require Import Reals List.
From Coquelicot Require Import Coquelicot.
From Verif Require Import DiscTables.
Import ListNotations.
Local Open Scope C_scope.

(** the three entries M[0], M[1], M[2] of the matrix of akns_fscatter_zero_freq_scatter_matrix *)
Record m3 := mk3 { m0 : C; m1 : C; m2 : C }.

(** src/private/fnft__akns_fscatter.c:145-169, case 2SPLIT1A (degree 1) *)
Definition step_2SPLIT1A (e : R -> m3) : list C * list C * list C * list C :=
  let e_1B := e 1%R in
  let p11_0 : C := RtoC 0 in
  let p11_1 : C := (m0 e_1B) in
  let p12_0 : C := RtoC 0 in
  let p12_1 : C := (m1 e_1B) in
  let p21_0 : C := (m2 e_1B) in
  let p21_1 : C := RtoC 0 in
  let p22_0 : C := (m0 e_1B) in
  let p22_1 : C := RtoC 0 in
  ([p11_0; p11_1],
   [p12_0; p12_1],
   [p21_0; p21_1],
   [p22_0; p22_1]).

(** src/private/fnft__akns_fscatter.c:174-196, case 2SPLIT1B, 2SPLIT2A (degree 1) *)
Definition step_2SPLIT1B (e : R -> m3) : list C * list C * list C * list C :=
  let e_1B := e 1%R in
  let p11_0 : C := RtoC 0 in
  let p11_1 : C := (m0 e_1B) in
  let p12_0 : C := (m1 e_1B) in
  let p12_1 : C := RtoC 0 in
  let p21_0 : C := RtoC 0 in
  let p21_1 : C := (m2 e_1B) in
  let p22_0 : C := (m0 e_1B) in
  let p22_1 : C := RtoC 0 in
  ([p11_0; p11_1],
   [p12_0; p12_1],
   [p21_0; p21_1],
   [p22_0; p22_1]).

(** src/private/fnft__akns_fscatter.c:199-221, case 2SPLIT2B (degree 1) *)
Definition step_2SPLIT2B (e : R -> m3) : list C * list C * list C * list C :=
  let e_0_5B := e (1 / 2)%R in
  let p11_0 : C := (m1 e_0_5B) * (m2 e_0_5B) in
  let p11_1 : C := (m0 e_0_5B) * (m0 e_0_5B) in
  let p12_0 : C := (m0 e_0_5B) * (m1 e_0_5B) in
  let p12_1 : C := p12_0 in
  let p21_0 : C := (m0 e_0_5B) * (m2 e_0_5B) in
  let p21_1 : C := p21_0 in
  let p22_0 : C := p11_1 in
  let p22_1 : C := p11_0 in
  ([p11_0; p11_1],
   [p12_0; p12_1],
   [p21_0; p21_1],
   [p22_0; p22_1]).

(** src/private/fnft__akns_fscatter.c:225-247, case 2SPLIT2S (degree 1) *)
Definition step_2SPLIT2S (e : R -> m3) : list C * list C * list C * list C :=
  let e_1B := e 1%R in
  let p11_0 : C := RtoC 0 in
  let p11_1 : C := (m0 e_1B) in
  let p12_0 : C := (m1 e_1B) / 2  in
  let p12_1 : C := (m1 e_1B) / 2  in
  let p21_0 : C := (m2 e_1B) / 2  in
  let p21_1 : C := (m2 e_1B) / 2  in
  let p22_0 : C := (m0 e_1B) in
  let p22_1 : C := RtoC 0 in
  ([p11_0; p11_1],
   [p12_0; p12_1],
   [p21_0; p21_1],
   [p22_0; p22_1]).

(** src/private/fnft__akns_fscatter.c:251-285, case 2SPLIT3A (degree 3) *)
Definition step_2SPLIT3A (e : R -> m3) : list C * list C * list C * list C :=
  let e_1B := e 1%R in
  let e_2B := e 2%R in
  let e_3B := e 3%R in
  let p11_0 : C := RtoC 0 in
  let p11_1 : C := 9 * (m2 e_1B) * (m1 e_2B) / 8  in
  let p11_2 : C := RtoC 0 in
  let p11_3 : C := (9 * (m0 e_1B) * (m0 e_2B) - (m0 e_3B)) / 8  in
  let p12_0 : C := RtoC 0 in
  let p12_1 : C := 9 * (m0 e_1B) * (m1 e_2B) / 8  in
  let p12_2 : C := RtoC 0 in
  let p12_3 : C := (9 * (m1 e_1B) * (m0 e_2B) - (m1 e_3B)) / 8  in
  let p21_0 : C := (9 * (m2 e_1B) * (m0 e_2B) - (m2 e_3B)) / 8  in
  let p21_1 : C := RtoC 0 in
  let p21_2 : C := 9 * (m0 e_1B) * (m2 e_2B) / 8  in
  let p21_3 : C := RtoC 0 in
  let p22_0 : C := p11_3 in
  let p22_1 : C := RtoC 0 in
  let p22_2 : C := 9 * (m1 e_1B) * (m2 e_2B) / 8  in
  let p22_3 : C := RtoC 0 in
  ([p11_0; p11_1; p11_2; p11_3],
   [p12_0; p12_1; p12_2; p12_3],
   [p21_0; p21_1; p21_2; p21_3],
   [p22_0; p22_1; p22_2; p22_3]).

(** src/private/fnft__akns_fscatter.c:289-323, case 2SPLIT3B (degree 3) *)
Definition step_2SPLIT3B (e : R -> m3) : list C * list C * list C * list C :=
  let e_1B := e 1%R in
  let e_2B := e 2%R in
  let e_3B := e 3%R in
  let p11_0 : C := RtoC 0 in
  let p11_1 : C := 9 * (m1 e_1B) * (m2 e_2B) / 8  in
  let p11_2 : C := RtoC 0 in
  let p11_3 : C := (9 * (m0 e_1B) * (m0 e_2B) - (m0 e_3B)) / 8  in
  let p12_0 : C := (9 * (m1 e_1B) * (m0 e_2B) - (m1 e_3B)) / 8  in
  let p12_1 : C := RtoC 0 in
  let p12_2 : C := 9 * (m0 e_1B) * (m1 e_2B) / 8  in
  let p12_3 : C := RtoC 0 in
  let p21_0 : C := RtoC 0 in
  let p21_1 : C := 9 * (m0 e_1B) * (m2 e_2B) / 8  in
  let p21_2 : C := RtoC 0 in
  let p21_3 : C := (9 * (m2 e_1B) * (m0 e_2B) - (m2 e_3B)) / 8  in
  let p22_0 : C := p11_3 in
  let p22_1 : C := RtoC 0 in
  let p22_2 : C := 9 * (m2 e_1B) * (m1 e_2B) / 8  in
  let p22_3 : C := RtoC 0 in
  ([p11_0; p11_1; p11_2; p11_3],
   [p12_0; p12_1; p12_2; p12_3],
   [p21_0; p21_1; p21_2; p21_3],
   [p22_0; p22_1; p22_2; p22_3]).

(** src/private/fnft__akns_fscatter.c:326-354, case 2SPLIT3S (degree 2) *)
Definition step_2SPLIT3S (e : R -> m3) : list C * list C * list C * list C :=
  let e_1B := e 1%R in
  let e_2B := e 2%R in
  let p11_0 : C := 2 * (m1 e_1B) * (m2 e_1B) / 3  in
  let p11_1 : C := RtoC 0 in
  let p11_2 : C := (2 * (m0 e_1B) * (m0 e_1B) + (m0 e_2B)) / 3  in
  let p12_0 : C := (4 * (m0 e_1B) * (m1 e_1B) - (m1 e_2B)) / 6  in
  let p12_1 : C := 2 * (m1 e_2B) / 3  in
  let p12_2 : C := p12_0 in
  let p21_0 : C := (4 * (m0 e_1B) * (m2 e_1B) - (m2 e_2B)) / 6  in
  let p21_1 : C := 2 * (m2 e_2B) / 3  in
  let p21_2 : C := p21_0 in
  let p22_0 : C := p11_2 in
  let p22_1 : C := RtoC 0 in
  let p22_2 : C := p11_0 in
  ([p11_0; p11_1; p11_2],
   [p12_0; p12_1; p12_2],
   [p21_0; p21_1; p21_2],
   [p22_0; p22_1; p22_2]).

(** src/private/fnft__akns_fscatter.c:361-397, case 4SPLIT4A, 2SPLIT4A (degree 4) *)
Definition step_2SPLIT4A (e : R -> m3) : list C * list C * list C * list C :=
  let e_2B := e 2%R in
  let e_4B := e 4%R in
  let p11_0 : C := RtoC 0 in
  let p11_1 : C := RtoC 0 in
  let p11_2 : C := 4 * (m1 e_2B) * (m2 e_2B) / 3  in
  let p11_3 : C := RtoC 0 in
  let p11_4 : C := (4 * (m0 e_2B) * (m0 e_2B) - (m0 e_4B)) / 3  in
  let p12_0 : C := RtoC 0 in
  let p12_1 : C := 4 * (m0 e_2B) * (m1 e_2B) / 3  in
  let p12_2 : C := -(m1 e_4B) / 3  in
  let p12_3 : C := p12_1 in
  let p12_4 : C := RtoC 0 in
  let p21_0 : C := RtoC 0 in
  let p21_1 : C := 4 * (m0 e_2B) * (m2 e_2B) / 3  in
  let p21_2 : C := -(m2 e_4B) / 3  in
  let p21_3 : C := p21_1 in
  let p21_4 : C := RtoC 0 in
  let p22_0 : C := p11_4 in
  let p22_1 : C := RtoC 0 in
  let p22_2 : C := p11_2 in
  let p22_3 : C := RtoC 0 in
  let p22_4 : C := RtoC 0 in
  ([p11_0; p11_1; p11_2; p11_3; p11_4],
   [p12_0; p12_1; p12_2; p12_3; p12_4],
   [p21_0; p21_1; p21_2; p21_3; p21_4],
   [p22_0; p22_1; p22_2; p22_3; p22_4]).

(** src/private/fnft__akns_fscatter.c:404-432, case 4SPLIT4B, 2SPLIT4B (degree 2) *)
Definition step_2SPLIT4B (e : R -> m3) : list C * list C * list C * list C :=
  let e_0_5B := e (1 / 2)%R in
  let e_1B := e 1%R in
  let p11_0 : C := (4 * (m0 e_1B) * (m1 e_0_5B) * (m2 e_0_5B) - (m1 e_1B) * (m2 e_1B)) / 3  in
  let p11_1 : C := 4 * ((m1 e_1B) * (m0 e_0_5B) * (m2 e_0_5B) + (m2 e_1B) * (m0 e_0_5B) * (m1 e_0_5B)) / 3  in
  let p11_2 : C := (4 * (m0 e_1B) * (m0 e_0_5B) * (m0 e_0_5B) - (m0 e_1B) * (m0 e_1B)) / 3  in
  let p12_0 : C := (4 * (m0 e_1B) * (m0 e_0_5B) * (m1 e_0_5B) - (m0 e_1B) * (m1 e_1B)) / 3  in
  let p12_1 : C := 4 * ((m1 e_1B) * (m0 e_0_5B) * (m0 e_0_5B) + (m2 e_1B) * (m1 e_0_5B) * (m1 e_0_5B)) / 3  in
  let p12_2 : C := p12_0 in
  let p21_0 : C := (4 * (m0 e_1B) * (m0 e_0_5B) * (m2 e_0_5B) - (m0 e_1B) * (m2 e_1B)) / 3  in
  let p21_1 : C := 4 * ((m2 e_1B) * (m0 e_0_5B) * (m0 e_0_5B) + (m1 e_1B) * (m2 e_0_5B) * (m2 e_0_5B)) / 3  in
  let p21_2 : C := p21_0 in
  let p22_0 : C := p11_2 in
  let p22_1 : C := p11_1 in
  let p22_2 : C := p11_0 in
  ([p11_0; p11_1; p11_2],
   [p12_0; p12_1; p12_2],
   [p21_0; p21_1; p21_2],
   [p22_0; p22_1; p22_2]).

(** src/private/fnft__akns_fscatter.c:436-485, case 2SPLIT5A (degree 15) *)
Definition step_2SPLIT5A (e : R -> m3) : list C * list C * list C * list C :=
  let e_3B := e 3%R in
  let e_5B := e 5%R in
  let e_6B := e 6%R in
  let e_10B := e 10%R in
  let e_15B := e 15%R in
  let p11_3 : C := 625 * (m2 e_3B) * (m0 e_6B) * (m1 e_6B) / 384  in
  let p11_5 : C := -(81) * (m2 e_5B) * (m1 e_10B) / 128  in
  let p11_9 : C := 625 * ((m0 e_3B) * (m1 e_6B) * (m2 e_6B) + (m2 e_3B) * (m0 e_6B) * (m1 e_6B)) / 384  in
  let p11_15 : C := 625 * (m0 e_3B) * (m0 e_6B) * (m0 e_6B) / 384 + (m0 e_15B) / 192 - 81 * (m0 e_5B) * (m0 e_10B) / 128  in
  let p12_3 : C := 625 * (m0 e_3B) * (m0 e_6B) * (m1 e_6B) / 384  in
  let p12_5 : C := -(81) * (m0 e_5B) * (m1 e_10B) / 128  in
  let p12_9 : C := 625 * ((m0 e_3B) * (m0 e_6B) * (m1 e_6B) + (m1 e_3B) * (m1 e_6B) * (m2 e_6B)) / 384  in
  let p12_15 : C := 625 * (m1 e_3B) * (m0 e_6B) * (m0 e_6B) / 384 + (m1 e_15B) / 192 - 81 * (m1 e_5B) * (m0 e_10B) / 128  in
  let p21_0 : C := 625 * (m2 e_3B) * (m0 e_6B) * (m0 e_6B) / 384 + (m2 e_15B) / 192 - 81 * (m2 e_5B) * (m0 e_10B) / 128  in
  let p21_6 : C := 625 * ((m0 e_3B) * (m0 e_6B) * (m2 e_6B) + (m2 e_3B) * (m1 e_6B) * (m2 e_6B)) / 384  in
  let p21_10 : C := -(81) * (m0 e_5B) * (m2 e_10B) / 128  in
  let p21_12 : C := 625 * (m0 e_3B) * (m0 e_6B) * (m2 e_6B) / 384  in
  let p22_0 : C := p11_15 in
  let p22_6 : C := 625 * ((m0 e_3B) * (m1 e_6B) * (m2 e_6B) + (m1 e_3B) * (m0 e_6B) * (m2 e_6B)) / 384  in
  let p22_10 : C := -(81) * (m1 e_5B) * (m2 e_10B) / 128  in
  let p22_12 : C := 625 * (m1 e_3B) * (m0 e_6B) * (m2 e_6B) / 384  in
  ([RtoC 0; RtoC 0; RtoC 0; p11_3; RtoC 0; p11_5; RtoC 0; RtoC 0; RtoC 0; p11_9; RtoC 0; RtoC 0; RtoC 0; RtoC 0; RtoC 0; p11_15],
   [RtoC 0; RtoC 0; RtoC 0; p12_3; RtoC 0; p12_5; RtoC 0; RtoC 0; RtoC 0; p12_9; RtoC 0; RtoC 0; RtoC 0; RtoC 0; RtoC 0; p12_15],
   [p21_0; RtoC 0; RtoC 0; RtoC 0; RtoC 0; RtoC 0; p21_6; RtoC 0; RtoC 0; RtoC 0; p21_10; RtoC 0; p21_12; RtoC 0; RtoC 0; RtoC 0],
   [p22_0; RtoC 0; RtoC 0; RtoC 0; RtoC 0; RtoC 0; p22_6; RtoC 0; RtoC 0; RtoC 0; p22_10; RtoC 0; p22_12; RtoC 0; RtoC 0; RtoC 0]).

(** src/private/fnft__akns_fscatter.c:489-538, case 2SPLIT5B (degree 15) *)
Definition step_2SPLIT5B (e : R -> m3) : list C * list C * list C * list C :=
  let e_3B := e 3%R in
  let e_5B := e 5%R in
  let e_6B := e 6%R in
  let e_10B := e 10%R in
  let e_15B := e 15%R in
  let p11_3 : C := 625 * (m1 e_3B) * (m0 e_6B) * (m2 e_6B) / 384  in
  let p11_5 : C := -(81) * (m1 e_5B) * (m2 e_10B) / 128  in
  let p11_9 : C := 625 * ((m0 e_3B) * (m1 e_6B) * (m2 e_6B) + (m1 e_3B) * (m0 e_6B) * (m2 e_6B)) / 384  in
  let p11_15 : C := 625 * (m0 e_3B) * (m0 e_6B) * (m0 e_6B) / 384 + (m0 e_15B) / 192 - 81 * (m0 e_5B) * (m0 e_10B) / 128  in
  let p12_0 : C := 625 * (m1 e_3B) * (m0 e_6B) * (m0 e_6B) / 384 + (m1 e_15B) / 192 - 81 * (m1 e_5B) * (m0 e_10B) / 128  in
  let p12_6 : C := 625 * ((m0 e_3B) * (m0 e_6B) * (m1 e_6B) + (m1 e_3B) * (m1 e_6B) * (m2 e_6B)) / 384  in
  let p12_10 : C := -(81) * (m0 e_5B) * (m1 e_10B) / 128  in
  let p12_12 : C := 625 * (m0 e_3B) * (m0 e_6B) * (m1 e_6B) / 384  in
  let p21_3 : C := 625 * (m0 e_3B) * (m0 e_6B) * (m2 e_6B) / 384  in
  let p21_5 : C := -(81) * (m0 e_5B) * (m2 e_10B) / 128  in
  let p21_9 : C := 625 * ((m0 e_3B) * (m0 e_6B) * (m2 e_6B) + (m2 e_3B) * (m1 e_6B) * (m2 e_6B)) / 384  in
  let p21_15 : C := 625 * (m2 e_3B) * (m0 e_6B) * (m0 e_6B) / 384 + (m2 e_15B) / 192 - 81 * (m2 e_5B) * (m0 e_10B) / 128  in
  let p22_0 : C := p11_15 in
  let p22_6 : C := 625 * ((m0 e_3B) * (m1 e_6B) * (m2 e_6B) + (m2 e_3B) * (m0 e_6B) * (m1 e_6B)) / 384  in
  let p22_10 : C := -(81) * (m2 e_5B) * (m1 e_10B) / 128  in
  let p22_12 : C := 625 * (m2 e_3B) * (m0 e_6B) * (m1 e_6B) / 384  in
  ([RtoC 0; RtoC 0; RtoC 0; p11_3; RtoC 0; p11_5; RtoC 0; RtoC 0; RtoC 0; p11_9; RtoC 0; RtoC 0; RtoC 0; RtoC 0; RtoC 0; p11_15],
   [p12_0; RtoC 0; RtoC 0; RtoC 0; RtoC 0; RtoC 0; p12_6; RtoC 0; RtoC 0; RtoC 0; p12_10; RtoC 0; p12_12; RtoC 0; RtoC 0; RtoC 0],
   [RtoC 0; RtoC 0; RtoC 0; p21_3; RtoC 0; p21_5; RtoC 0; RtoC 0; RtoC 0; p21_9; RtoC 0; RtoC 0; RtoC 0; RtoC 0; RtoC 0; p21_15],
   [p22_0; RtoC 0; RtoC 0; RtoC 0; RtoC 0; RtoC 0; p22_6; RtoC 0; RtoC 0; RtoC 0; p22_10; RtoC 0; p22_12; RtoC 0; RtoC 0; RtoC 0]).

(** src/private/fnft__akns_fscatter.c:542-588, case 2SPLIT6A (degree 12) *)
Definition step_2SPLIT6A (e : R -> m3) : list C * list C * list C * list C :=
  let e_4B := e 4%R in
  let e_6B := e 6%R in
  let e_12B := e 12%R in
  let p11_4 : C := 81 * (m0 e_4B) * (m1 e_4B) * (m2 e_4B) / 40  in
  let p11_6 : C := -(16) * (m1 e_6B) * (m2 e_6B) / 15  in
  let p11_8 : C := 2 * p11_4 in
  let p11_12 : C := 81 * (m0 e_4B) * (m0 e_4B) * (m0 e_4B) / 40 + (m0 e_12B) / 24 - 16 * (m0 e_6B) * (m0 e_6B) / 15  in
  let p12_2 : C := 81 * (m0 e_4B) * (m0 e_4B) * (m1 e_4B) / 40  in
  let p12_3 : C := -(16) * (m0 e_6B) * (m1 e_6B) / 15  in
  let p12_6 : C := p12_2 + 81 * (m2 e_4B) * (m1 e_4B) * (m1 e_4B) / 40 + (m1 e_12B) / 24  in
  let p12_9 : C := p12_3 in
  let p12_10 : C := p12_2 in
  let p21_2 : C := 81 * (m0 e_4B) * (m0 e_4B) * (m2 e_4B) / 40  in
  let p21_3 : C := -(16) * (m0 e_6B) * (m2 e_6B) / 15  in
  let p21_6 : C := p21_2 + 81 * (m1 e_4B) * (m2 e_4B) * (m2 e_4B) / 40 + (m2 e_12B) / 24  in
  let p21_9 : C := p21_3 in
  let p21_10 : C := p21_2 in
  let p22_0 : C := p11_12 in
  let p22_4 : C := p11_8 in
  let p22_6 : C := p11_6 in
  let p22_8 : C := p11_4 in
  ([RtoC 0; RtoC 0; RtoC 0; RtoC 0; p11_4; RtoC 0; p11_6; RtoC 0; p11_8; RtoC 0; RtoC 0; RtoC 0; p11_12],
   [RtoC 0; RtoC 0; p12_2; p12_3; RtoC 0; RtoC 0; p12_6; RtoC 0; RtoC 0; p12_9; p12_10; RtoC 0; RtoC 0],
   [RtoC 0; RtoC 0; p21_2; p21_3; RtoC 0; RtoC 0; p21_6; RtoC 0; RtoC 0; p21_9; p21_10; RtoC 0; RtoC 0],
   [p22_0; RtoC 0; RtoC 0; RtoC 0; p22_4; RtoC 0; p22_6; RtoC 0; p22_8; RtoC 0; RtoC 0; RtoC 0; RtoC 0]).

(** src/private/fnft__akns_fscatter.c:592-643, case 2SPLIT6B (degree 6) *)
Definition step_2SPLIT6B (e : R -> m3) : list C * list C * list C * list C :=
  let e_1B := e 1%R in
  let e_1_5B := e (3 / 2)%R in
  let e_2B := e 2%R in
  let e_3B := e 3%R in
  let p11_0 : C := 81 * (m1 e_1B) * (m2 e_1B) * (m0 e_2B) * (m0 e_2B) / 40 + (m1 e_3B) * (m2 e_3B) / 24 - 16 * (m0 e_3B) * (m1 e_1_5B) * (m2 e_1_5B) / 15  in
  let p11_2 : C := 81 * ((m0 e_1B) * (m1 e_1B) * (m0 e_2B) * (m2 e_2B) + (m0 e_1B) * (m2 e_1B) * (m0 e_2B) * (m1 e_2B) + (m1 e_1B) * (m2 e_1B) * (m1 e_2B) * (m2 e_2B)) / 40  in
  let p11_3 : C := -(16) * ((m1 e_3B) * (m0 e_1_5B) * (m2 e_1_5B) + (m2 e_3B) * (m0 e_1_5B) * (m1 e_1_5B)) / 15  in
  let p11_4 : C := 81 * ((m0 e_1B) * (m0 e_1B) * (m1 e_2B) * (m2 e_2B) + (m0 e_1B) * (m1 e_1B) * (m0 e_2B) * (m2 e_2B) + (m0 e_1B) * (m2 e_1B) * (m0 e_2B) * (m1 e_2B)) / 40  in
  let p11_6 : C := 81 * (m0 e_1B) * (m0 e_1B) * (m0 e_2B) * (m0 e_2B) / 40 + (m0 e_3B) * (m0 e_3B) / 24 - 16 * (m0 e_1_5B) * (m0 e_1_5B) * (m0 e_3B) / 15  in
  let p12_0 : C := 81 * (m0 e_1B) * (m1 e_1B) * (m0 e_2B) * (m0 e_2B) / 40 + (m0 e_3B) * (m1 e_3B) / 24 - 16 * (m0 e_3B) * (m0 e_1_5B) * (m1 e_1_5B) / 15  in
  let p12_2 : C := 81 * ((m0 e_2B) * (m1 e_2B) * (m0 e_1B) * (m0 e_1B) + (m1 e_2B) * (m2 e_2B) * (m0 e_1B) * (m1 e_1B) + (m0 e_2B) * (m2 e_2B) * (m1 e_1B) * (m1 e_1B)) / 40  in
  let p12_3 : C := -(16) * ((m1 e_3B) * (m0 e_1_5B) * (m0 e_1_5B) + (m2 e_3B) * (m1 e_1_5B) * (m1 e_1_5B)) / 15  in
  let p12_4 : C := p12_2 in
  let p12_6 : C := p12_0 in
  let p21_0 : C := 81 * (m0 e_1B) * (m2 e_1B) * (m0 e_2B) * (m0 e_2B) / 40 + (m0 e_3B) * (m2 e_3B) / 24 - 16 * (m0 e_3B) * (m0 e_1_5B) * (m2 e_1_5B) / 15  in
  let p21_2 : C := 81 * ((m0 e_2B) * (m2 e_2B) * (m0 e_1B) * (m0 e_1B) + (m1 e_2B) * (m2 e_2B) * (m0 e_1B) * (m2 e_1B) + (m0 e_2B) * (m1 e_2B) * (m2 e_1B) * (m2 e_1B)) / 40  in
  let p21_3 : C := -(16) * ((m2 e_3B) * (m0 e_1_5B) * (m0 e_1_5B) + (m1 e_3B) * (m2 e_1_5B) * (m2 e_1_5B)) / 15  in
  let p21_4 : C := p21_2 in
  let p21_6 : C := p21_0 in
  let p22_0 : C := p11_6 in
  let p22_2 : C := p11_4 in
  let p22_3 : C := p11_3 in
  let p22_4 : C := p11_2 in
  let p22_6 : C := p11_0 in
  ([p11_0; RtoC 0; p11_2; p11_3; p11_4; RtoC 0; p11_6],
   [p12_0; RtoC 0; p12_2; p12_3; p12_4; RtoC 0; p12_6],
   [p21_0; RtoC 0; p21_2; p21_3; p21_4; RtoC 0; p21_6],
   [p22_0; RtoC 0; p22_2; p22_3; p22_4; RtoC 0; p22_6]).

(** src/private/fnft__akns_fscatter.c:647-712, case 2SPLIT7A (degree 105) *)
Definition step_2SPLIT7A (e : R -> m3) : list C * list C * list C * list C :=
  let e_15B := e 15%R in
  let e_21B := e 21%R in
  let e_30B := e 30%R in
  let e_35B := e 35%R in
  let e_42B := e 42%R in
  let e_70B := e 70%R in
  let e_105B := e 105%R in
  let p11_15 : C := 2874587633249303 * (m2 e_15B) * (m0 e_30B) * (m0 e_30B) * (m1 e_30B) / 1125899906842624  in
  let p11_21 : C := -(15625) * (m2 e_21B) * (m0 e_42B) * (m1 e_42B) / 9216  in
  let p11_35 : C := 729 * (m2 e_35B) * (m1 e_70B) / 5120  in
  let p11_45 : C := 2874587633249303 * ((m2 e_15B) * (m0 e_30B) * (m0 e_30B) * (m1 e_30B) + (m0 e_15B) * (m2 e_30B) * (m0 e_30B) * (m1 e_30B) + (m2 e_15B) * (m2 e_30B) * (m1 e_30B) * (m1 e_30B)) / 1125899906842624  in
  let p11_63 : C := -(15625) * ((m0 e_21B) * (m1 e_42B) * (m2 e_42B) + (m2 e_21B) * (m0 e_42B) * (m1 e_42B)) / 9216  in
  let p11_75 : C := 2874587633249303 * ((m2 e_15B) * (m1 e_30B) * (m0 e_30B) * (m0 e_30B) + 2 * (m0 e_15B) * (m1 e_30B) * (m2 e_30B) * (m0 e_30B)) / 1125899906842624  in
  let p11_105 : C := 2874587633249303 * (m0 e_15B) * (m0 e_30B) * (m0 e_30B) * (m0 e_30B) / 1125899906842624 - (m0 e_105B) / 9216 + 729 * (m0 e_35B) * (m0 e_70B) / 5120 - 15625 * (m0 e_21B) * (m0 e_42B) * (m0 e_42B) / 9216  in
  let p12_15 : C := 2874587633249303 * (m0 e_15B) * (m0 e_30B) * (m0 e_30B) * (m1 e_30B) / 1125899906842624  in
  let p12_21 : C := -(15625) * (m0 e_21B) * (m0 e_42B) * (m1 e_42B) / 9216  in
  let p12_35 : C := 729 * (m0 e_35B) * (m1 e_70B) / 5120  in
  let p12_45 : C := 2874587633249303 * ((m0 e_15B) * (m0 e_30B) * (m0 e_30B) * (m1 e_30B) + (m1 e_15B) * (m2 e_30B) * (m0 e_30B) * (m1 e_30B) + (m0 e_15B) * (m2 e_30B) * (m1 e_30B) * (m1 e_30B)) / 1125899906842624  in
  let p12_63 : C := -(15625) * ((m0 e_21B) * (m0 e_42B) * (m1 e_42B) + (m1 e_21B) * (m1 e_42B) * (m2 e_42B)) / 9216  in
  let p12_75 : C := 2874587633249303 * ((m0 e_15B) * (m1 e_30B) * (m0 e_30B) * (m0 e_30B) + 2 * (m1 e_15B) * (m1 e_30B) * (m2 e_30B) * (m0 e_30B)) / 1125899906842624  in
  let p12_105 : C := 2874587633249303 * (m1 e_15B) * (m0 e_30B) * (m0 e_30B) * (m0 e_30B) / 1125899906842624 - (m1 e_105B) / 9216 + 729 * (m1 e_35B) * (m0 e_70B) / 5120 - 15625 * (m1 e_21B) * (m0 e_42B) * (m0 e_42B) / 9216  in
  let p21_0 : C := 2874587633249303 * (m2 e_15B) * (m0 e_30B) * (m0 e_30B) * (m0 e_30B) / 1125899906842624 - (m2 e_105B) / 9216 + 729 * (m2 e_35B) * (m0 e_70B) / 5120 - 15625 * (m2 e_21B) * (m0 e_42B) * (m0 e_42B) / 9216  in
  let p21_30 : C := 2874587633249303 * ((m0 e_15B) * (m2 e_30B) * (m0 e_30B) * (m0 e_30B) + 2 * (m2 e_15B) * (m1 e_30B) * (m2 e_30B) * (m0 e_30B)) / 1125899906842624  in
  let p21_42 : C := -(15625) * ((m0 e_21B) * (m0 e_42B) * (m2 e_42B) + (m2 e_21B) * (m1 e_42B) * (m2 e_42B)) / 9216  in
  let p21_60 : C := 2874587633249303 * ((m0 e_15B) * (m0 e_30B) * (m0 e_30B) * (m2 e_30B) + (m2 e_15B) * (m1 e_30B) * (m0 e_30B) * (m2 e_30B) + (m0 e_15B) * (m1 e_30B) * (m2 e_30B) * (m2 e_30B)) / 1125899906842624  in
  let p21_70 : C := 729 * (m0 e_35B) * (m2 e_70B) / 5120  in
  let p21_84 : C := -(15625) * (m0 e_21B) * (m0 e_42B) * (m2 e_42B) / 9216  in
  let p21_90 : C := 2874587633249303 * (m0 e_15B) * (m0 e_30B) * (m0 e_30B) * (m2 e_30B) / 1125899906842624  in
  let p22_0 : C := p11_105 in
  let p22_30 : C := 2874587633249303 * ((m1 e_15B) * (m2 e_30B) * (m0 e_30B) * (m0 e_30B) + 2 * (m0 e_15B) * (m1 e_30B) * (m2 e_30B) * (m0 e_30B)) / 1125899906842624  in
  let p22_42 : C := -(15625) * ((m0 e_21B) * (m1 e_42B) * (m2 e_42B) + (m1 e_21B) * (m0 e_42B) * (m2 e_42B)) / 9216  in
  let p22_60 : C := 2874587633249303 * ((m1 e_15B) * (m0 e_30B) * (m0 e_30B) * (m2 e_30B) + (m0 e_15B) * (m1 e_30B) * (m0 e_30B) * (m2 e_30B) + (m1 e_15B) * (m1 e_30B) * (m2 e_30B) * (m2 e_30B)) / 1125899906842624  in
  let p22_70 : C := 729 * (m1 e_35B) * (m2 e_70B) / 5120  in
  let p22_84 : C := -(15625) * (m1 e_21B) * (m0 e_42B) * (m2 e_42B) / 9216  in
  let p22_90 : C := 2874587633249303 * (m1 e_15B) * (m0 e_30B) * (m0 e_30B) * (m2 e_30B) / 1125899906842624  in
  ([RtoC 0; RtoC 0; RtoC 0; RtoC 0; RtoC 0; RtoC 0; RtoC 0; RtoC 0; RtoC 0; RtoC 0; RtoC 0; RtoC 0; RtoC 0; RtoC 0; RtoC 0; p11_15; RtoC 0; RtoC 0; RtoC 0; RtoC 0; RtoC 0; p11_21; RtoC 0; RtoC 0; RtoC 0; RtoC 0; RtoC 0; RtoC 0; RtoC 0; RtoC 0; RtoC 0; RtoC 0; RtoC 0; RtoC 0; RtoC 0; p11_35; RtoC 0; RtoC 0; RtoC 0; RtoC 0; RtoC 0; RtoC 0; RtoC 0; RtoC 0; RtoC 0; p11_45; RtoC 0; RtoC 0; RtoC 0; RtoC 0; RtoC 0; RtoC 0; RtoC 0; RtoC 0; RtoC 0; RtoC 0; RtoC 0; RtoC 0; RtoC 0; RtoC 0; RtoC 0; RtoC 0; RtoC 0; p11_63; RtoC 0; RtoC 0; RtoC 0; RtoC 0; RtoC 0; RtoC 0; RtoC 0; RtoC 0; RtoC 0; RtoC 0; RtoC 0; p11_75; RtoC 0; RtoC 0; RtoC 0; RtoC 0; RtoC 0; RtoC 0; RtoC 0; RtoC 0; RtoC 0; RtoC 0; RtoC 0; RtoC 0; RtoC 0; RtoC 0; RtoC 0; RtoC 0; RtoC 0; RtoC 0; RtoC 0; RtoC 0; RtoC 0; RtoC 0; RtoC 0; RtoC 0; RtoC 0; RtoC 0; RtoC 0; RtoC 0; RtoC 0; p11_105],
   [RtoC 0; RtoC 0; RtoC 0; RtoC 0; RtoC 0; RtoC 0; RtoC 0; RtoC 0; RtoC 0; RtoC 0; RtoC 0; RtoC 0; RtoC 0; RtoC 0; RtoC 0; p12_15; RtoC 0; RtoC 0; RtoC 0; RtoC 0; RtoC 0; p12_21; RtoC 0; RtoC 0; RtoC 0; RtoC 0; RtoC 0; RtoC 0; RtoC 0; RtoC 0; RtoC 0; RtoC 0; RtoC 0; RtoC 0; RtoC 0; p12_35; RtoC 0; RtoC 0; RtoC 0; RtoC 0; RtoC 0; RtoC 0; RtoC 0; RtoC 0; RtoC 0; p12_45; RtoC 0; RtoC 0; RtoC 0; RtoC 0; RtoC 0; RtoC 0; RtoC 0; RtoC 0; RtoC 0; RtoC 0; RtoC 0; RtoC 0; RtoC 0; RtoC 0; RtoC 0; RtoC 0; RtoC 0; p12_63; RtoC 0; RtoC 0; RtoC 0; RtoC 0; RtoC 0; RtoC 0; RtoC 0; RtoC 0; RtoC 0; RtoC 0; RtoC 0; p12_75; RtoC 0; RtoC 0; RtoC 0; RtoC 0; RtoC 0; RtoC 0; RtoC 0; RtoC 0; RtoC 0; RtoC 0; RtoC 0; RtoC 0; RtoC 0; RtoC 0; RtoC 0; RtoC 0; RtoC 0; RtoC 0; RtoC 0; RtoC 0; RtoC 0; RtoC 0; RtoC 0; RtoC 0; RtoC 0; RtoC 0; RtoC 0; RtoC 0; RtoC 0; p12_105],
   [p21_0; RtoC 0; RtoC 0; RtoC 0; RtoC 0; RtoC 0; RtoC 0; RtoC 0; RtoC 0; RtoC 0; RtoC 0; RtoC 0; RtoC 0; RtoC 0; RtoC 0; RtoC 0; RtoC 0; RtoC 0; RtoC 0; RtoC 0; RtoC 0; RtoC 0; RtoC 0; RtoC 0; RtoC 0; RtoC 0; RtoC 0; RtoC 0; RtoC 0; RtoC 0; p21_30; RtoC 0; RtoC 0; RtoC 0; RtoC 0; RtoC 0; RtoC 0; RtoC 0; RtoC 0; RtoC 0; RtoC 0; RtoC 0; p21_42; RtoC 0; RtoC 0; RtoC 0; RtoC 0; RtoC 0; RtoC 0; RtoC 0; RtoC 0; RtoC 0; RtoC 0; RtoC 0; RtoC 0; RtoC 0; RtoC 0; RtoC 0; RtoC 0; RtoC 0; p21_60; RtoC 0; RtoC 0; RtoC 0; RtoC 0; RtoC 0; RtoC 0; RtoC 0; RtoC 0; RtoC 0; p21_70; RtoC 0; RtoC 0; RtoC 0; RtoC 0; RtoC 0; RtoC 0; RtoC 0; RtoC 0; RtoC 0; RtoC 0; RtoC 0; RtoC 0; RtoC 0; p21_84; RtoC 0; RtoC 0; RtoC 0; RtoC 0; RtoC 0; p21_90; RtoC 0; RtoC 0; RtoC 0; RtoC 0; RtoC 0; RtoC 0; RtoC 0; RtoC 0; RtoC 0; RtoC 0; RtoC 0; RtoC 0; RtoC 0; RtoC 0; RtoC 0],
   [p22_0; RtoC 0; RtoC 0; RtoC 0; RtoC 0; RtoC 0; RtoC 0; RtoC 0; RtoC 0; RtoC 0; RtoC 0; RtoC 0; RtoC 0; RtoC 0; RtoC 0; RtoC 0; RtoC 0; RtoC 0; RtoC 0; RtoC 0; RtoC 0; RtoC 0; RtoC 0; RtoC 0; RtoC 0; RtoC 0; RtoC 0; RtoC 0; RtoC 0; RtoC 0; p22_30; RtoC 0; RtoC 0; RtoC 0; RtoC 0; RtoC 0; RtoC 0; RtoC 0; RtoC 0; RtoC 0; RtoC 0; RtoC 0; p22_42; RtoC 0; RtoC 0; RtoC 0; RtoC 0; RtoC 0; RtoC 0; RtoC 0; RtoC 0; RtoC 0; RtoC 0; RtoC 0; RtoC 0; RtoC 0; RtoC 0; RtoC 0; RtoC 0; RtoC 0; p22_60; RtoC 0; RtoC 0; RtoC 0; RtoC 0; RtoC 0; RtoC 0; RtoC 0; RtoC 0; RtoC 0; p22_70; RtoC 0; RtoC 0; RtoC 0; RtoC 0; RtoC 0; RtoC 0; RtoC 0; RtoC 0; RtoC 0; RtoC 0; RtoC 0; RtoC 0; RtoC 0; p22_84; RtoC 0; RtoC 0; RtoC 0; RtoC 0; RtoC 0; p22_90; RtoC 0; RtoC 0; RtoC 0; RtoC 0; RtoC 0; RtoC 0; RtoC 0; RtoC 0; RtoC 0; RtoC 0; RtoC 0; RtoC 0; RtoC 0; RtoC 0; RtoC 0]).

(** src/private/fnft__akns_fscatter.c:716-781, case 2SPLIT7B (degree 105) *)
Definition step_2SPLIT7B (e : R -> m3) : list C * list C * list C * list C :=
  let e_15B := e 15%R in
  let e_21B := e 21%R in
  let e_30B := e 30%R in
  let e_35B := e 35%R in
  let e_42B := e 42%R in
  let e_70B := e 70%R in
  let e_105B := e 105%R in
  let p11_15 : C := 2874587633249303 * (m1 e_15B) * (m0 e_30B) * (m0 e_30B) * (m2 e_30B) / 1125899906842624  in
  let p11_21 : C := -(15625) * (m1 e_21B) * (m0 e_42B) * (m2 e_42B) / 9216  in
  let p11_35 : C := 729 * (m1 e_35B) * (m2 e_70B) / 5120  in
  let p11_45 : C := 2874587633249303 * ((m1 e_15B) * (m0 e_30B) * (m0 e_30B) * (m2 e_30B) + (m0 e_15B) * (m1 e_30B) * (m0 e_30B) * (m2 e_30B) + (m1 e_15B) * (m1 e_30B) * (m2 e_30B) * (m2 e_30B)) / 1125899906842624  in
  let p11_63 : C := -(15625) * ((m0 e_21B) * (m1 e_42B) * (m2 e_42B) + (m1 e_21B) * (m0 e_42B) * (m2 e_42B)) / 9216  in
  let p11_75 : C := 2874587633249303 * ((m1 e_15B) * (m2 e_30B) * (m0 e_30B) * (m0 e_30B) + 2 * (m0 e_15B) * (m1 e_30B) * (m2 e_30B) * (m0 e_30B)) / 1125899906842624  in
  let p11_105 : C := 2874587633249303 * (m0 e_15B) * (m0 e_30B) * (m0 e_30B) * (m0 e_30B) / 1125899906842624 - (m0 e_105B) / 9216 + 729 * (m0 e_35B) * (m0 e_70B) / 5120 - 15625 * (m0 e_21B) * (m0 e_42B) * (m0 e_42B) / 9216  in
  let p12_0 : C := 2874587633249303 * (m1 e_15B) * (m0 e_30B) * (m0 e_30B) * (m0 e_30B) / 1125899906842624 - (m1 e_105B) / 9216 + 729 * (m1 e_35B) * (m0 e_70B) / 5120 - 15625 * (m1 e_21B) * (m0 e_42B) * (m0 e_42B) / 9216  in
  let p12_30 : C := 2874587633249303 * ((m0 e_15B) * (m1 e_30B) * (m0 e_30B) * (m0 e_30B) + 2 * (m1 e_15B) * (m1 e_30B) * (m2 e_30B) * (m0 e_30B)) / 1125899906842624  in
  let p12_42 : C := -(15625) * ((m0 e_21B) * (m0 e_42B) * (m1 e_42B) + (m1 e_21B) * (m1 e_42B) * (m2 e_42B)) / 9216  in
  let p12_60 : C := 2874587633249303 * ((m0 e_15B) * (m0 e_30B) * (m0 e_30B) * (m1 e_30B) + (m1 e_15B) * (m2 e_30B) * (m0 e_30B) * (m1 e_30B) + (m0 e_15B) * (m2 e_30B) * (m1 e_30B) * (m1 e_30B)) / 1125899906842624  in
  let p12_70 : C := 729 * (m0 e_35B) * (m1 e_70B) / 5120  in
  let p12_84 : C := -(15625) * (m0 e_21B) * (m0 e_42B) * (m1 e_42B) / 9216  in
  let p12_90 : C := 2874587633249303 * (m0 e_15B) * (m0 e_30B) * (m0 e_30B) * (m1 e_30B) / 1125899906842624  in
  let p21_15 : C := 2874587633249303 * (m0 e_15B) * (m0 e_30B) * (m0 e_30B) * (m2 e_30B) / 1125899906842624  in
  let p21_21 : C := -(15625) * (m0 e_21B) * (m0 e_42B) * (m2 e_42B) / 9216  in
  let p21_35 : C := 729 * (m0 e_35B) * (m2 e_70B) / 5120  in
  let p21_45 : C := 2874587633249303 * ((m0 e_15B) * (m0 e_30B) * (m0 e_30B) * (m2 e_30B) + (m2 e_15B) * (m1 e_30B) * (m0 e_30B) * (m2 e_30B) + (m0 e_15B) * (m1 e_30B) * (m2 e_30B) * (m2 e_30B)) / 1125899906842624  in
  let p21_63 : C := -(15625) * ((m0 e_21B) * (m0 e_42B) * (m2 e_42B) + (m2 e_21B) * (m1 e_42B) * (m2 e_42B)) / 9216  in
  let p21_75 : C := 2874587633249303 * ((m0 e_15B) * (m2 e_30B) * (m0 e_30B) * (m0 e_30B) + 2 * (m2 e_15B) * (m1 e_30B) * (m2 e_30B) * (m0 e_30B)) / 1125899906842624  in
  let p21_105 : C := 2874587633249303 * (m2 e_15B) * (m0 e_30B) * (m0 e_30B) * (m0 e_30B) / 1125899906842624 - (m2 e_105B) / 9216 + 729 * (m2 e_35B) * (m0 e_70B) / 5120 - 15625 * (m2 e_21B) * (m0 e_42B) * (m0 e_42B) / 9216  in
  let p22_0 : C := 2874587633249303 * (m0 e_15B) * (m0 e_30B) * (m0 e_30B) * (m0 e_30B) / 1125899906842624 - (m0 e_105B) / 9216 + 729 * (m0 e_35B) * (m0 e_70B) / 5120 - 15625 * (m0 e_21B) * (m0 e_42B) * (m0 e_42B) / 9216  in
  let p22_30 : C := 2874587633249303 * ((m2 e_15B) * (m1 e_30B) * (m0 e_30B) * (m0 e_30B) + 2 * (m0 e_15B) * (m1 e_30B) * (m2 e_30B) * (m0 e_30B)) / 1125899906842624  in
  let p22_42 : C := -(15625) * ((m0 e_21B) * (m1 e_42B) * (m2 e_42B) + (m2 e_21B) * (m0 e_42B) * (m1 e_42B)) / 9216  in
  let p22_60 : C := 2874587633249303 * ((m2 e_15B) * (m0 e_30B) * (m0 e_30B) * (m1 e_30B) + (m0 e_15B) * (m2 e_30B) * (m0 e_30B) * (m1 e_30B) + (m2 e_15B) * (m2 e_30B) * (m1 e_30B) * (m1 e_30B)) / 1125899906842624  in
  let p22_70 : C := 729 * (m2 e_35B) * (m1 e_70B) / 5120  in
  let p22_84 : C := -(15625) * (m2 e_21B) * (m0 e_42B) * (m1 e_42B) / 9216  in
  let p22_90 : C := 2874587633249303 * (m2 e_15B) * (m0 e_30B) * (m0 e_30B) * (m1 e_30B) / 1125899906842624  in
  ([RtoC 0; RtoC 0; RtoC 0; RtoC 0; RtoC 0; RtoC 0; RtoC 0; RtoC 0; RtoC 0; RtoC 0; RtoC 0; RtoC 0; RtoC 0; RtoC 0; RtoC 0; p11_15; RtoC 0; RtoC 0; RtoC 0; RtoC 0; RtoC 0; p11_21; RtoC 0; RtoC 0; RtoC 0; RtoC 0; RtoC 0; RtoC 0; RtoC 0; RtoC 0; RtoC 0; RtoC 0; RtoC 0; RtoC 0; RtoC 0; p11_35; RtoC 0; RtoC 0; RtoC 0; RtoC 0; RtoC 0; RtoC 0; RtoC 0; RtoC 0; RtoC 0; p11_45; RtoC 0; RtoC 0; RtoC 0; RtoC 0; RtoC 0; RtoC 0; RtoC 0; RtoC 0; RtoC 0; RtoC 0; RtoC 0; RtoC 0; RtoC 0; RtoC 0; RtoC 0; RtoC 0; RtoC 0; p11_63; RtoC 0; RtoC 0; RtoC 0; RtoC 0; RtoC 0; RtoC 0; RtoC 0; RtoC 0; RtoC 0; RtoC 0; RtoC 0; p11_75; RtoC 0; RtoC 0; RtoC 0; RtoC 0; RtoC 0; RtoC 0; RtoC 0; RtoC 0; RtoC 0; RtoC 0; RtoC 0; RtoC 0; RtoC 0; RtoC 0; RtoC 0; RtoC 0; RtoC 0; RtoC 0; RtoC 0; RtoC 0; RtoC 0; RtoC 0; RtoC 0; RtoC 0; RtoC 0; RtoC 0; RtoC 0; RtoC 0; RtoC 0; p11_105],
   [p12_0; RtoC 0; RtoC 0; RtoC 0; RtoC 0; RtoC 0; RtoC 0; RtoC 0; RtoC 0; RtoC 0; RtoC 0; RtoC 0; RtoC 0; RtoC 0; RtoC 0; RtoC 0; RtoC 0; RtoC 0; RtoC 0; RtoC 0; RtoC 0; RtoC 0; RtoC 0; RtoC 0; RtoC 0; RtoC 0; RtoC 0; RtoC 0; RtoC 0; RtoC 0; p12_30; RtoC 0; RtoC 0; RtoC 0; RtoC 0; RtoC 0; RtoC 0; RtoC 0; RtoC 0; RtoC 0; RtoC 0; RtoC 0; p12_42; RtoC 0; RtoC 0; RtoC 0; RtoC 0; RtoC 0; RtoC 0; RtoC 0; RtoC 0; RtoC 0; RtoC 0; RtoC 0; RtoC 0; RtoC 0; RtoC 0; RtoC 0; RtoC 0; RtoC 0; p12_60; RtoC 0; RtoC 0; RtoC 0; RtoC 0; RtoC 0; RtoC 0; RtoC 0; RtoC 0; RtoC 0; p12_70; RtoC 0; RtoC 0; RtoC 0; RtoC 0; RtoC 0; RtoC 0; RtoC 0; RtoC 0; RtoC 0; RtoC 0; RtoC 0; RtoC 0; RtoC 0; p12_84; RtoC 0; RtoC 0; RtoC 0; RtoC 0; RtoC 0; p12_90; RtoC 0; RtoC 0; RtoC 0; RtoC 0; RtoC 0; RtoC 0; RtoC 0; RtoC 0; RtoC 0; RtoC 0; RtoC 0; RtoC 0; RtoC 0; RtoC 0; RtoC 0],
   [RtoC 0; RtoC 0; RtoC 0; RtoC 0; RtoC 0; RtoC 0; RtoC 0; RtoC 0; RtoC 0; RtoC 0; RtoC 0; RtoC 0; RtoC 0; RtoC 0; RtoC 0; p21_15; RtoC 0; RtoC 0; RtoC 0; RtoC 0; RtoC 0; p21_21; RtoC 0; RtoC 0; RtoC 0; RtoC 0; RtoC 0; RtoC 0; RtoC 0; RtoC 0; RtoC 0; RtoC 0; RtoC 0; RtoC 0; RtoC 0; p21_35; RtoC 0; RtoC 0; RtoC 0; RtoC 0; RtoC 0; RtoC 0; RtoC 0; RtoC 0; RtoC 0; p21_45; RtoC 0; RtoC 0; RtoC 0; RtoC 0; RtoC 0; RtoC 0; RtoC 0; RtoC 0; RtoC 0; RtoC 0; RtoC 0; RtoC 0; RtoC 0; RtoC 0; RtoC 0; RtoC 0; RtoC 0; p21_63; RtoC 0; RtoC 0; RtoC 0; RtoC 0; RtoC 0; RtoC 0; RtoC 0; RtoC 0; RtoC 0; RtoC 0; RtoC 0; p21_75; RtoC 0; RtoC 0; RtoC 0; RtoC 0; RtoC 0; RtoC 0; RtoC 0; RtoC 0; RtoC 0; RtoC 0; RtoC 0; RtoC 0; RtoC 0; RtoC 0; RtoC 0; RtoC 0; RtoC 0; RtoC 0; RtoC 0; RtoC 0; RtoC 0; RtoC 0; RtoC 0; RtoC 0; RtoC 0; RtoC 0; RtoC 0; RtoC 0; RtoC 0; p21_105],
   [p22_0; RtoC 0; RtoC 0; RtoC 0; RtoC 0; RtoC 0; RtoC 0; RtoC 0; RtoC 0; RtoC 0; RtoC 0; RtoC 0; RtoC 0; RtoC 0; RtoC 0; RtoC 0; RtoC 0; RtoC 0; RtoC 0; RtoC 0; RtoC 0; RtoC 0; RtoC 0; RtoC 0; RtoC 0; RtoC 0; RtoC 0; RtoC 0; RtoC 0; RtoC 0; p22_30; RtoC 0; RtoC 0; RtoC 0; RtoC 0; RtoC 0; RtoC 0; RtoC 0; RtoC 0; RtoC 0; RtoC 0; RtoC 0; p22_42; RtoC 0; RtoC 0; RtoC 0; RtoC 0; RtoC 0; RtoC 0; RtoC 0; RtoC 0; RtoC 0; RtoC 0; RtoC 0; RtoC 0; RtoC 0; RtoC 0; RtoC 0; RtoC 0; RtoC 0; p22_60; RtoC 0; RtoC 0; RtoC 0; RtoC 0; RtoC 0; RtoC 0; RtoC 0; RtoC 0; RtoC 0; p22_70; RtoC 0; RtoC 0; RtoC 0; RtoC 0; RtoC 0; RtoC 0; RtoC 0; RtoC 0; RtoC 0; RtoC 0; RtoC 0; RtoC 0; RtoC 0; p22_84; RtoC 0; RtoC 0; RtoC 0; RtoC 0; RtoC 0; p22_90; RtoC 0; RtoC 0; RtoC 0; RtoC 0; RtoC 0; RtoC 0; RtoC 0; RtoC 0; RtoC 0; RtoC 0; RtoC 0; RtoC 0; RtoC 0; RtoC 0; RtoC 0]).

(** src/private/fnft__akns_fscatter.c:785-846, case 2SPLIT8A (degree 24) *)
Definition step_2SPLIT8A (e : R -> m3) : list C * list C * list C * list C :=
  let e_6B := e 6%R in
  let e_8B := e 8%R in
  let e_12B := e 12%R in
  let e_24B := e 24%R in
  let p11_6 : C := 1024 * (m0 e_6B) * (m0 e_6B) * (m1 e_6B) * (m2 e_6B) / 315  in
  let p11_8 : C := -(729) * (m0 e_8B) * (m1 e_8B) * (m2 e_8B) / 280  in
  let p11_12 : C := 2 * p11_6 + 1024 * (m1 e_6B) * (m1 e_6B) * (m2 e_6B) * (m2 e_6B) / 315 + 16 * (m1 e_12B) * (m2 e_12B) / 45  in
  let p11_16 : C := 2 * p11_8 in
  let p11_18 : C := 3 * p11_6 in
  let p11_24 : C := 1024 * (m0 e_6B) * (m0 e_6B) * (m0 e_6B) * (m0 e_6B) / 315 + 16 * (m0 e_12B) * (m0 e_12B) / 45 - (m0 e_24B) / 360 - 729 * (m0 e_8B) * (m0 e_8B) * (m0 e_8B) / 280  in
  let p12_3 : C := 1024 * (m0 e_6B) * (m0 e_6B) * (m0 e_6B) * (m1 e_6B) / 315  in
  let p12_4 : C := -(729) * (m0 e_8B) * (m0 e_8B) * (m1 e_8B) / 280  in
  let p12_6 : C := 16 * (m0 e_12B) * (m1 e_12B) / 45  in
  let p12_9 : C := 1024 * (m0 e_6B) * (m0 e_6B) * (m0 e_6B) * (m1 e_6B) / 315 + 2048 * (m2 e_6B) * (m0 e_6B) * (m1 e_6B) * (m1 e_6B) / 315  in
  let p12_12 : C := - (m1 e_24B) / 360 + p12_4 - 729 * (m1 e_8B) * (m1 e_8B) * (m2 e_8B) / 280  in
  let p12_15 : C := p12_9 in
  let p12_18 : C := p12_6 in
  let p12_20 : C := p12_4 in
  let p12_21 : C := p12_3 in
  let p21_3 : C := 1024 * (m0 e_6B) * (m0 e_6B) * (m0 e_6B) * (m2 e_6B) / 315  in
  let p21_4 : C := -(729) * (m0 e_8B) * (m0 e_8B) * (m2 e_8B) / 280  in
  let p21_6 : C := 16 * (m0 e_12B) * (m2 e_12B) / 45  in
  let p21_9 : C := 1024 * (m0 e_6B) * (m0 e_6B) * (m0 e_6B) * (m2 e_6B) / 315 + 2048 * (m1 e_6B) * (m0 e_6B) * (m2 e_6B) * (m2 e_6B) / 315  in
  let p21_12 : C := - (m2 e_24B) / 360 + p21_4 - 729 * (m1 e_8B) * (m2 e_8B) * (m2 e_8B) / 280  in
  let p21_15 : C := p21_9 in
  let p21_18 : C := p21_6 in
  let p21_20 : C := p21_4 in
  let p21_21 : C := p21_3 in
  let p22_0 : C := p11_24 in
  let p22_6 : C := p11_18 in
  let p22_8 : C := p11_16 in
  let p22_12 : C := p11_12 in
  let p22_16 : C := p11_8 in
  let p22_18 : C := p11_6 in
  ([RtoC 0; RtoC 0; RtoC 0; RtoC 0; RtoC 0; RtoC 0; p11_6; RtoC 0; p11_8; RtoC 0; RtoC 0; RtoC 0; p11_12; RtoC 0; RtoC 0; RtoC 0; p11_16; RtoC 0; p11_18; RtoC 0; RtoC 0; RtoC 0; RtoC 0; RtoC 0; p11_24],
   [RtoC 0; RtoC 0; RtoC 0; p12_3; p12_4; RtoC 0; p12_6; RtoC 0; RtoC 0; p12_9; RtoC 0; RtoC 0; p12_12; RtoC 0; RtoC 0; p12_15; RtoC 0; RtoC 0; p12_18; RtoC 0; p12_20; p12_21; RtoC 0; RtoC 0; RtoC 0],
   [RtoC 0; RtoC 0; RtoC 0; p21_3; p21_4; RtoC 0; p21_6; RtoC 0; RtoC 0; p21_9; RtoC 0; RtoC 0; p21_12; RtoC 0; RtoC 0; p21_15; RtoC 0; RtoC 0; p21_18; RtoC 0; p21_20; p21_21; RtoC 0; RtoC 0; RtoC 0],
   [p22_0; RtoC 0; RtoC 0; RtoC 0; RtoC 0; RtoC 0; p22_6; RtoC 0; p22_8; RtoC 0; RtoC 0; RtoC 0; p22_12; RtoC 0; RtoC 0; RtoC 0; p22_16; RtoC 0; p22_18; RtoC 0; RtoC 0; RtoC 0; RtoC 0; RtoC 0; RtoC 0]).

(** src/private/fnft__akns_fscatter.c:850-911, case 2SPLIT8B (degree 12) *)
Definition step_2SPLIT8B (e : R -> m3) : list C * list C * list C * list C :=
  let e_1_5B := e (3 / 2)%R in
  let e_2B := e 2%R in
  let e_3B := e 3%R in
  let e_4B := e 4%R in
  let e_6B := e 6%R in
  let p11_0 : C := 1024 * (m1 e_1_5B) * (m2 e_1_5B) * (m0 e_3B) * (m0 e_3B) * (m0 e_3B) / 315 - (m1 e_6B) * (m2 e_6B) / 360 + 16 * (m1 e_3B) * (m2 e_3B) * (m0 e_6B) / 45 - 729 * (m1 e_2B) * (m2 e_2B) * (m0 e_4B) * (m0 e_4B) / 280  in
  let p11_3 : C := 1024 * ((m0 e_3B) * (m0 e_3B) * (m1 e_3B) * (m0 e_1_5B) * (m2 e_1_5B) + (m0 e_3B) * (m0 e_3B) * (m2 e_3B) * (m0 e_1_5B) * (m1 e_1_5B) + 2 * (m0 e_3B) * (m1 e_3B) * (m2 e_3B) * (m1 e_1_5B) * (m2 e_1_5B)) / 315  in
  let p11_4 : C := -(729) * ((m0 e_2B) * (m1 e_2B) * (m0 e_4B) * (m2 e_4B) + (m0 e_2B) * (m2 e_2B) * (m0 e_4B) * (m1 e_4B) + (m1 e_2B) * (m2 e_2B) * (m1 e_4B) * (m2 e_4B)) / 280  in
  let p11_6 : C := 1024 * ((m2 e_1_5B) * (m0 e_3B) * (m0 e_3B) * (m1 e_3B) * (m0 e_1_5B) + (m1 e_1_5B) * (m0 e_3B) * (m0 e_3B) * (m2 e_3B) * (m0 e_1_5B) + (m0 e_3B) * (m1 e_3B) * (m2 e_3B) * (m0 e_1_5B) * (m0 e_1_5B) + (m1 e_1_5B) * (m2 e_1_5B) * (m0 e_3B) * (m1 e_3B) * (m2 e_3B) + (m2 e_1_5B) * (m1 e_3B) * (m1 e_3B) * (m2 e_3B) * (m0 e_1_5B) + (m1 e_1_5B) * (m1 e_3B) * (m2 e_3B) * (m2 e_3B) * (m0 e_1_5B)) / 315 + 16 * ((m2 e_6B) * (m0 e_3B) * (m1 e_3B) + (m1 e_6B) * (m0 e_3B) * (m2 e_3B)) / 45  in
  let p11_8 : C := -(729) * ((m0 e_2B) * (m0 e_2B) * (m1 e_4B) * (m2 e_4B) + (m0 e_2B) * (m1 e_2B) * (m0 e_4B) * (m2 e_4B) + (m0 e_2B) * (m2 e_2B) * (m0 e_4B) * (m1 e_4B)) / 280  in
  let p11_9 : C := 1024 * (2 * (m0 e_3B) * (m1 e_3B) * (m2 e_3B) * (m0 e_1_5B) * (m0 e_1_5B) + (m0 e_3B) * (m0 e_3B) * (m1 e_3B) * (m0 e_1_5B) * (m2 e_1_5B) + (m0 e_3B) * (m0 e_3B) * (m2 e_3B) * (m0 e_1_5B) * (m1 e_1_5B)) / 315  in
  let p11_12 : C := 1024 * (m0 e_3B) * (m0 e_3B) * (m0 e_3B) * (m0 e_1_5B) * (m0 e_1_5B) / 315 + 16 * (m0 e_3B) * (m0 e_3B) * (m0 e_6B) / 45 - (m0 e_6B) * (m0 e_6B) / 360 - 729 * (m0 e_2B) * (m0 e_2B) * (m0 e_4B) * (m0 e_4B) / 280  in
  let p12_0 : C := 1024 * (m0 e_1_5B) * (m1 e_1_5B) * (m0 e_3B) * (m0 e_3B) * (m0 e_3B) / 315 + 16 * (m1 e_3B) * (m0 e_6B) * (m0 e_3B) / 45 - (m0 e_6B) * (m1 e_6B) / 360 - 729 * (m0 e_2B) * (m1 e_2B) * (m0 e_4B) * (m0 e_4B) / 280  in
  let p12_3 : C := 1024 * ((m1 e_3B) * (m0 e_3B) * (m0 e_3B) * (m0 e_1_5B) * (m0 e_1_5B) + (m2 e_3B) * (m0 e_3B) * (m0 e_3B) * (m1 e_1_5B) * (m1 e_1_5B) + 2 * (m1 e_3B) * (m2 e_3B) * (m0 e_3B) * (m0 e_1_5B) * (m1 e_1_5B)) / 315  in
  let p12_4 : C := -(729) * ((m0 e_2B) * (m0 e_2B) * (m0 e_4B) * (m1 e_4B) + (m1 e_2B) * (m1 e_2B) * (m0 e_4B) * (m2 e_4B) + (m0 e_2B) * (m1 e_2B) * (m1 e_4B) * (m2 e_4B)) / 280  in
  let p12_6 : C := 1024 * ((m0 e_3B) * (m0 e_3B) * (m1 e_3B) * (m0 e_1_5B) * (m0 e_1_5B) + (m0 e_3B) * (m0 e_3B) * (m2 e_3B) * (m1 e_1_5B) * (m1 e_1_5B) + 2 * (m0 e_3B) * (m1 e_3B) * (m2 e_3B) * (m0 e_1_5B) * (m1 e_1_5B) + (m1 e_3B) * (m1 e_3B) * (m2 e_3B) * (m0 e_1_5B) * (m0 e_1_5B) + (m1 e_3B) * (m2 e_3B) * (m2 e_3B) * (m1 e_1_5B) * (m1 e_1_5B)) / 315 + 16 * ((m1 e_6B) * (m0 e_3B) * (m0 e_3B) + (m2 e_6B) * (m1 e_3B) * (m1 e_3B)) / 45  in
  let p12_8 : C := p12_4 in
  let p12_9 : C := p12_3 in
  let p12_12 : C := p12_0 in
  let p21_0 : C := 1024 * (m0 e_1_5B) * (m2 e_1_5B) * (m0 e_3B) * (m0 e_3B) * (m0 e_3B) / 315 + 16 * (m2 e_3B) * (m0 e_6B) * (m0 e_3B) / 45 - (m0 e_6B) * (m2 e_6B) / 360 - 729 * (m0 e_2B) * (m2 e_2B) * (m0 e_4B) * (m0 e_4B) / 280  in
  let p21_3 : C := 1024 * ((m2 e_3B) * (m0 e_3B) * (m0 e_3B) * (m0 e_1_5B) * (m0 e_1_5B) + (m1 e_3B) * (m0 e_3B) * (m0 e_3B) * (m2 e_1_5B) * (m2 e_1_5B) + 2 * (m1 e_3B) * (m2 e_3B) * (m0 e_3B) * (m0 e_1_5B) * (m2 e_1_5B)) / 315  in
  let p21_4 : C := -(729) * ((m0 e_2B) * (m0 e_2B) * (m0 e_4B) * (m2 e_4B) + (m2 e_2B) * (m2 e_2B) * (m0 e_4B) * (m1 e_4B) + (m0 e_2B) * (m2 e_2B) * (m1 e_4B) * (m2 e_4B)) / 280  in
  let p21_6 : C := 1024 * ((m0 e_3B) * (m0 e_3B) * (m1 e_3B) * (m2 e_1_5B) * (m2 e_1_5B) + (m0 e_3B) * (m0 e_3B) * (m2 e_3B) * (m0 e_1_5B) * (m0 e_1_5B) + 2 * (m0 e_3B) * (m1 e_3B) * (m2 e_3B) * (m0 e_1_5B) * (m2 e_1_5B) + (m1 e_3B) * (m1 e_3B) * (m2 e_3B) * (m2 e_1_5B) * (m2 e_1_5B) + (m1 e_3B) * (m2 e_3B) * (m2 e_3B) * (m0 e_1_5B) * (m0 e_1_5B)) / 315 + 16 * ((m2 e_6B) * (m0 e_3B) * (m0 e_3B) + (m1 e_6B) * (m2 e_3B) * (m2 e_3B)) / 45  in
  let p21_8 : C := p21_4 in
  let p21_9 : C := p21_3 in
  let p21_12 : C := p21_0 in
  let p22_0 : C := p11_12 in
  let p22_3 : C := p11_9 in
  let p22_4 : C := p11_8 in
  let p22_6 : C := p11_6 in
  let p22_8 : C := p11_4 in
  let p22_9 : C := p11_3 in
  let p22_12 : C := p11_0 in
  ([p11_0; RtoC 0; RtoC 0; p11_3; p11_4; RtoC 0; p11_6; RtoC 0; p11_8; p11_9; RtoC 0; RtoC 0; p11_12],
   [p12_0; RtoC 0; RtoC 0; p12_3; p12_4; RtoC 0; p12_6; RtoC 0; p12_8; p12_9; RtoC 0; RtoC 0; p12_12],
   [p21_0; RtoC 0; RtoC 0; p21_3; p21_4; RtoC 0; p21_6; RtoC 0; p21_8; p21_9; RtoC 0; RtoC 0; p21_12],
   [p22_0; RtoC 0; RtoC 0; p22_3; p22_4; RtoC 0; p22_6; RtoC 0; p22_8; p22_9; RtoC 0; RtoC 0; p22_12]).

(** src/private/fnft__akns_fscatter.c:110-956: the switch, without 2SPLIT2_MODAL; None for the default branch.
   4SPLIT4A and 4SPLIT4B halve eps_t before they fall through (lines 356-358, 399-401): see FscatterModel. *)
Definition akns_step (d : akns_disc) : option ((R -> m3) -> list C * list C * list C * list C) :=
  match d with
  | A_2SPLIT1A => Some step_2SPLIT1A
  | A_2SPLIT1B | A_2SPLIT2A => Some step_2SPLIT1B
  | A_2SPLIT2B => Some step_2SPLIT2B
  | A_2SPLIT2S => Some step_2SPLIT2S
  | A_2SPLIT3A => Some step_2SPLIT3A
  | A_2SPLIT3B => Some step_2SPLIT3B
  | A_2SPLIT3S => Some step_2SPLIT3S
  | A_4SPLIT4A | A_2SPLIT4A => Some step_2SPLIT4A
  | A_4SPLIT4B | A_2SPLIT4B => Some step_2SPLIT4B
  | A_2SPLIT5A => Some step_2SPLIT5A
  | A_2SPLIT5B => Some step_2SPLIT5B
  | A_2SPLIT6A => Some step_2SPLIT6A
  | A_2SPLIT6B => Some step_2SPLIT6B
  | A_2SPLIT7A => Some step_2SPLIT7A
  | A_2SPLIT7B => Some step_2SPLIT7B
  | A_2SPLIT8A => Some step_2SPLIT8A
  | A_2SPLIT8B => Some step_2SPLIT8B
  | _ => None
  end.
