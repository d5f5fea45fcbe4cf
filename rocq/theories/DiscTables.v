(** * Enumerations and switch tables of the discretizations

   Generated from the C sources by a script (one match per C switch, in the order of the source); the script
   only copies labels and returned values.  Enumerations get one extra constructor [.._other]
   for every integer that is not a named enumerator. *)
From Coq Require Import Reals ZArith List String.
Import ListNotations.
Local Open Scope string_scope.

(** include/private/fnft__akns_discretization_t.h:104-136 *)
Inductive akns_disc : Set :=
| A_2SPLIT2_MODAL
| A_2SPLIT1A
| A_2SPLIT1B
| A_2SPLIT2A
| A_2SPLIT2B
| A_2SPLIT2S
| A_2SPLIT3A
| A_2SPLIT3B
| A_2SPLIT3S
| A_2SPLIT4A
| A_2SPLIT4B
| A_2SPLIT5A
| A_2SPLIT5B
| A_2SPLIT6A
| A_2SPLIT6B
| A_2SPLIT7A
| A_2SPLIT7B
| A_2SPLIT8A
| A_2SPLIT8B
| A_BO
| A_4SPLIT4A
| A_4SPLIT4B
| A_CF4_2
| A_CF4_3
| A_CF5_3
| A_CF6_4
| A_ES4
| A_TES4
| A_FTES4_4A
| A_FTES4_4B
| A_4SPLIT6B
| A_other.

(** include/fnft_nse_discretization_t.h:104-133 *)
Inductive nse_disc : Set :=
| N_2SPLIT2_MODAL
| N_BO
| N_2SPLIT1A
| N_2SPLIT1B
| N_2SPLIT2A
| N_2SPLIT2B
| N_2SPLIT2S
| N_2SPLIT3A
| N_2SPLIT3B
| N_2SPLIT3S
| N_2SPLIT4A
| N_2SPLIT4B
| N_2SPLIT5A
| N_2SPLIT5B
| N_2SPLIT6A
| N_2SPLIT6B
| N_2SPLIT7A
| N_2SPLIT7B
| N_2SPLIT8A
| N_2SPLIT8B
| N_4SPLIT4A
| N_4SPLIT4B
| N_CF4_2
| N_CF4_3
| N_CF5_3
| N_CF6_4
| N_ES4
| N_TES4
| N_other.

(** include/fnft_kdv_discretization_t.h:116-173 *)
Inductive kdv_disc : Set :=
| K_2SPLIT2_MODAL_VANILLA
| K_BO_VANILLA
| K_2SPLIT1A_VANILLA
| K_2SPLIT1B_VANILLA
| K_2SPLIT2A_VANILLA
| K_2SPLIT2B_VANILLA
| K_2SPLIT2S_VANILLA
| K_2SPLIT3A_VANILLA
| K_2SPLIT3B_VANILLA
| K_2SPLIT3S_VANILLA
| K_2SPLIT4A_VANILLA
| K_2SPLIT4B_VANILLA
| K_2SPLIT5A_VANILLA
| K_2SPLIT5B_VANILLA
| K_2SPLIT6A_VANILLA
| K_2SPLIT6B_VANILLA
| K_2SPLIT7A_VANILLA
| K_2SPLIT7B_VANILLA
| K_2SPLIT8A_VANILLA
| K_2SPLIT8B_VANILLA
| K_4SPLIT4A_VANILLA
| K_4SPLIT4B_VANILLA
| K_CF4_2_VANILLA
| K_CF4_3_VANILLA
| K_CF5_3_VANILLA
| K_CF6_4_VANILLA
| K_ES4_VANILLA
| K_TES4_VANILLA
| K_2SPLIT2_MODAL
| K_BO
| K_2SPLIT1A
| K_2SPLIT1B
| K_2SPLIT2A
| K_2SPLIT2B
| K_2SPLIT2S
| K_2SPLIT3A
| K_2SPLIT3B
| K_2SPLIT3S
| K_2SPLIT4A
| K_2SPLIT4B
| K_2SPLIT5A
| K_2SPLIT5B
| K_2SPLIT6A
| K_2SPLIT6B
| K_2SPLIT7A
| K_2SPLIT7B
| K_2SPLIT8A
| K_2SPLIT8B
| K_4SPLIT4A
| K_4SPLIT4B
| K_CF4_2
| K_CF4_3
| K_CF5_3
| K_CF6_4
| K_ES4
| K_TES4
| K_other.

(** include/fnft_manakov_discretization_t.h:88-102 *)
Inductive man_disc : Set :=
| M_2SPLIT3A
| M_2SPLIT3B
| M_2SPLIT4A
| M_2SPLIT4B
| M_2SPLIT6B
| M_4SPLIT4A
| M_4SPLIT4B
| M_4SPLIT6B
| M_FTES4_4A
| M_FTES4_4B
| M_FTES4_suzuki
| M_CF4_2
| M_BO
| M_other.

(** the enumerator names without their common prefix (include/private/fnft__akns_discretization_t.h:104-136) *)
Definition akns_name (d : akns_disc) : string :=
  match d with
  | A_2SPLIT2_MODAL => "2SPLIT2_MODAL"
  | A_2SPLIT1A => "2SPLIT1A"
  | A_2SPLIT1B => "2SPLIT1B"
  | A_2SPLIT2A => "2SPLIT2A"
  | A_2SPLIT2B => "2SPLIT2B"
  | A_2SPLIT2S => "2SPLIT2S"
  | A_2SPLIT3A => "2SPLIT3A"
  | A_2SPLIT3B => "2SPLIT3B"
  | A_2SPLIT3S => "2SPLIT3S"
  | A_2SPLIT4A => "2SPLIT4A"
  | A_2SPLIT4B => "2SPLIT4B"
  | A_2SPLIT5A => "2SPLIT5A"
  | A_2SPLIT5B => "2SPLIT5B"
  | A_2SPLIT6A => "2SPLIT6A"
  | A_2SPLIT6B => "2SPLIT6B"
  | A_2SPLIT7A => "2SPLIT7A"
  | A_2SPLIT7B => "2SPLIT7B"
  | A_2SPLIT8A => "2SPLIT8A"
  | A_2SPLIT8B => "2SPLIT8B"
  | A_BO => "BO"
  | A_4SPLIT4A => "4SPLIT4A"
  | A_4SPLIT4B => "4SPLIT4B"
  | A_CF4_2 => "CF4_2"
  | A_CF4_3 => "CF4_3"
  | A_CF5_3 => "CF5_3"
  | A_CF6_4 => "CF6_4"
  | A_ES4 => "ES4"
  | A_TES4 => "TES4"
  | A_FTES4_4A => "FTES4_4A"
  | A_FTES4_4B => "FTES4_4B"
  | A_4SPLIT6B => "4SPLIT6B"
  | A_other => ""
  end.

Definition all_akns : list akns_disc := [A_2SPLIT2_MODAL; A_2SPLIT1A; A_2SPLIT1B; A_2SPLIT2A; A_2SPLIT2B; A_2SPLIT2S; A_2SPLIT3A; A_2SPLIT3B; A_2SPLIT3S; A_2SPLIT4A; A_2SPLIT4B; A_2SPLIT5A; A_2SPLIT5B; A_2SPLIT6A; A_2SPLIT6B; A_2SPLIT7A; A_2SPLIT7B; A_2SPLIT8A; A_2SPLIT8B; A_BO; A_4SPLIT4A; A_4SPLIT4B; A_CF4_2; A_CF4_3; A_CF5_3; A_CF6_4; A_ES4; A_TES4; A_FTES4_4A; A_FTES4_4B; A_4SPLIT6B].

(** the enumerator names without their common prefix (include/fnft_nse_discretization_t.h:104-133) *)
Definition nse_name (d : nse_disc) : string :=
  match d with
  | N_2SPLIT2_MODAL => "2SPLIT2_MODAL"
  | N_BO => "BO"
  | N_2SPLIT1A => "2SPLIT1A"
  | N_2SPLIT1B => "2SPLIT1B"
  | N_2SPLIT2A => "2SPLIT2A"
  | N_2SPLIT2B => "2SPLIT2B"
  | N_2SPLIT2S => "2SPLIT2S"
  | N_2SPLIT3A => "2SPLIT3A"
  | N_2SPLIT3B => "2SPLIT3B"
  | N_2SPLIT3S => "2SPLIT3S"
  | N_2SPLIT4A => "2SPLIT4A"
  | N_2SPLIT4B => "2SPLIT4B"
  | N_2SPLIT5A => "2SPLIT5A"
  | N_2SPLIT5B => "2SPLIT5B"
  | N_2SPLIT6A => "2SPLIT6A"
  | N_2SPLIT6B => "2SPLIT6B"
  | N_2SPLIT7A => "2SPLIT7A"
  | N_2SPLIT7B => "2SPLIT7B"
  | N_2SPLIT8A => "2SPLIT8A"
  | N_2SPLIT8B => "2SPLIT8B"
  | N_4SPLIT4A => "4SPLIT4A"
  | N_4SPLIT4B => "4SPLIT4B"
  | N_CF4_2 => "CF4_2"
  | N_CF4_3 => "CF4_3"
  | N_CF5_3 => "CF5_3"
  | N_CF6_4 => "CF6_4"
  | N_ES4 => "ES4"
  | N_TES4 => "TES4"
  | N_other => ""
  end.

Definition all_nse : list nse_disc := [N_2SPLIT2_MODAL; N_BO; N_2SPLIT1A; N_2SPLIT1B; N_2SPLIT2A; N_2SPLIT2B; N_2SPLIT2S; N_2SPLIT3A; N_2SPLIT3B; N_2SPLIT3S; N_2SPLIT4A; N_2SPLIT4B; N_2SPLIT5A; N_2SPLIT5B; N_2SPLIT6A; N_2SPLIT6B; N_2SPLIT7A; N_2SPLIT7B; N_2SPLIT8A; N_2SPLIT8B; N_4SPLIT4A; N_4SPLIT4B; N_CF4_2; N_CF4_3; N_CF5_3; N_CF6_4; N_ES4; N_TES4].

(** the enumerator names without their common prefix (include/fnft_kdv_discretization_t.h:116-173) *)
Definition kdv_name (d : kdv_disc) : string :=
  match d with
  | K_2SPLIT2_MODAL_VANILLA => "2SPLIT2_MODAL_VANILLA"
  | K_BO_VANILLA => "BO_VANILLA"
  | K_2SPLIT1A_VANILLA => "2SPLIT1A_VANILLA"
  | K_2SPLIT1B_VANILLA => "2SPLIT1B_VANILLA"
  | K_2SPLIT2A_VANILLA => "2SPLIT2A_VANILLA"
  | K_2SPLIT2B_VANILLA => "2SPLIT2B_VANILLA"
  | K_2SPLIT2S_VANILLA => "2SPLIT2S_VANILLA"
  | K_2SPLIT3A_VANILLA => "2SPLIT3A_VANILLA"
  | K_2SPLIT3B_VANILLA => "2SPLIT3B_VANILLA"
  | K_2SPLIT3S_VANILLA => "2SPLIT3S_VANILLA"
  | K_2SPLIT4A_VANILLA => "2SPLIT4A_VANILLA"
  | K_2SPLIT4B_VANILLA => "2SPLIT4B_VANILLA"
  | K_2SPLIT5A_VANILLA => "2SPLIT5A_VANILLA"
  | K_2SPLIT5B_VANILLA => "2SPLIT5B_VANILLA"
  | K_2SPLIT6A_VANILLA => "2SPLIT6A_VANILLA"
  | K_2SPLIT6B_VANILLA => "2SPLIT6B_VANILLA"
  | K_2SPLIT7A_VANILLA => "2SPLIT7A_VANILLA"
  | K_2SPLIT7B_VANILLA => "2SPLIT7B_VANILLA"
  | K_2SPLIT8A_VANILLA => "2SPLIT8A_VANILLA"
  | K_2SPLIT8B_VANILLA => "2SPLIT8B_VANILLA"
  | K_4SPLIT4A_VANILLA => "4SPLIT4A_VANILLA"
  | K_4SPLIT4B_VANILLA => "4SPLIT4B_VANILLA"
  | K_CF4_2_VANILLA => "CF4_2_VANILLA"
  | K_CF4_3_VANILLA => "CF4_3_VANILLA"
  | K_CF5_3_VANILLA => "CF5_3_VANILLA"
  | K_CF6_4_VANILLA => "CF6_4_VANILLA"
  | K_ES4_VANILLA => "ES4_VANILLA"
  | K_TES4_VANILLA => "TES4_VANILLA"
  | K_2SPLIT2_MODAL => "2SPLIT2_MODAL"
  | K_BO => "BO"
  | K_2SPLIT1A => "2SPLIT1A"
  | K_2SPLIT1B => "2SPLIT1B"
  | K_2SPLIT2A => "2SPLIT2A"
  | K_2SPLIT2B => "2SPLIT2B"
  | K_2SPLIT2S => "2SPLIT2S"
  | K_2SPLIT3A => "2SPLIT3A"
  | K_2SPLIT3B => "2SPLIT3B"
  | K_2SPLIT3S => "2SPLIT3S"
  | K_2SPLIT4A => "2SPLIT4A"
  | K_2SPLIT4B => "2SPLIT4B"
  | K_2SPLIT5A => "2SPLIT5A"
  | K_2SPLIT5B => "2SPLIT5B"
  | K_2SPLIT6A => "2SPLIT6A"
  | K_2SPLIT6B => "2SPLIT6B"
  | K_2SPLIT7A => "2SPLIT7A"
  | K_2SPLIT7B => "2SPLIT7B"
  | K_2SPLIT8A => "2SPLIT8A"
  | K_2SPLIT8B => "2SPLIT8B"
  | K_4SPLIT4A => "4SPLIT4A"
  | K_4SPLIT4B => "4SPLIT4B"
  | K_CF4_2 => "CF4_2"
  | K_CF4_3 => "CF4_3"
  | K_CF5_3 => "CF5_3"
  | K_CF6_4 => "CF6_4"
  | K_ES4 => "ES4"
  | K_TES4 => "TES4"
  | K_other => ""
  end.

Definition all_kdv : list kdv_disc := [K_2SPLIT2_MODAL_VANILLA; K_BO_VANILLA; K_2SPLIT1A_VANILLA; K_2SPLIT1B_VANILLA; K_2SPLIT2A_VANILLA; K_2SPLIT2B_VANILLA; K_2SPLIT2S_VANILLA; K_2SPLIT3A_VANILLA; K_2SPLIT3B_VANILLA; K_2SPLIT3S_VANILLA; K_2SPLIT4A_VANILLA; K_2SPLIT4B_VANILLA; K_2SPLIT5A_VANILLA; K_2SPLIT5B_VANILLA; K_2SPLIT6A_VANILLA; K_2SPLIT6B_VANILLA; K_2SPLIT7A_VANILLA; K_2SPLIT7B_VANILLA; K_2SPLIT8A_VANILLA; K_2SPLIT8B_VANILLA; K_4SPLIT4A_VANILLA; K_4SPLIT4B_VANILLA; K_CF4_2_VANILLA; K_CF4_3_VANILLA; K_CF5_3_VANILLA; K_CF6_4_VANILLA; K_ES4_VANILLA; K_TES4_VANILLA; K_2SPLIT2_MODAL; K_BO; K_2SPLIT1A; K_2SPLIT1B; K_2SPLIT2A; K_2SPLIT2B; K_2SPLIT2S; K_2SPLIT3A; K_2SPLIT3B; K_2SPLIT3S; K_2SPLIT4A; K_2SPLIT4B; K_2SPLIT5A; K_2SPLIT5B; K_2SPLIT6A; K_2SPLIT6B; K_2SPLIT7A; K_2SPLIT7B; K_2SPLIT8A; K_2SPLIT8B; K_4SPLIT4A; K_4SPLIT4B; K_CF4_2; K_CF4_3; K_CF5_3; K_CF6_4; K_ES4; K_TES4].

(** the enumerator names without their common prefix (include/fnft_manakov_discretization_t.h:88-102) *)
Definition man_name (d : man_disc) : string :=
  match d with
  | M_2SPLIT3A => "2SPLIT3A"
  | M_2SPLIT3B => "2SPLIT3B"
  | M_2SPLIT4A => "2SPLIT4A"
  | M_2SPLIT4B => "2SPLIT4B"
  | M_2SPLIT6B => "2SPLIT6B"
  | M_4SPLIT4A => "4SPLIT4A"
  | M_4SPLIT4B => "4SPLIT4B"
  | M_4SPLIT6B => "4SPLIT6B"
  | M_FTES4_4A => "FTES4_4A"
  | M_FTES4_4B => "FTES4_4B"
  | M_FTES4_suzuki => "FTES4_suzuki"
  | M_CF4_2 => "CF4_2"
  | M_BO => "BO"
  | M_other => ""
  end.

Definition all_man : list man_disc := [M_2SPLIT3A; M_2SPLIT3B; M_2SPLIT4A; M_2SPLIT4B; M_2SPLIT6B; M_4SPLIT4A; M_4SPLIT4B; M_4SPLIT6B; M_FTES4_4A; M_FTES4_4B; M_FTES4_suzuki; M_CF4_2; M_BO].

(** include/private/fnft__akns_discretization_t.h: akns_pde_t *)
Inductive akns_pde : Set := PDE_KdV | PDE_NSE | PDE_other.

(** Values of REAL for which only NaN or not matters: None = NAN. *)
Definition xreal := option R.
Local Close Scope string_scope.
Local Open Scope R_scope.
(** IEEE comparison [x == y] of two REALs: false if one of them is NaN. *)
Definition xeq (x y : xreal) : Prop := match x, y with Some a, Some b => a = b | _, _ => False end.

(** src/private/fnft__akns_discretization.c:29-67 degree *)
Definition akns_degree (d : akns_disc) : nat :=
  match d with
  | A_2SPLIT1A | A_2SPLIT1B | A_2SPLIT2A | A_2SPLIT2B | A_2SPLIT2S | A_2SPLIT2_MODAL =>
      1%nat
  | A_2SPLIT3S | A_2SPLIT4B | A_4SPLIT4B =>
      2%nat
  | A_2SPLIT3A | A_2SPLIT3B =>
      3%nat
  | A_2SPLIT4A | A_4SPLIT4A =>
      4%nat
  | A_2SPLIT6B =>
      6%nat
  | A_2SPLIT6A | A_2SPLIT8B =>
      12%nat
  | A_2SPLIT5A | A_2SPLIT5B =>
      15%nat
  | A_2SPLIT8A =>
      24%nat
  | A_2SPLIT7A | A_2SPLIT7B =>
      105%nat
  | _ => 0%nat
  end.

(** src/private/fnft__akns_discretization.c:72-109 boundary_coeff *)
Definition akns_boundary_coeff (d : akns_disc) : xreal :=
  match d with
  | A_2SPLIT1A | A_2SPLIT1B | A_2SPLIT2A | A_2SPLIT2B | A_2SPLIT2S | A_2SPLIT3A | A_2SPLIT3B | A_2SPLIT3S | A_2SPLIT4A | A_2SPLIT4B | A_4SPLIT4A | A_4SPLIT4B | A_2SPLIT5A | A_2SPLIT5B | A_2SPLIT6A | A_2SPLIT6B | A_2SPLIT7A | A_2SPLIT7B | A_2SPLIT8A | A_2SPLIT8B | A_2SPLIT2_MODAL | A_BO | A_CF4_2 | A_CF4_3 | A_CF5_3 | A_CF6_4 | A_ES4 | A_TES4 =>
      Some (1/2)
  | _ => None
  end.

(** src/private/fnft__akns_discretization.c:114-154 upsampling_factor *)
Definition akns_upsampling_factor (d : akns_disc) : nat :=
  match d with
  | A_2SPLIT1A | A_2SPLIT1B | A_2SPLIT2A | A_2SPLIT2B | A_2SPLIT2S | A_2SPLIT3A | A_2SPLIT3B | A_2SPLIT3S | A_2SPLIT4A | A_2SPLIT4B | A_2SPLIT5A | A_2SPLIT5B | A_2SPLIT6A | A_2SPLIT6B | A_2SPLIT7A | A_2SPLIT7B | A_2SPLIT8A | A_2SPLIT8B | A_2SPLIT2_MODAL | A_BO =>
      1%nat
  | A_4SPLIT4A | A_4SPLIT4B | A_CF4_2 =>
      2%nat
  | A_CF4_3 | A_CF5_3 | A_ES4 | A_TES4 =>
      3%nat
  | A_CF6_4 =>
      4%nat
  | _ => 0%nat
  end.

(** src/private/fnft__akns_discretization.c:158-198 method_order *)
Definition akns_method_order (d : akns_disc) : nat :=
  match d with
  | A_2SPLIT1A | A_2SPLIT1B | A_2SPLIT2A | A_2SPLIT2B | A_2SPLIT2S | A_2SPLIT3A | A_2SPLIT3B | A_2SPLIT3S | A_2SPLIT4A | A_2SPLIT4B | A_2SPLIT5A | A_2SPLIT5B | A_2SPLIT6A | A_2SPLIT6B | A_2SPLIT7A | A_2SPLIT7B | A_2SPLIT8A | A_2SPLIT8B | A_2SPLIT2_MODAL | A_BO =>
      2%nat
  | A_4SPLIT4A | A_4SPLIT4B | A_CF4_2 | A_CF4_3 | A_ES4 | A_TES4 =>
      4%nat
  | A_CF5_3 =>
      5%nat
  | A_CF6_4 =>
      6%nat
  | _ => 0%nat
  end.

(** src/private/fnft__nse_discretization.c:112-205 ; None = E_INVALID_ARGUMENT *)
Definition nse_to_akns (d : nse_disc) : option akns_disc :=
  match d with
  | N_2SPLIT2_MODAL =>
      Some A_2SPLIT2_MODAL
  | N_2SPLIT1A =>
      Some A_2SPLIT1A
  | N_2SPLIT1B =>
      Some A_2SPLIT1B
  | N_2SPLIT2A =>
      Some A_2SPLIT2A
  | N_2SPLIT2B =>
      Some A_2SPLIT2B
  | N_2SPLIT2S =>
      Some A_2SPLIT2S
  | N_2SPLIT3S =>
      Some A_2SPLIT3S
  | N_2SPLIT4B =>
      Some A_2SPLIT4B
  | N_2SPLIT3A =>
      Some A_2SPLIT3A
  | N_2SPLIT3B =>
      Some A_2SPLIT3B
  | N_2SPLIT4A =>
      Some A_2SPLIT4A
  | N_2SPLIT6B =>
      Some A_2SPLIT6B
  | N_2SPLIT6A =>
      Some A_2SPLIT6A
  | N_2SPLIT8B =>
      Some A_2SPLIT8B
  | N_2SPLIT5A =>
      Some A_2SPLIT5A
  | N_2SPLIT5B =>
      Some A_2SPLIT5B
  | N_2SPLIT8A =>
      Some A_2SPLIT8A
  | N_2SPLIT7A =>
      Some A_2SPLIT7A
  | N_2SPLIT7B =>
      Some A_2SPLIT7B
  | N_BO =>
      Some A_BO
  | N_4SPLIT4A =>
      Some A_4SPLIT4A
  | N_4SPLIT4B =>
      Some A_4SPLIT4B
  | N_CF4_2 =>
      Some A_CF4_2
  | N_CF4_3 =>
      Some A_CF4_3
  | N_CF5_3 =>
      Some A_CF5_3
  | N_CF6_4 =>
      Some A_CF6_4
  | N_ES4 =>
      Some A_ES4
  | N_TES4 =>
      Some A_TES4
  | _ => None
  end.

(** src/private/fnft__kdv_discretization.c:112-232 ; None = E_INVALID_ARGUMENT *)
Definition kdv_to_akns (d : kdv_disc) : option akns_disc :=
  match d with
  | K_2SPLIT2_MODAL_VANILLA | K_2SPLIT2_MODAL =>
      Some A_2SPLIT2_MODAL
  | K_2SPLIT1A_VANILLA | K_2SPLIT1A =>
      Some A_2SPLIT1A
  | K_2SPLIT1B_VANILLA | K_2SPLIT1B =>
      Some A_2SPLIT1B
  | K_2SPLIT2A_VANILLA | K_2SPLIT2A =>
      Some A_2SPLIT2A
  | K_2SPLIT2B_VANILLA | K_2SPLIT2B =>
      Some A_2SPLIT2B
  | K_2SPLIT2S_VANILLA | K_2SPLIT2S =>
      Some A_2SPLIT2S
  | K_2SPLIT3A_VANILLA | K_2SPLIT3A =>
      Some A_2SPLIT3A
  | K_2SPLIT3B_VANILLA | K_2SPLIT3B =>
      Some A_2SPLIT3B
  | K_2SPLIT3S_VANILLA | K_2SPLIT3S =>
      Some A_2SPLIT3S
  | K_2SPLIT4A_VANILLA | K_2SPLIT4A =>
      Some A_2SPLIT4A
  | K_2SPLIT4B_VANILLA | K_2SPLIT4B =>
      Some A_2SPLIT4B
  | K_2SPLIT5A_VANILLA | K_2SPLIT5A =>
      Some A_2SPLIT5A
  | K_2SPLIT5B_VANILLA | K_2SPLIT5B =>
      Some A_2SPLIT5B
  | K_2SPLIT6A_VANILLA | K_2SPLIT6A =>
      Some A_2SPLIT6A
  | K_2SPLIT6B_VANILLA | K_2SPLIT6B =>
      Some A_2SPLIT6B
  | K_2SPLIT7A_VANILLA | K_2SPLIT7A =>
      Some A_2SPLIT7A
  | K_2SPLIT7B_VANILLA | K_2SPLIT7B =>
      Some A_2SPLIT7B
  | K_2SPLIT8A_VANILLA | K_2SPLIT8A =>
      Some A_2SPLIT8A
  | K_2SPLIT8B_VANILLA | K_2SPLIT8B =>
      Some A_2SPLIT8B
  | K_BO_VANILLA | K_BO =>
      Some A_BO
  | K_4SPLIT4A_VANILLA | K_4SPLIT4A =>
      Some A_4SPLIT4A
  | K_4SPLIT4B_VANILLA | K_4SPLIT4B =>
      Some A_4SPLIT4B
  | K_CF4_2_VANILLA | K_CF4_2 =>
      Some A_CF4_2
  | K_CF4_3_VANILLA | K_CF4_3 =>
      Some A_CF4_3
  | K_CF5_3_VANILLA | K_CF5_3 =>
      Some A_CF5_3
  | K_CF6_4_VANILLA | K_CF6_4 =>
      Some A_CF6_4
  | K_ES4_VANILLA | K_ES4 =>
      Some A_ES4
  | K_TES4_VANILLA | K_TES4 =>
      Some A_TES4
  | _ => None
  end.

(** src/private/fnft__kdv_discretization.c:546-624  *)
Definition kdv_vanilla_flag (d : kdv_disc) : option bool :=
  match d with
  | K_2SPLIT1A_VANILLA | K_2SPLIT1B_VANILLA | K_2SPLIT2B_VANILLA | K_2SPLIT2S_VANILLA | K_2SPLIT3A_VANILLA | K_2SPLIT3B_VANILLA | K_2SPLIT3S_VANILLA | K_2SPLIT4A_VANILLA | K_2SPLIT4B_VANILLA | K_2SPLIT5A_VANILLA | K_2SPLIT5B_VANILLA | K_2SPLIT6A_VANILLA | K_2SPLIT6B_VANILLA | K_2SPLIT7A_VANILLA | K_2SPLIT7B_VANILLA | K_2SPLIT8A_VANILLA | K_2SPLIT8B_VANILLA | K_4SPLIT4A_VANILLA | K_4SPLIT4B_VANILLA | K_2SPLIT2A_VANILLA | K_2SPLIT2_MODAL_VANILLA | K_BO_VANILLA | K_CF4_2_VANILLA | K_CF4_3_VANILLA | K_CF5_3_VANILLA | K_CF6_4_VANILLA | K_ES4_VANILLA | K_TES4_VANILLA =>
      Some true
  | K_2SPLIT1A | K_2SPLIT1B | K_2SPLIT2B | K_2SPLIT2S | K_2SPLIT3A | K_2SPLIT3B | K_2SPLIT3S | K_2SPLIT4A | K_2SPLIT4B | K_2SPLIT5A | K_2SPLIT5B | K_2SPLIT6A | K_2SPLIT6B | K_2SPLIT7A | K_2SPLIT7B | K_2SPLIT8A | K_2SPLIT8B | K_4SPLIT4A | K_4SPLIT4B | K_2SPLIT2A | K_2SPLIT2_MODAL | K_BO | K_CF4_2 | K_CF4_3 | K_CF5_3 | K_CF6_4 | K_ES4 | K_TES4 =>
      Some false
  | _ => None
  end.

(** src/private/fnft__kdv_discretization.c:629-715 ; None = error *)
Definition kdv_slow_discretization (d : kdv_disc) : option kdv_disc :=
  match d with
  | K_2SPLIT1A_VANILLA | K_2SPLIT1B_VANILLA | K_2SPLIT2B_VANILLA | K_2SPLIT2S_VANILLA | K_2SPLIT3A_VANILLA | K_2SPLIT3B_VANILLA | K_2SPLIT3S_VANILLA | K_2SPLIT4A_VANILLA | K_2SPLIT4B_VANILLA | K_2SPLIT5A_VANILLA | K_2SPLIT5B_VANILLA | K_2SPLIT6A_VANILLA | K_2SPLIT6B_VANILLA | K_2SPLIT7A_VANILLA | K_2SPLIT7B_VANILLA | K_2SPLIT8A_VANILLA | K_2SPLIT8B_VANILLA | K_2SPLIT2A_VANILLA | K_2SPLIT2_MODAL_VANILLA =>
      Some K_BO_VANILLA
  | K_2SPLIT1A | K_2SPLIT1B | K_2SPLIT2B | K_2SPLIT2S | K_2SPLIT3A | K_2SPLIT3B | K_2SPLIT3S | K_2SPLIT4A | K_2SPLIT4B | K_2SPLIT5A | K_2SPLIT5B | K_2SPLIT6A | K_2SPLIT6B | K_2SPLIT7A | K_2SPLIT7B | K_2SPLIT8A | K_2SPLIT8B | K_2SPLIT2A | K_2SPLIT2_MODAL =>
      Some K_BO
  | K_4SPLIT4A_VANILLA | K_4SPLIT4B_VANILLA =>
      Some K_CF4_2_VANILLA
  | K_4SPLIT4A | K_4SPLIT4B =>
      Some K_CF4_2
  | K_BO_VANILLA | K_CF4_2_VANILLA | K_CF4_3_VANILLA | K_CF5_3_VANILLA | K_CF6_4_VANILLA | K_ES4_VANILLA | K_TES4_VANILLA | K_BO | K_CF4_2 | K_CF4_3 | K_CF5_3 | K_CF6_4 | K_ES4 | K_TES4 =>
      Some d
  | _ => None
  end.

(** src/private/fnft__manakov_discretization.c:32-57 degree *)
Definition man_degree (d : man_disc) : nat :=
  match d with
  | M_2SPLIT3A | M_2SPLIT3B =>
      6%nat
  | M_2SPLIT4B | M_4SPLIT4B =>
      4%nat
  | M_2SPLIT4A | M_4SPLIT4A | M_FTES4_4A | M_FTES4_4B =>
      8%nat
  | M_2SPLIT6B | M_4SPLIT6B =>
      12%nat
  | M_FTES4_suzuki =>
      14%nat
  | _ => 0%nat
  end.

(** src/private/fnft__manakov_discretization.c:448-470 boundary_coeff *)
Definition man_boundary_coeff (d : man_disc) : xreal :=
  match d with
  | M_2SPLIT3A | M_2SPLIT3B | M_2SPLIT4A | M_2SPLIT4B | M_4SPLIT4A | M_4SPLIT4B | M_4SPLIT6B | M_2SPLIT6B | M_FTES4_4A | M_FTES4_4B | M_FTES4_suzuki | M_BO | M_CF4_2 =>
      Some (1/2)
  | _ => None
  end.

(** src/private/fnft__manakov_discretization.c:63-85 upsampling_factor *)
Definition man_upsampling_factor (d : man_disc) : nat :=
  match d with
  | M_4SPLIT4A | M_4SPLIT4B | M_4SPLIT6B | M_CF4_2 =>
      2%nat
  | M_2SPLIT3A | M_2SPLIT3B | M_2SPLIT4B | M_2SPLIT4A | M_FTES4_4A | M_FTES4_4B | M_2SPLIT6B | M_BO | M_FTES4_suzuki =>
      1%nat
  | _ => 0%nat
  end.

(** src/private/fnft__manakov_discretization.c:87-106 method_order *)
Definition man_method_order (d : man_disc) : nat :=
  match d with
  | M_2SPLIT3A | M_2SPLIT3B | M_2SPLIT4B | M_2SPLIT4A | M_2SPLIT6B =>
      2%nat
  | M_4SPLIT4A | M_4SPLIT4B | M_4SPLIT6B | M_FTES4_4A | M_FTES4_4B | M_FTES4_suzuki =>
      4%nat
  | _ => 0%nat
  end.

(** src/private/fnft__nse_discretization.c and fnft__kdv_discretization.c: degree, boundary_coeff, upsampling_factor, method_order
   call the AKNS function with the mapped discretization; CHECK_RETCODE returns the initial value (0 or NAN)
   when the map fails.  (nse: lines 30-98, kdv: lines 30-87) *)
Definition via {X Y} (m : X -> option akns_disc) (dflt : Y) (f : akns_disc -> Y) (d : X) : Y :=
  match m d with Some a => f a | None => dflt end.
Definition nse_degree := via nse_to_akns 0%nat akns_degree.
Definition nse_boundary_coeff := via nse_to_akns (None : xreal) akns_boundary_coeff.
Definition nse_upsampling_factor := via nse_to_akns 0%nat akns_upsampling_factor.
Definition nse_method_order := via nse_to_akns 0%nat akns_method_order.
Definition kdv_degree := via kdv_to_akns 0%nat akns_degree.
Definition kdv_boundary_coeff := via kdv_to_akns (None : xreal) akns_boundary_coeff.
Definition kdv_upsampling_factor := via kdv_to_akns 0%nat akns_upsampling_factor.
Definition kdv_method_order := via kdv_to_akns 0%nat akns_method_order.

(** Result of a phase factor function: error code, or success and the stored value (None = NaN stored). *)
Inductive phase_result := PErr (code : Z) | POk (v : xreal).
(** [if (boundary_coeff == NAN) return E_INVALID_ARGUMENT]: the comparison is an IEEE comparison and thus
   false; the code continues with a NaN, which makes every stored value NaN. *)
Definition eq_NAN (x : xreal) : bool := false.
Lemma eq_NAN_is_IEEE x : (eq_NAN x = true) <-> xeq x None.
Proof. unfold eq_NAN, xeq. destruct x; split; (discriminate || contradiction). Qed.
Definition with_bc (bc : xreal) (f : R -> option R) : phase_result :=
  if eq_NAN bc then PErr 2
  else match bc with
       | Some b => match f b with Some v => POk (Some v) | None => PErr 2 end
       | None => match f 0 with Some _ => POk None | None => PErr 2 end
       end.

(** src/private/fnft__nse_discretization.c:267-317 (the switch) *)
Definition nse_phase_a_sw (eps_t D T0 T1 bc : R) (d : nse_disc) : option R :=
  match d with
  | N_2SPLIT1A | N_2SPLIT1B | N_2SPLIT2B | N_2SPLIT2S | N_2SPLIT3A | N_2SPLIT3B | N_2SPLIT3S | N_2SPLIT4A | N_2SPLIT4B | N_2SPLIT5A | N_2SPLIT5B | N_2SPLIT6A | N_2SPLIT6B | N_2SPLIT7A | N_2SPLIT7B | N_2SPLIT8A | N_2SPLIT8B | N_4SPLIT4A | N_4SPLIT4B | N_2SPLIT2A | N_2SPLIT2_MODAL =>
      Some (- eps_t * D + (T1 + eps_t * bc) - (T0 - eps_t * bc))
  | N_BO | N_CF4_2 | N_CF4_3 | N_CF5_3 | N_CF6_4 | N_ES4 | N_TES4 =>
      Some ((T1 + eps_t * bc) - (T0 - eps_t * bc))
  | _ => None
  end.

Definition nse_phase_factor_a (eps_t : R) (D : nat) (T0 T1 : R) (d : nse_disc) : phase_result :=
  with_bc (nse_boundary_coeff d) (fun bc => nse_phase_a_sw eps_t (INR D) T0 T1 bc d).

(** src/private/fnft__nse_discretization.c:324-383 (the switch) *)
Definition nse_phase_b_sw (eps_t D T0 T1 bc : R) (d : nse_disc) : option R :=
  match d with
  | N_2SPLIT1A | N_2SPLIT1B | N_2SPLIT2B | N_2SPLIT2S | N_2SPLIT3A | N_2SPLIT3B | N_2SPLIT3S | N_2SPLIT4A | N_2SPLIT4B | N_2SPLIT5A | N_2SPLIT5B | N_2SPLIT6A | N_2SPLIT6B | N_2SPLIT7A | N_2SPLIT7B | N_2SPLIT8A | N_2SPLIT8B | N_4SPLIT4A | N_4SPLIT4B =>
      Some (- eps_t * D - (T1 + eps_t * bc) - (T0 - eps_t * bc))
  | N_2SPLIT2A | N_2SPLIT2_MODAL =>
      if Nat.eqb (nse_degree d) 0 then None else Some (- eps_t * D - (T1 + eps_t * bc) - (T0 - eps_t * bc) + eps_t / INR (nse_degree d))
  | N_BO | N_CF4_2 | N_CF4_3 | N_CF5_3 | N_CF6_4 | N_ES4 | N_TES4 =>
      Some (- (T1 + eps_t * bc) - (T0 - eps_t * bc))
  | _ => None
  end.

Definition nse_phase_factor_b (eps_t : R) (D : nat) (T0 T1 : R) (d : nse_disc) : phase_result :=
  with_bc (nse_boundary_coeff d) (fun bc => nse_phase_b_sw eps_t (INR D) T0 T1 bc d).

(** src/private/fnft__kdv_discretization.c:286-364 (the switch) *)
Definition kdv_phase_a_sw (eps_t D T0 T1 bc : R) (d : kdv_disc) : option R :=
  match d with
  | K_2SPLIT1A_VANILLA | K_2SPLIT1B_VANILLA | K_2SPLIT2B_VANILLA | K_2SPLIT2S_VANILLA | K_2SPLIT3A_VANILLA | K_2SPLIT3B_VANILLA | K_2SPLIT3S_VANILLA | K_2SPLIT4A_VANILLA | K_2SPLIT4B_VANILLA | K_2SPLIT5A_VANILLA | K_2SPLIT5B_VANILLA | K_2SPLIT6A_VANILLA | K_2SPLIT6B_VANILLA | K_2SPLIT7A_VANILLA | K_2SPLIT7B_VANILLA | K_2SPLIT8A_VANILLA | K_2SPLIT8B_VANILLA | K_4SPLIT4A_VANILLA | K_4SPLIT4B_VANILLA | K_2SPLIT2A_VANILLA | K_2SPLIT2_MODAL_VANILLA | K_2SPLIT1A | K_2SPLIT1B | K_2SPLIT2B | K_2SPLIT2S | K_2SPLIT3A | K_2SPLIT3B | K_2SPLIT3S | K_2SPLIT4A | K_2SPLIT4B | K_2SPLIT5A | K_2SPLIT5B | K_2SPLIT6A | K_2SPLIT6B | K_2SPLIT7A | K_2SPLIT7B | K_2SPLIT8A | K_2SPLIT8B | K_4SPLIT4A | K_4SPLIT4B | K_2SPLIT2A | K_2SPLIT2_MODAL =>
      Some (- eps_t * D + (T1 + eps_t * bc) - (T0 - eps_t * bc))
  | K_BO_VANILLA | K_CF4_2_VANILLA | K_CF4_3_VANILLA | K_CF5_3_VANILLA | K_CF6_4_VANILLA | K_ES4_VANILLA | K_TES4_VANILLA | K_BO | K_CF4_2 | K_CF4_3 | K_CF5_3 | K_CF6_4 | K_ES4 | K_TES4 =>
      Some ((T1 + eps_t * bc) - (T0 - eps_t * bc))
  | _ => None
  end.

Definition kdv_phase_factor_a (eps_t : R) (D : nat) (T0 T1 : R) (d : kdv_disc) : phase_result :=
  with_bc (kdv_boundary_coeff d) (fun bc => kdv_phase_a_sw eps_t (INR D) T0 T1 bc d).

(** src/private/fnft__kdv_discretization.c:371-450 (the switch) *)
Definition kdv_phase_b_sw (eps_t D T0 T1 bc : R) (d : kdv_disc) : option R :=
  match d with
  | K_2SPLIT2_MODAL_VANILLA | K_2SPLIT1A_VANILLA | K_2SPLIT1B_VANILLA | K_2SPLIT2A_VANILLA | K_2SPLIT2B_VANILLA | K_2SPLIT2S_VANILLA | K_2SPLIT3A_VANILLA | K_2SPLIT3B_VANILLA | K_2SPLIT3S_VANILLA | K_2SPLIT4A_VANILLA | K_2SPLIT4B_VANILLA | K_2SPLIT5A_VANILLA | K_2SPLIT5B_VANILLA | K_2SPLIT6A_VANILLA | K_2SPLIT6B_VANILLA | K_2SPLIT7A_VANILLA | K_2SPLIT7B_VANILLA | K_2SPLIT8A_VANILLA | K_2SPLIT8B_VANILLA | K_4SPLIT4A_VANILLA | K_4SPLIT4B_VANILLA | K_2SPLIT2_MODAL | K_2SPLIT1A | K_2SPLIT1B | K_2SPLIT2A | K_2SPLIT2B | K_2SPLIT2S | K_2SPLIT3A | K_2SPLIT3B | K_2SPLIT3S | K_2SPLIT4A | K_2SPLIT4B | K_2SPLIT5A | K_2SPLIT5B | K_2SPLIT6A | K_2SPLIT6B | K_2SPLIT7A | K_2SPLIT7B | K_2SPLIT8A | K_2SPLIT8B | K_4SPLIT4A | K_4SPLIT4B =>
      Some (- eps_t * D - (T1 + eps_t * bc) - (T0 - eps_t * bc))
  | K_BO_VANILLA | K_CF4_2_VANILLA | K_CF4_3_VANILLA | K_CF5_3_VANILLA | K_CF6_4_VANILLA | K_ES4_VANILLA | K_TES4_VANILLA | K_BO | K_CF4_2 | K_CF4_3 | K_CF5_3 | K_CF6_4 | K_ES4 | K_TES4 =>
      Some (- (T1 + eps_t * bc) - (T0 - eps_t * bc))
  | _ => None
  end.

Definition kdv_phase_factor_b (eps_t : R) (D : nat) (T0 T1 : R) (d : kdv_disc) : phase_result :=
  with_bc (kdv_boundary_coeff d) (fun bc => kdv_phase_b_sw eps_t (INR D) T0 T1 bc d).

(** src/private/fnft__manakov_discretization.c:348-387 (the switch) *)
Definition man_phase_a_sw (eps_t D T0 T1 bc : R) (d : man_disc) : option R :=
  match d with
  | M_2SPLIT3A | M_2SPLIT3B | M_2SPLIT4A | M_2SPLIT4B | M_2SPLIT6B | M_4SPLIT4A | M_4SPLIT4B | M_4SPLIT6B | M_FTES4_4A | M_FTES4_4B =>
      Some (- eps_t * D + (T1 + eps_t * bc) - (T0 - eps_t * bc))
  | M_FTES4_suzuki =>
      Some ((T1 + eps_t * bc) - (T0 - eps_t * bc) - eps_t * 7 * D / 3)
  | M_BO | M_CF4_2 =>
      Some ((T1 + eps_t * bc) - (T0 - eps_t * bc))
  | _ => None
  end.

Definition man_phase_factor_a (eps_t : R) (D : nat) (T0 T1 : R) (d : man_disc) : phase_result :=
  with_bc (man_boundary_coeff d) (fun bc => man_phase_a_sw eps_t (INR D) T0 T1 bc d).

(** src/private/fnft__manakov_discretization.c:394-443 (the switch) *)
Definition man_phase_b_sw (eps_t D T0 T1 bc : R) (d : man_disc) : option R :=
  match d with
  | M_2SPLIT3A | M_2SPLIT3B | M_2SPLIT4A | M_2SPLIT4B | M_2SPLIT6B | M_FTES4_4A | M_FTES4_4B =>
      if Nat.eqb (man_degree d) 0 then None else Some (- eps_t * D - (T1 + eps_t * bc) - (T0 - eps_t * bc))
  | M_FTES4_suzuki =>
      Some (- (T1 + eps_t * bc) - (T0 - eps_t * bc) - eps_t * 7 * D / 3)
  | M_4SPLIT4A | M_4SPLIT4B | M_4SPLIT6B =>
      Some (- eps_t * (D + 1) - (T1 + eps_t * bc) - (T0 - eps_t * bc))
  | M_BO =>
      Some (- (T1 + eps_t * bc) - (T0 - eps_t * bc))
  | M_CF4_2 =>
      Some (- (T1 + eps_t * bc) - (T0 - eps_t * bc) - eps_t)
  | _ => None
  end.

Definition man_phase_factor_b (eps_t : R) (D : nat) (T0 T1 : R) (d : man_disc) : phase_result :=
  with_bc (man_boundary_coeff d) (fun bc => man_phase_b_sw eps_t (INR D) T0 T1 bc d).

(** src/private/fnft__manakov_discretization.c:305-341 (the switch) *)
Definition man_phase_rho_sw (eps_t T1 bc : R) (d : man_disc) : option R :=
  match d with
  | M_2SPLIT3A | M_2SPLIT3B | M_2SPLIT4A | M_2SPLIT4B | M_2SPLIT6B | M_FTES4_4A | M_FTES4_4B | M_FTES4_suzuki | M_BO =>
      Some (- 2 * (T1 + eps_t * bc))
  | M_4SPLIT4A | M_4SPLIT4B | M_4SPLIT6B | M_CF4_2 =>
      Some (- 2 * (T1 + eps_t * bc) - eps_t)
  | _ => None
  end.

Definition man_phase_factor_rho (eps_t T1 : R) (d : man_disc) : phase_result :=
  with_bc (man_boundary_coeff d) (fun bc => man_phase_rho_sw eps_t T1 bc d).

(** src/private/fnft__nse_discretization.c:243-260 *)
Definition nse_phase_factor_rho (eps_t T1 : R) (d : nse_disc) : phase_result :=
  with_bc (nse_boundary_coeff d) (fun bc =>
    match d with
    | N_2SPLIT2A | N_2SPLIT2_MODAL =>
        if Nat.eqb (nse_degree d) 0 then None else Some (- 2 * (T1 + eps_t * bc) + eps_t / INR (nse_degree d))
    | _ => Some (- 2 * (T1 + eps_t * bc))
    end).

(** src/private/fnft__kdv_discretization.c: kdv_discretization_phase_factor_rho *)
Definition kdv_phase_factor_rho (eps_t T1 : R) (d : kdv_disc) : phase_result :=
  with_bc (kdv_boundary_coeff d) (fun bc => Some (- 2 * (T1 + eps_t * bc))).

Inductive weight_class : Set := W_one | W_CF4_2 | W_CF4_3 | W_CF5_3 | W_CF6_4.

(** src/private/fnft__akns_discretization.c:246-415 (which branch of the switch; the branches are in DiscModel.v) *)
Definition akns_weight_class (d : akns_disc) : option weight_class :=
  match d with
  | A_BO | A_2SPLIT1A | A_2SPLIT1B | A_2SPLIT2A | A_2SPLIT2B | A_2SPLIT2S | A_2SPLIT3A | A_2SPLIT3B | A_2SPLIT3S | A_2SPLIT4A | A_2SPLIT4B | A_2SPLIT5A | A_2SPLIT5B | A_2SPLIT6A | A_2SPLIT6B | A_2SPLIT7A | A_2SPLIT7B | A_2SPLIT8A | A_2SPLIT8B | A_2SPLIT2_MODAL =>
      Some W_one
  | A_CF4_2 | A_4SPLIT4A | A_4SPLIT4B =>
      Some W_CF4_2
  | A_CF4_3 =>
      Some W_CF4_3
  | A_CF5_3 =>
      Some W_CF5_3
  | A_CF6_4 =>
      Some W_CF6_4
  | _ => None
  end.

Inductive pre_class : Set := P_plain | P_CF4_2 | P_CF4_3 | P_CF5_3 | P_CF6_4 | P_ES4.

(** src/private/fnft__akns_discretization.c:421-675 (which branch of the switch) *)
Definition akns_pre_class (d : akns_disc) : option pre_class :=
  match d with
  | A_BO | A_2SPLIT1A | A_2SPLIT1B | A_2SPLIT2A | A_2SPLIT2B | A_2SPLIT2S | A_2SPLIT3A | A_2SPLIT3B | A_2SPLIT3S | A_2SPLIT4A | A_2SPLIT4B | A_2SPLIT5A | A_2SPLIT5B | A_2SPLIT6A | A_2SPLIT6B | A_2SPLIT7A | A_2SPLIT7B | A_2SPLIT8A | A_2SPLIT8B | A_2SPLIT2_MODAL =>
      Some P_plain
  | A_CF4_2 | A_4SPLIT4A | A_4SPLIT4B =>
      Some P_CF4_2
  | A_CF4_3 =>
      Some P_CF4_3
  | A_CF5_3 =>
      Some P_CF5_3
  | A_CF6_4 =>
      Some P_CF6_4
  | A_ES4 | A_TES4 =>
      Some P_ES4
  | _ => None
  end.

(** src/private/fnft__manakov_discretization.c:110-236 (which branch of the switch) *)
Definition man_pre_class (d : man_disc) : option pre_class :=
  match d with
  | M_2SPLIT3A | M_2SPLIT3B | M_2SPLIT4B | M_2SPLIT4A | M_FTES4_4A | M_FTES4_4B | M_2SPLIT6B | M_FTES4_suzuki | M_BO =>
      Some P_plain
  | M_4SPLIT4A | M_4SPLIT4B | M_4SPLIT6B | M_CF4_2 =>
      Some P_CF4_2
  | _ => None
  end.

(** src/private/fnft__akns_discretization.c:680-886 (inner switch for kdv: true = branch with the exponential factors) *)
Definition akns_to_S_kdv_class (d : akns_disc) : option bool :=
  match d with
  | A_2SPLIT1A | A_2SPLIT1B | A_2SPLIT2B | A_2SPLIT2S | A_2SPLIT3A | A_2SPLIT3B | A_2SPLIT3S | A_2SPLIT4A | A_2SPLIT4B | A_2SPLIT5A | A_2SPLIT5B | A_2SPLIT6A | A_2SPLIT6B | A_2SPLIT7A | A_2SPLIT7B | A_2SPLIT8A | A_2SPLIT8B | A_4SPLIT4A | A_4SPLIT4B | A_BO | A_CF4_2 | A_CF4_3 | A_CF5_3 | A_CF6_4 | A_ES4 | A_TES4 =>
      Some false
  | A_2SPLIT2_MODAL | A_2SPLIT2A =>
      Some true
  | _ => None
  end.

(** src/private/fnft__akns_discretization.c:680-886 (inner switch for nse: true = branch with the exponential factors) *)
Definition akns_to_S_nse_class (d : akns_disc) : option bool :=
  match d with
  | A_2SPLIT2_MODAL | A_2SPLIT2A | A_2SPLIT1A | A_2SPLIT1B | A_2SPLIT2B | A_2SPLIT2S | A_2SPLIT3A | A_2SPLIT3B | A_2SPLIT3S | A_2SPLIT4A | A_2SPLIT4B | A_2SPLIT5A | A_2SPLIT5B | A_2SPLIT6A | A_2SPLIT6B | A_2SPLIT7A | A_2SPLIT7B | A_2SPLIT8A | A_2SPLIT8B | A_4SPLIT4A | A_4SPLIT4B | A_BO | A_CF4_2 | A_CF4_3 | A_CF5_3 | A_CF6_4 | A_ES4 | A_TES4 =>
      Some false
  | _ => None
  end.

(** src/private/fnft__akns_discretization.c:891-1096 (inner switch for kdv: true = branch with the exponential factors) *)
Definition akns_from_S_kdv_class (d : akns_disc) : option bool :=
  match d with
  | A_2SPLIT1A | A_2SPLIT1B | A_2SPLIT2B | A_2SPLIT2S | A_2SPLIT3A | A_2SPLIT3B | A_2SPLIT3S | A_2SPLIT4A | A_2SPLIT4B | A_2SPLIT5A | A_2SPLIT5B | A_2SPLIT6A | A_2SPLIT6B | A_2SPLIT7A | A_2SPLIT7B | A_2SPLIT8A | A_2SPLIT8B | A_4SPLIT4A | A_4SPLIT4B | A_BO | A_CF4_2 | A_CF4_3 | A_CF5_3 | A_CF6_4 | A_ES4 | A_TES4 =>
      Some false
  | A_2SPLIT2_MODAL | A_2SPLIT2A =>
      Some true
  | _ => None
  end.

(** src/private/fnft__akns_discretization.c:891-1096 (inner switch for nse: true = branch with the exponential factors) *)
Definition akns_from_S_nse_class (d : akns_disc) : option bool :=
  match d with
  | A_2SPLIT2_MODAL | A_2SPLIT2A | A_2SPLIT1A | A_2SPLIT1B | A_2SPLIT2B | A_2SPLIT2S | A_2SPLIT3A | A_2SPLIT3B | A_2SPLIT3S | A_2SPLIT4A | A_2SPLIT4B | A_2SPLIT5A | A_2SPLIT5B | A_2SPLIT6A | A_2SPLIT6B | A_2SPLIT7A | A_2SPLIT7B | A_2SPLIT8A | A_2SPLIT8B | A_4SPLIT4A | A_4SPLIT4B | A_BO | A_CF4_2 | A_CF4_3 | A_CF5_3 | A_CF6_4 | A_ES4 | A_TES4 =>
      Some false
  | _ => None
  end.
