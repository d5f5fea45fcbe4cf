(** * Model of src/private/fnft__poly_fmult.c: fast multiplication of polynomials
   and of 2x2 / 3x3 matrices of polynomials.

   Exact arithmetic over an arbitrary field K; arrays checked (Mem.v).
   Parameters of the section:
   - [fft inverse len x]: executing a plan (fft_wrapper_execute_plan), see KissModel;
   - [expo v]: the integer FLOOR(LOG2(max |v_i|)), or 0 if all v_i are 0, which
     poly_rescale* compute; the theorems hold for every function expo;
   - [two]: the number 2.
   Not modelled: malloc failure, 32-bit overflow of W, wrap-around of UINT. *)
From Verif Require Export Base Mem Series.
From Verif Require Import KissModel MiscModel.

(** operands of a call: entry of the first / second matrix (row-major index) *)
Inductive src := P1 (ij : nat) | P2 (ij : nat).
(** one call poly_fmult_two_polys(deg, A, B, result_dest, ..., buf0, bufX, bufY, mode);
   [swap] = the call passes buf2, buf1 instead of buf1, buf2 *)
Record call := mkcall { cA : option src; cB : option src; cdest : nat; cswap : bool; cmode : nat }.

(** fnft__poly_fmult.c:228-317 poly_fmult_two_polys2x2: the eight calls in order;
   [space] = (mode_offset == 2) *)
Definition script2 (space : bool) : list call :=
  let mode := if space then 2 else 0 in
  [ mkcall (Some (P1 0)) (Some (P2 0)) 0 false mode;
    mkcall None (Some (P1 2)) 2 true mode;
    mkcall None (Some (P2 1)) 3 false mode;
    mkcall None (Some (P1 0)) 1 true mode ] ++
  let mode := mode + 1 in
  [ mkcall (Some (P1 1)) (Some (P2 2)) 0 false mode;
    mkcall None (Some (P1 3)) 2 true mode;
    mkcall None (Some (P2 3)) 3 false mode;
    mkcall None (Some (P1 1)) 1 true mode ].

(** fnft__poly_fmult.c:319-478 poly_fmult_two_polys3x3: the 27 calls in order *)
Definition script3 (space : bool) : list call :=
  let mode := if space then 2 else 0 in
  [ mkcall (Some (P2 0)) (Some (P1 0)) 0 false mode;
    mkcall (Some (P2 1)) None 1 false mode;
    mkcall None (Some (P2 2)) 2 true mode;
    mkcall None (Some (P1 3)) 5 false mode;
    mkcall (Some (P2 1)) None 4 false mode;
    mkcall None (Some (P2 0)) 3 true mode;
    mkcall None (Some (P1 6)) 6 false mode;
    mkcall (Some (P2 1)) None 7 false mode;
    mkcall None (Some (P2 2)) 8 true mode ] ++
  let mode := if space then 4 else 1 in
  [ mkcall (Some (P2 3)) (Some (P1 1)) 0 false mode;
    mkcall (Some (P2 4)) None 1 false mode;
    mkcall None (Some (P2 5)) 2 true mode;
    mkcall None (Some (P1 4)) 5 false mode;
    mkcall (Some (P2 4)) None 4 false mode;
    mkcall None (Some (P2 3)) 3 true mode;
    mkcall None (Some (P1 7)) 6 false mode;
    mkcall (Some (P2 4)) None 7 false mode;
    mkcall None (Some (P2 5)) 8 true mode ] ++
  let mode := if space then 3 else mode in
  [ mkcall (Some (P2 6)) (Some (P1 2)) 0 false mode;
    mkcall (Some (P2 7)) None 1 false mode;
    mkcall None (Some (P2 8)) 2 true mode;
    mkcall None (Some (P1 5)) 5 false mode;
    mkcall (Some (P2 7)) None 4 false mode;
    mkcall None (Some (P2 6)) 3 true mode;
    mkcall None (Some (P1 8)) 6 false mode;
    mkcall (Some (P2 7)) None 7 false mode;
    mkcall None (Some (P2 8)) 8 true mode ].

Section Fmult.
Context {K : cfield}.
Variable fft : bool -> nat -> list K -> out (list K).
Variable expo : list K -> Z.
Variable two : K.
Local Open Scope cf_scope.

Definition opt {A} (x : option A) : out A := match x with Some a => Ret a | None => UB end.

(** misc_nextpowerof2 as used here (see MiscModel for the loop itself) *)
Definition np2 (n : nat) : out nat := z <- opt (misc_nextpowerof2 64 (Z.of_nat n)) ;; Ret (Z.to_nat z).

(** fnft__poly_fmult.c:37-50 poly_fmult_numel, poly_fmult2x2_numel, poly_fmult3x3_numel:
   [mm] = 1, 4, 9 *)
Definition fmult_numel (mm deg n : nat) : out nat := N <- np2 n ;; Ret (mm * (deg + 1) * N)%nat.

(** fnft__poly_fmult.c:52-55 poly_fmult_two_polys_len *)
Definition two_polys_len (deg : nat) : out nat := opt (next_fft_length (2 * (deg + 1) - 1)).

(** execute a plan of length len: reads src[0..len-1], writes dst[0..len-1] *)
Definition exec (inv : bool) (len : nat) (src dst : list K) : out (list K) :=
  x <- rd src 0 len ;; y <- fft inv len x ;; wr dst 0 y.

(** fnft__poly_fmult.c:57-126 poly_fmult_two_polys.  p1, p2: contents of the deg+1
   coefficients, None = NULL.  [res], [ro]: the array and offset the pointer
   result points to.  Result: res, buf0, buf1, buf2 after the call. *)
Definition two_polys (deg : nat) (p1 p2 : option (list K)) (res : list K) (ro : nat)
  (buf0 buf1 buf2 : list K) (mode : nat) : out (list K * list K * list K * list K) :=
  len <- two_polys_len deg ;;
  buf0 <- wr buf0 (deg + 1) (repeat 0 (len - (deg + 1))) ;;
  s <- (match p1 with
        | None => Ret (buf0, buf1)
        | Some p => buf0 <- wr buf0 0 p ;; buf1 <- exec false len buf0 buf1 ;; Ret (buf0, buf1)
        end) ;;
  let '(buf0, buf1) := s in
  s <- (match p2 with
        | None => Ret (buf0, buf2)
        | Some p => buf0 <- wr buf0 0 p ;; buf2 <- exec false len buf0 buf2 ;; Ret (buf0, buf2)
        end) ;;
  let '(buf0, buf2) := s in
  x1 <- rd buf1 0 len ;; x2 <- rd buf2 0 len ;;
  buf0 <- wr buf0 0 (zipw fmul x1 x2) ;;
  (* modes 2, 3, 4 *)
  s <- (match mode with
        | 2 => v <- rd buf0 0 len ;; res <- wr res ro v ;; Ret (buf0, res)
        | 3 => v <- rd buf0 0 len ;; r <- rd res ro len ;;
               buf0 <- wr buf0 0 (zipw fadd v r) ;; Ret (buf0, res)
        | 4 => v <- rd buf0 0 len ;; r <- rd res ro len ;;
               res <- wr res ro (zipw fadd r v) ;; Ret (buf0, res)
        | _ => Ret (buf0, res)
        end) ;;
  let '(buf0, res) := s in
  buf1 <- (if Nat.eqb mode 2 || Nat.eqb mode 4 then Ret buf1 else exec true len buf0 buf1) ;;
  res <- (match mode with
          | 0 | 3 => v <- rd buf1 0 (2 * deg + 1) ;; wr res ro (map (fun x => x / fofnat len) v)
          | 1 => v <- rd buf1 0 (2 * deg + 1) ;; r <- rd res ro (2 * deg + 1) ;;
                 wr res ro (zipw fadd r (map (fun x => x / fofnat len) v))
          | _ => Ret res
          end) ;;
  Ret (res, buf0, buf1, buf2).

(** rescaling by 2^-a, fnft__poly_fmult.c:136-139, 480-520, 527-592 (poly_rescale,
   poly_rescale2x2, poly_rescale3x3): the blocks starting at ro + d*stride, d < mm, of
   cnt = d+1 coefficients each *)
Fixpoint read_blocks (mm : nat) (r : list K) (ro stride cnt : nat) : out (list (list K)) :=
  match mm with
  | O => Ret []
  | S mm' => b <- rd r ro cnt ;; l <- read_blocks mm' r (ro + stride) stride cnt ;; Ret (b :: l)
  end.
Fixpoint write_blocks (bs : list (list K)) (r : list K) (ro stride : nat) : out (list K) :=
  match bs with
  | [] => Ret r
  | b :: bs' => r <- wr r ro b ;; write_blocks bs' r (ro + stride) stride
  end.
Definition rescale (mm : nat) (r : list K) (ro stride cnt : nat) : out (Z * list K) :=
  bs <- read_blocks mm r ro stride cnt ;;
  let a := expo (concat bs) in
  let scl := zpow two (- a) in
  r <- write_blocks (map (map (fun x => x * scl)) bs) r ro stride ;;
  Ret (a, r).

(** ** fnft__poly_fmult, :141-226 of fnft__poly_fmult.c *)
(** :152-161 padding with z^deg *)
Fixpoint pad1 (fuel deg off : nat) (p : list K) : out (list K) :=
  match fuel with
  | O => Ret p
  | S fuel' => p <- wr p off (1 :: repeat 0 deg) ;; pad1 fuel' deg (off + (deg + 1)) p
  end.

(** :185-203 for (i=0; i<n; i+=2): [o1], [ro] offsets of p1 and result; p2 = p1 + deg+1 *)
Fixpoint pairs1 (fuel deg o1 ro : nat) (normalize : bool) (p : list K) (W : Z) (b0 b1 b2 : list K)
  : out (list K * Z * list K * list K * list K) :=
  match fuel with
  | O => Ret (p, W, b0, b1, b2)
  | S fuel' =>
      q1 <- rd p o1 (deg + 1) ;; q2 <- rd p (o1 + (deg + 1)) (deg + 1) ;;
      s <- two_polys deg (Some q1) (Some q2) p ro b0 b1 b2 0 ;;
      let '(p, b0, b1, b2) := s in
      s <- (if normalize then rescale 1 p ro 0 (2 * deg + 1) else Ret (0%Z, p)) ;;
      let '(a, p) := s in
      pairs1 fuel' deg (o1 + (2 * deg + 2)) (ro + (2 * deg + 1)) normalize p (W + a)%Z b0 b1 b2
  end.

(** :174-213 while (n >= 2); returns (code, degree, p, W) *)
Fixpoint levels1 (fuel n deg : nat) (normalize : bool) (p : list K) (W : Z) (b0 b1 b2 : list K)
  : out (Z * nat * list K * Z) :=
  match fuel with
  | O => UB
  | S fuel' =>
      if n <? 2 then Ret (0%Z, deg, p, W) else
      s <- pairs1 ((n + 1) / 2) deg 0 0 normalize p W b0 b1 b2 ;;
      let '(p, W, b0, b1, b2) := s in
      if negb (n mod 2 =? 0) then Ret (2%Z, deg, p, W) else
      levels1 fuel' (n / 2) (deg * 2) normalize p W b0 b1 b2
  end.

(** fnft__poly_fmult.  Result: return code, *d, p, *W_ptr.  For n < 2 the code
   returns an uninitialised ret_code: UB.  The buffers' initial contents are
   arbitrary ([junk0], [junk1], [junk2] of the allocated length). *)
Definition poly_fmult (junk0 junk1 junk2 : nat -> list K) (normalize : bool) (d n : nat) (p : list K)
  : out (Z * nat * list K * Z) :=
  N <- np2 n ;;
  p <- pad1 (N - n) d (n * (d + 1)) p ;;
  lenmem <- two_polys_len (d * N / 2) ;;
  if N <? 2 then UB else
  s <- levels1 (S N) N d normalize p 0 (junk0 lenmem) (junk1 lenmem) (junk2 lenmem) ;;
  let '(code, deg, p, W) := s in
  Ret (code, (if (code =? 0)%Z then deg - (N - n) * d else d)%nat, p, W).

(** ** Matrices *)
(** contents of an operand: entry ij of the first matrix starts at p + o1 + ij*p_stride,
   of the second one at p + o2 + ij*p_stride *)
Definition operand (p : list K) (o1 o2 p_stride deg : nat) (x : src) : out (list K) :=
  match x with
  | P1 ij => rd p (o1 + ij * p_stride) (deg + 1)
  | P2 ij => rd p (o2 + ij * p_stride) (deg + 1)
  end.
Definition operand_opt (p : list K) (o1 o2 p_stride deg : nat) (x : option src) : out (option (list K)) :=
  match x with None => Ret None | Some x => v <- operand p o1 o2 p_stride deg x ;; Ret (Some v) end.

(** one call / all calls of poly_fmult_two_polys2x2/3x3 *)
Definition run_call (p : list K) (o1 o2 p_stride deg : nat) (ro r_stride : nat) (c : call)
  (r b0 b1 b2 : list K) : out (list K * list K * list K * list K) :=
  A <- operand_opt p o1 o2 p_stride deg (cA c) ;;
  B <- operand_opt p o1 o2 p_stride deg (cB c) ;;
  if cswap c then
    s <- two_polys deg A B r (ro + cdest c * r_stride) b0 b2 b1 (cmode c) ;;
    let '(r, b0, b2, b1) := s in Ret (r, b0, b1, b2)
  else two_polys deg A B r (ro + cdest c * r_stride) b0 b1 b2 (cmode c).

Fixpoint run_calls (p : list K) (o1 o2 p_stride deg : nat) (ro r_stride : nat) (cs : list call)
  (r b0 b1 b2 : list K) : out (list K * list K * list K * list K) :=
  match cs with
  | [] => Ret (r, b0, b1, b2)
  | c :: cs' => s <- run_call p o1 o2 p_stride deg ro r_stride c r b0 b1 b2 ;;
      let '(r, b0, b1, b2) := s in run_calls p o1 o2 p_stride deg ro r_stride cs' r b0 b1 b2
  end.

(** ** fnft__poly_fmult2x2 (:603-768, mm = 4, script2) and fnft__poly_fmult3x3
   (:770-1010, mm = 9, script3); the two functions differ only in the number of
   entries and the calls made per pair. *)
(** :635-637 / :815-822 memmove of entry d from d*n*(deg+1) to d*N*(deg+1), d = mm-1 downto 1 *)
Fixpoint spread (d n N cnt : nat) (p : list K) : out (list K) :=
  match d with
  | O => Ret p
  | S d' => v <- rd p (d * (n * cnt)) (n * cnt) ;; p <- wr p (d * (N * cnt)) v ;; spread d' n N cnt p
  end.

(** :639-660 / :824-866 padding with z^deg times the identity: in entry d = i*m+j,
   n_excess polynomials; the coefficient of z^deg is 1 if i = j *)
Fixpoint pad_entry (fuel deg off : nat) (lead : K) (p : list K) : out (list K) :=
  match fuel with
  | O => Ret p
  | S fuel' => p <- wr p off (lead :: repeat 0 deg) ;; pad_entry fuel' deg (off + (deg + 1)) lead p
  end.
Fixpoint pad_entries (cnt d m n N deg : nat) (p : list K) : out (list K) :=
  match cnt with
  | O => Ret p
  | S cnt' =>
      p <- pad_entry (N - n) deg (d * (N * (deg + 1)) + n * (deg + 1))
             (if Nat.eqb (d / m) (d mod m) then 1 else 0) p ;;
      pad_entries cnt' (S d) m n N deg p
  end.

(** :703-720 / :920-939 for (i=0; i<n; i+=2) *)
Fixpoint pairsM (script : bool -> list call) (mm fuel deg o1 ro p_stride r_stride len : nat)
  (normalize : bool) (p r : list K) (W : Z) (b0 b1 b2 : list K)
  : out (list K * Z * list K * list K * list K) :=
  match fuel with
  | O => Ret (r, W, b0, b1, b2)
  | S fuel' =>
      s <- run_calls p o1 (o1 + (deg + 1)) p_stride deg ro r_stride
             (script (negb (r_stride - ro <? len))) r b0 b1 b2 ;;
      let '(r, b0, b1, b2) := s in
      s <- (if normalize then rescale mm r ro r_stride (2 * deg + 1) else Ret (0%Z, r)) ;;
      let '(a, r) := s in
      pairsM script mm fuel' deg (o1 + (2 * deg + 2)) (ro + (2 * deg + 1)) p_stride r_stride len
        normalize p r (W + a)%Z b0 b1 b2
  end.

(** :735-740 / :954-964 memcpy of each entry's n*(deg+1) coefficients back to p *)
Fixpoint copy_back (cnt d r_stride p_stride len : nat) (p r : list K) : out (list K) :=
  match cnt with
  | O => Ret p
  | S cnt' => v <- rd r (d * r_stride) len ;; p <- wr p (d * p_stride) v ;;
      copy_back cnt' (S d) r_stride p_stride len p r
  end.

(** :681-741 / :892-965 while (n >= 2); returns (code, deg, r_stride, p, result, W) *)
Fixpoint levelsM (script : bool -> list call) (mm fuel n deg p_stride r_stride0 : nat) (normalize : bool)
  (p r : list K) (W : Z) (b0 b1 b2 : list K) : out (Z * nat * nat * list K * list K * Z) :=
  match fuel with
  | O => UB
  | S fuel' =>
      if n <? 2 then Ret (0%Z, deg, r_stride0, p, r, W) else
      len <- two_polys_len deg ;;
      let r_stride := (n / 2 * (2 * deg + 1))%nat in
      s <- pairsM script mm ((n + 1) / 2) deg 0 0 p_stride r_stride len normalize p r W b0 b1 b2 ;;
      let '(r, W, b0, b1, b2) := s in
      if negb (n mod 2 =? 0) then Ret (2%Z, deg, r_stride, p, r, W) else
      let deg := (deg * 2)%nat in
      let n := (n / 2)%nat in
      p <- (if 1 <? n then copy_back mm 0 r_stride p_stride (n * (deg + 1)) p r else Ret p) ;;
      levelsM script mm fuel' n deg p_stride r_stride normalize p r W b0 b1 b2
  end.

(** :743-755 / :967-994 memmove of the first deg+1 coefficients of entry d = 1..mm-1 *)
Fixpoint shrink (cnt d r_stride deg : nat) (r : list K) : out (list K) :=
  match cnt with
  | O => Ret r
  | S cnt' => v <- rd r (d * r_stride) (deg + 1) ;; r <- wr r (d * (deg + 1)) v ;;
      shrink cnt' (S d) r_stride deg r
  end.

Definition poly_fmultM (script : bool -> list call) (m : nat) (junk0 junk1 junk2 : nat -> list K)
  (normalize : bool) (d n : nat) (p result : list K) : out (Z * nat * list K * list K * Z) :=
  let mm := (m * m)%nat in
  N <- np2 n ;;
  p <- (if n <? N then
          p <- spread (mm - 1) n N (d + 1) p ;; pad_entries mm 0 m n N d p
        else Ret p) ;;
  lenmem <- two_polys_len (d * N / 2) ;;
  if N <? 2 then UB else
  s <- levelsM script mm (S N) N d (N * (d + 1)) 0 normalize p result 0
         (junk0 lenmem) (junk1 lenmem) (junk2 lenmem) ;;
  let '(code, deg, r_stride, p, r, W) := s in
  if negb (code =? 0)%Z then Ret (code, d, p, r, W) else
  if n <? N then
    let deg := (deg - (N - n) * d)%nat in
    r <- shrink (mm - 1) 1 r_stride deg r ;; Ret (0%Z, deg, p, r, W)
  else Ret (0%Z, deg, p, r, W).

Definition poly_fmult2x2 := poly_fmultM script2 2.
Definition poly_fmult3x3 := poly_fmultM script3 3.
End Fmult.
