(** * Model of KissFFT as shipped with FNFT (src/3rd_party/kiss_fft/kiss_fft.c)

   Numbers: exact complex numbers (Coquelicot's C = R*R, .r = fst, .i = snd).
   Arrays: checked.  FIXED_POINT, SIMD and OpenMP variants are not modelled
   (the OpenMP branch performs the same calls). *)
From Coq Require Import Reals.
From Coquelicot Require Import Complex.
From Verif Require Export Base.

(** ** Sizes *)
(** kiss_fft.c:403-405 [while ((m%d)==0) m/=d], [None] = not finished within fuel *)
Fixpoint strip (fuel d m : nat) : option nat :=
  match fuel with
  | O => None
  | S fuel' => if m mod d =? 0 then strip fuel' d (m / d) else Some m
  end.

(** kiss_fft.c:402-407: the body of the search: Some true = break *)
Definition fast_size_test (fuel n : nat) : option bool :=
  match strip fuel 2 n with
  | None => None
  | Some m => match strip fuel 3 m with
    | None => None
    | Some m => match strip fuel 5 m with
      | None => None
      | Some m => Some (m <=? 1)
      end
    end
  end.

(** kiss_fft.c:399-411 kiss_fft_next_fast_size; [fuel] bounds the outer loop,
   [fuel2] the inner loops *)
Fixpoint next_fast_size (fuel fuel2 n : nat) : option nat :=
  match fuel with
  | O => None
  | S fuel' =>
      match fast_size_test fuel2 n with
      | None => None
      | Some true => Some n
      | Some false => next_fast_size fuel' fuel2 (S n)
      end
  end.

(** kiss_fft.c:320-328: while (n % p) {...}; [fs] is floor(sqrt(n0)) for the
   original n0; the theorems hold for every value of fs. *)
Fixpoint next_radix (fuel fs n p : nat) : option nat :=
  match fuel with
  | O => None
  | S fuel' =>
      if n mod p =? 0 then Some p else
      let p := match p with 4 => 2 | 2 => 3 | _ => p + 2 end in
      let p := if fs <? p then n else p in
      next_radix fuel' fs n p
  end.

(** kiss_fft.c:319-332: do {...} while (n > 1); result = pairs (p, n/p) in facbuf order *)
Fixpoint factor_loop (fuel fuel2 fs n p : nat) : option (list (nat * nat)) :=
  match fuel with
  | O => None
  | S fuel' =>
      match next_radix fuel2 fs n p with
      | None => None
      | Some p =>
          let n := n / p in
          if 1 <? n then
            match factor_loop fuel' fuel2 fs n p with
            | None => None
            | Some l => Some ((p, n) :: l)
            end
          else Some [(p, n)]
      end
  end.

(** kiss_fft.c:312-333 kf_factor; p starts with 4.  The loops terminate within
   the fuel chosen here (theorem kf_factor_terminates). *)
Definition kf_factor (fs n : nat) : option (list (nat * nat)) :=
  factor_loop (S n) (fs + 5) fs n 4.

(** ** Butterflies.  [tw] = st->twiddles, [F] = Fout, [u] the loop counter. *)
Local Open Scope C_scope.

(** kiss_fft.c:31-44 kf_bfly2, one pass of the do loop *)
Definition bfly2_body (tw : list C) (fstride m u : nat) (F : list C) : out (list C) :=
  f2 <- aget F (u + m) ;;
  w <- aget tw (u * fstride) ;;
  let t := f2 * w in
  f <- aget F u ;;
  F <- aset F (u + m) (f - t) ;;
  f <- aget F u ;;
  aset F u (f + t).

(** kiss_fft.c:63-92 kf_bfly4, one pass; [inv] = st->inverse *)
Definition bfly4_body (inv : bool) (tw : list C) (fstride m u : nat) (F : list C) : out (list C) :=
  fm <- aget F (u + m) ;; tw1 <- aget tw (u * fstride) ;;
  f2 <- aget F (u + 2 * m) ;; tw2 <- aget tw (u * (fstride * 2)) ;;
  f3 <- aget F (u + 3 * m) ;; tw3 <- aget tw (u * (fstride * 3)) ;;
  let s0 := fm * tw1 in
  let s1 := f2 * tw2 in
  let s2 := f3 * tw3 in
  f <- aget F u ;;
  let s5 := f - s1 in
  F <- aset F u (f + s1) ;;
  let s3 := s0 + s2 in
  let s4 := s0 - s2 in
  f <- aget F u ;;
  F <- aset F (u + 2 * m) (f - s3) ;;
  f <- aget F u ;;
  F <- aset F u (f + s3) ;;
  if inv then
    F <- aset F (u + m) (fst s5 - snd s4, snd s5 + fst s4)%R ;;
    aset F (u + 3 * m) (fst s5 + snd s4, snd s5 - fst s4)%R
  else
    F <- aset F (u + m) (fst s5 + snd s4, snd s5 - fst s4)%R ;;
    aset F (u + 3 * m) (fst s5 - snd s4, snd s5 + fst s4)%R.

(** kiss_fft.c:112-136 kf_bfly3, one pass; [epi3] = st->twiddles[fstride*m] *)
Definition bfly3_body (epi3 : C) (tw : list C) (fstride m u : nat) (F : list C) : out (list C) :=
  fm <- aget F (u + m) ;; tw1 <- aget tw (u * fstride) ;;
  f2 <- aget F (u + 2 * m) ;; tw2 <- aget tw (u * (fstride * 2)) ;;
  let s1 := fm * tw1 in
  let s2 := f2 * tw2 in
  let s3 := s1 + s2 in
  let s0 := s1 - s2 in
  f <- aget F u ;;
  F <- aset F (u + m) (fst f - fst s3 * (1/2), snd f - snd s3 * (1/2))%R ;;
  let s0 := (fst s0 * snd epi3, snd s0 * snd epi3)%R in
  f <- aget F u ;;
  F <- aset F u (f + s3) ;;
  fm <- aget F (u + m) ;;
  F <- aset F (u + 2 * m) (fst fm + snd s0, snd fm - fst s0)%R ;;
  fm <- aget F (u + m) ;;
  aset F (u + m) (fst fm - snd s0, snd fm + fst s0)%R.

(** kiss_fft.c:163-197 kf_bfly5, one pass; ya = twiddles[fstride*m], yb = twiddles[fstride*2*m] *)
Definition bfly5_body (ya yb : C) (tw : list C) (fstride m u : nat) (F : list C) : out (list C) :=
  s0 <- aget F u ;;
  f1 <- aget F (u + m) ;; w1 <- aget tw (u * fstride) ;;
  f2 <- aget F (u + 2 * m) ;; w2 <- aget tw (2 * u * fstride) ;;
  f3 <- aget F (u + 3 * m) ;; w3 <- aget tw (3 * u * fstride) ;;
  f4 <- aget F (u + 4 * m) ;; w4 <- aget tw (4 * u * fstride) ;;
  let s1 := f1 * w1 in let s2 := f2 * w2 in let s3 := f3 * w3 in let s4 := f4 * w4 in
  let s7 := s1 + s4 in
  let s10 := s1 - s4 in
  let s8 := s2 + s3 in
  let s9 := s2 - s3 in
  f0 <- aget F u ;;
  F <- aset F u (fst f0 + (fst s7 + fst s8), snd f0 + (snd s7 + snd s8))%R ;;
  let s5 := (fst s0 + fst s7 * fst ya + fst s8 * fst yb,
             snd s0 + snd s7 * fst ya + snd s8 * fst yb)%R in
  let s6 := (snd s10 * snd ya + snd s9 * snd yb,
             - (fst s10 * snd ya) - fst s9 * snd yb)%R in
  F <- aset F (u + m) (s5 - s6) ;;
  F <- aset F (u + 4 * m) (s5 + s6) ;;
  let s11 := (fst s0 + fst s7 * fst yb + fst s8 * fst ya,
              snd s0 + snd s7 * fst yb + snd s8 * fst ya)%R in
  let s12 := (- (snd s10 * snd yb) + snd s9 * snd ya,
              fst s10 * snd yb - fst s9 * snd ya)%R in
  F <- aset F (u + 2 * m) (s11 + s12) ;;
  aset F (u + 3 * m) (s11 - s12).

(** kiss_fft.c:216-221: scratch[q1] = Fout[k]; k += m *)
Fixpoint gather (fuel k m : nat) (F : list C) : out (list C) :=
  match fuel with
  | O => Ret []
  | S fuel' => x <- aget F k ;; r <- gather fuel' (k + m) m F ;; Ret (x :: r)
  end.

(** kiss_fft.c:227-232: for (q=1;q<p;++q); returns the accumulated Fout[k] *)
Fixpoint generic_inner (fuel q twidx fstride k Norig : nat) (tw scratch : list C) (acc : C) : out C :=
  match fuel with
  | O => Ret acc
  | S fuel' =>
      let twidx := (twidx + fstride * k)%nat in
      let twidx := if (Norig <=? twidx)%nat then (twidx - Norig)%nat else twidx in
      s <- aget scratch q ;;
      w <- aget tw twidx ;;
      generic_inner fuel' (S q) twidx fstride k Norig tw scratch (acc + s * w)
  end.

(** kiss_fft.c:223-234: for (q1=0; q1<p; ++q1) *)
Fixpoint generic_outer (fuel k m p fstride Norig : nat) (tw scratch F : list C) : out (list C) :=
  match fuel with
  | O => Ret F
  | S fuel' =>
      s0 <- aget scratch 0 ;;
      v <- generic_inner (p - 1) 1 0 fstride k Norig tw scratch s0 ;;
      F <- aset F k v ;;
      generic_outer fuel' (k + m) m p fstride Norig tw scratch F
  end.

(** kiss_fft.c:215-235 kf_bfly_generic, one pass of the loop over u *)
Definition bfly_generic_body (Norig p : nat) (tw : list C) (fstride m u : nat) (F : list C) : out (list C) :=
  scratch <- gather p u m F ;;
  generic_outer p u m p fstride Norig tw scratch F.

(** the loop over u = 0..m-1 that all butterflies share *)
Fixpoint bfly_loop (body : nat -> list C -> out (list C)) (fuel u : nat) (F : list C) : out (list C) :=
  match fuel with
  | O => Ret F
  | S fuel' => F <- body u F ;; bfly_loop body fuel' (S u) F
  end.

(** kiss_fft.c:300-306: switch (p) *)
Definition bfly (inv : bool) (N p : nat) (tw : list C) (fstride m : nat) (F : list C) : out (list C) :=
  match p with
  | 2%nat => bfly_loop (bfly2_body tw fstride m) m 0 F
  | 3%nat => epi3 <- aget tw (fstride * m) ;; bfly_loop (bfly3_body epi3 tw fstride m) m 0 F
  | 4%nat => bfly_loop (bfly4_body inv tw fstride m) m 0 F
  | 5%nat => ya <- aget tw (fstride * m) ;; yb <- aget tw (fstride * 2 * m) ;;
             bfly_loop (bfly5_body ya yb tw fstride m) m 0 F
  | _ => bfly_loop (bfly_generic_body N p tw fstride m) m 0 F
  end.

(** kiss_fft.c:277-280: do { *Fout = *f; f += fstride*in_stride; } while (++Fout != Fout_end) *)
Fixpoint copy_loop (f : list C) (step fuel off : nat) : out (list C) :=
  match fuel with
  | O => Ret []
  | S fuel' => x <- aget f off ;; r <- copy_loop f step fuel' (off + step)%nat ;; Ret (x :: r)
  end.

(** kiss_fft.c:282-289: do { kf_work(Fout, f, ...); f += fstride*in_stride; }
   while ((Fout += m) != Fout_end); [g off] is the result of the recursive call *)
Fixpoint sub_loop (g : nat -> out (list C)) (step fuel off : nat) : out (list C) :=
  match fuel with
  | O => Ret []
  | S fuel' => F <- g off ;; r <- sub_loop g step fuel' (off + step)%nat ;; Ret (F ++ r)
  end.

(** kiss_fft.c:241-307 kf_work.  [f] is the input array, [off] the offset of the
   C pointer f in it.  The result is the contents of Fout[0..p*m-1]; the
   recursive calls fill Fout + k*m consecutively.  Reading the factor list
   beyond its end is UB. *)
Fixpoint kf_work (inv : bool) (N : nat) (tw : list C) (factors : list (nat * nat))
  (fstride in_stride off : nat) (f : list C) : out (list C) :=
  match factors with
  | [] => UB
  | (p, m) :: rest =>
      F <- (if (m =? 1)%nat then copy_loop f (fstride * in_stride) p off
            else sub_loop (fun off => kf_work inv N tw rest (fstride * p) in_stride off f)
                   (fstride * in_stride) p off) ;;
      bfly inv N p tw fstride m F
  end.

(** kiss_fft.c:361-367: twiddles; phase = -2*pi*i/nfft, negated for the inverse *)
Definition twiddles (inv : bool) (nfft : nat) : list C :=
  tabulate nfft (fun i =>
    let phase := (-2 * PI * INR i / INR nfft)%R in
    let phase := if inv then (phase * -1)%R else phase in
    (cos phase, sin phase)).

(** kiss_fft_alloc + kiss_fft (kiss_fft.c:342-391), in_stride = 1,
   as called by fft_wrapper_create_plan / execute_plan
   (include/private/fnft__fft_wrapper.h:78-132). [fs] = floor(sqrt(nfft)). *)
Definition kiss_fft (inv : bool) (nfft : nat) (fin : list C) : out (list C) :=
  match kf_factor (Nat.sqrt nfft) nfft with
  | None => UB
  | Some factors => kf_work inv nfft (twiddles inv nfft) factors 1 1 0 fin
  end.

(** ** The FFT wrapper (KissFFT branch), include/private/fnft__fft_wrapper.h *)
(** fnft__fft_wrapper.h:44-49 fnft__fft_wrapper_next_fft_length.  The fuel
   suffices for every desired length >= 1 (theorem next_fft_length_least). *)
Definition next_fft_length (n : nat) : option nat := next_fast_size n (2 * n) n.

(** a plan variable: None = NULL, Some (inverse flag, length) *)
Definition plan := option (bool * nat).

(** fnft__fft_wrapper.h:85-114 fnft__fft_wrapper_create_plan.  [alloc_ok] = malloc
   succeeds; [plan_ptr_null] = plan_ptr is NULL.  Result: return code and new
   value of *plan_ptr. *)
Definition create_plan (plan_ptr_null alloc_ok : bool) (old : plan) (fft_length : nat) (is_inverse : Z) : Z * plan :=
  if plan_ptr_null then (2%Z, old) else
  if (fft_length =? 0)%nat then (2%Z, old) else
  if negb (is_inverse =? 1)%Z && negb (is_inverse =? -1)%Z then (2%Z, old) else
  if negb alloc_ok then (1%Z, None) else
  (0%Z, Some (negb (Z.quot (is_inverse + 1) 2 =? 0)%Z, fft_length)).

(** fnft__fft_wrapper.h:131-145 fnft__fft_wrapper_execute_plan; result: return code and contents of out *)
Definition execute_plan (p : plan) (fin fout : list C) : out (Z * list C) :=
  match p with
  | None => Ret (2%Z, fout)
  | Some (inv, n) => r <- kiss_fft inv n fin ;; Ret (0%Z, r)
  end.
