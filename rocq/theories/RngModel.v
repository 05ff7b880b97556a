(** Model of the random numbers: include/lm/math.h:205-268 and the generators of the renderers. Floating-point
    numbers are the IEEE formats of Flocq here, and the engine is the one that the C++ standard defines. *)
From Coq Require Import List ZArith NArith Bool.
From Flocq Require Import Core.Core IEEE754.BinarySingleNaN.
Import ListNotations.
Local Open Scope Z_scope.

(** ** Numbers of single precision *)
(** float and double. Used by [float_u]: include/lm/math.h:256-264. *)
Definition f32 : Type := binary_float 24 128.
(** Helper of [float_u]: include/lm/math.h:256-264. *)
Definition f64 : Type := binary_float 53 1024.
(** Helper of [float_u]: include/lm/math.h:256-264. *)
Definition prec32 : Prec_gt_0 24 := eq_refl.
(** Helper of [float_u]: include/lm/math.h:256-264. *)
Definition prec64 : Prec_gt_0 53 := eq_refl.
(** Helper of [float_u]: include/lm/math.h:256-264. *)
Definition emax32 : Prec_lt_emax 24 128 := eq_refl.
(** Helper of [float_u]: include/lm/math.h:256-264. *)
Definition emax64 : Prec_lt_emax 53 1024 := eq_refl.
(** static_cast<float>, in the default rounding mode. Used by [float_u]: include/lm/math.h:256-264. *)
Definition to_f32 (x : f64) : f32 :=
  match x with
  | B754_zero s => B754_zero s
  | B754_infinity s => B754_infinity s
  | B754_nan => B754_nan
  | B754_finite s m e _ => binary_normalize 24 128 prec32 emax32 mode_NE (cond_Zopp s (Zpos m)) e s
  end.
(** The conversion of float to double in the comparison rf > rd. Used by [float_u]: include/lm/math.h:256-264. *)
Definition to_f64 (x : f32) : f64 :=
  match x with
  | B754_zero s => B754_zero s
  | B754_infinity s => B754_infinity s
  | B754_nan => B754_nan
  | B754_finite s m e _ => binary_normalize 53 1024 prec64 emax64 mode_NE (cond_Zopp s (Zpos m)) e s
  end.
(** operator> on double: false if not comparable. Used by [float_u]: include/lm/math.h:256-264. *)
Definition gt64 (x y : f64) : bool := match Bcompare x y with Some Gt => true | _ => false end.
(** std::nextafter(x, -inf). Used by [float_u]: include/lm/math.h:256-264. *)
Definition next_below (x : f32) : f32 := Bpred (prec_gt_0_ := prec32) (prec_lt_emax_ := emax32) x.
(** include/lm/math.h:256-264: RngImpl<float>::u, as a function of the number that RngImplBase::u returns. The
    assertion on line 262 is not modelled; C78 says that it holds. *)
Definition float_u (rd : f64) : f32 :=
  let rf := to_f32 rd in if gt64 (to_f64 rf) rd then next_below rf else rf.

(** ** std::mt19937 (C++17 [rand.eng.mers], [rand.predef]). The state is the last 624 words.
    Used by include/lm/math.h:205-221. *)
Definition word (x : N) : N := N.modulo x (2 ^ 32).
(** The words made from the seed: eng_.seed of include/lm/math.h:211-217. *)
Fixpoint seed_words (k : nat) (i x : N) : list N :=
  match k with
  | O => []
  | S k => let y := word (1812433253 * N.lxor x (N.shiftr x 30) + i) in y :: seed_words k (i + 1) y
  end.
(** eng_.seed(seed): the seed is reduced modulo 2^32. include/lm/math.h:211-217. *)
Definition mt_seed (s : Z) : list N := let x := Z.to_N (s mod 2 ^ 32) in x :: seed_words 623 1 x.
(** The recurrence of std::mt19937, for include/lm/math.h:206. *)
Definition mt_mix (a b c : N) : N :=
  let y := N.lor (N.land a 2147483648) (N.land b 2147483647) in
  N.lxor (N.lxor c (N.shiftr y 1)) (if N.testbit y 0 then 2567483615%N else 0%N).
(** The output function of std::mt19937, for include/lm/math.h:206. *)
Definition temper (x : N) : N :=
  let x := N.lxor x (N.land (N.shiftr x 11) 4294967295) in
  let x := N.lxor x (N.land (N.shiftl x 7) 2636928640) in
  let x := N.lxor x (N.land (N.shiftl x 15) 4022730752) in
  N.lxor x (N.shiftr x 18).
(** A call of eng_: include/lm/math.h:218-219. *)
Definition mt_next (st : list N) : N * list N :=
  let x := mt_mix (nth 0 st 0%N) (nth 1 st 0%N) (nth 397 st 0%N) in (temper x, tl st ++ [x]).

(** ** The generators of the renderers:
    thread_local Rng rng(seed_ ? *seed_ + threadid : math::rng_seed());
    (renderer_pt.cpp:91, renderer_lt.cpp:59, renderer_volpt.cpp:71,208, renderer_bdpt.cpp:76,140,218,341,
    renderer_bdptopt.cpp:482). The variable belongs to the callback, not to the renderer: every thread of the
    process has one for each of these lines, made when the thread first gets there. *)
Definition line := nat.
(** threadid: src/renderer/renderer_pt.cpp:89. *)
Definition thread := nat.
(** The variables thread_local Rng rng of src/renderer/renderer_pt.cpp:91 and the other renderers. *)
Definition locals := line -> thread -> option (list N).
(** Before the first rendering: src/renderer/renderer_pt.cpp:91. *)
Definition fresh : locals := fun _ _ => None.
(** The generator has moved on: src/renderer/renderer_pt.cpp:91. *)
Definition set_local (m : locals) (l : line) (t : thread) (g : list N) : locals :=
  fun l' t' => if Nat.eqb l' l && Nat.eqb t' t then Some g else m l' t'.
(** The arithmetic is that of unsigned int; the constructor takes an int, whose value modulo 2^32 is the same.
    [dev t]: the number that std::random_device gives in thread [t]. src/renderer/renderer_pt.cpp:91. *)
Definition seed_of (seed : option Z) (dev : thread -> Z) (t : thread) : Z :=
  match seed with Some s => (s + Z.of_nat t) mod 2 ^ 32 | None => dev t end.
(** The lambda up to the end of this line: the generator of the thread. Threads are numbered as by the parallel
    context (omp_get_thread_num), whose threads live as long as the process. src/renderer/renderer_pt.cpp:91. *)
Definition local_rng (seed : option Z) (dev : thread -> Z) (m : locals) (l : line) (t : thread) : list N :=
  match m l t with Some g => g | None => mt_seed (seed_of seed dev t) end.

Section Render.
  (** What the callback does with a sample: the numbers that it draws are taken from the generator. *)
  Variable result : Type.
  Variable body : Z -> list N -> result * list N.
  (** A call of the lambda of src/renderer/renderer_pt.cpp:89-304 by one thread. *)
  Definition rng_call (seed : option Z) (dev : thread -> Z) (l : line) (m : locals) (c : thread * Z) : result * locals :=
    let '(r, g) := body (snd c) (local_rng seed dev m l (fst c)) in (r, set_local m l (fst c) g).
  (** A rendering: the calls (thread and index of the sample) in the order in which they are made. The calls of
      different threads overlap, but only use their own generators. src/renderer/renderer_pt.cpp:89-304. *)
  Fixpoint rng_render (seed : option Z) (dev : thread -> Z) (l : line) (m : locals) (calls : list (thread * Z)) : list result * locals :=
    match calls with
    | [] => ([], m)
    | c :: r => let '(x, m) := rng_call seed dev l m c in let '(xs, m) := rng_render seed dev l m r in (x :: xs, m)
    end.
End Render.
Arguments rng_call {result}. Arguments rng_render {result}.

(** A body that draws one number. No counterpart; the shortest body for src/renderer/renderer_pt.cpp:89-304. *)
Definition draw_one (_ : Z) (g : list N) : N * list N := mt_next g.
