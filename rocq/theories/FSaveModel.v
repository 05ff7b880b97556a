(** Model of the conversion of film values to the bytes and floats of image files (src/film/film_bitmap.cpp:255-275) with the
    arithmetic of Float as it is (binary64). std::pow is a parameter. Which value goes to which place of the file is in
    FilmModel. *)
From Coq Require Import ZArith Bool.
From Flocq Require Import IEEE754.BinarySingleNaN.
From Verif Require Import Base RBase RngModel FltModel FRasterModel.
Local Open Scope Z_scope.

(** The literal 2.2_f of src/film/film_bitmap.cpp:267: the Float nearest to it *)
Definition f22 : flt := fmake 4953959590107546 (- 51).
(** 1_f/2.2_f (src/film/film_bitmap.cpp:267) *)
Definition fgamma : flt := fdivide fone f22.
(** src/film/film_bitmap.cpp:266-269: the byte for one component; 256_f is exact *)
Definition fbyte (pow : flt -> flt -> flt) (t : flt) : outcome Z :=
  obind (fint (fmult (fofint 256) (pow t fgamma))) (fun i => Ok (zclamp i 0 255)).
(** src/film/film_bitmap.cpp:263-265: the float for one component. Values beyond the largest float become infinite, as in
    IEEE 754; the C++ standard leaves them undefined. *)
Definition fsingle (t : flt) : f32 := to_f32 t.
