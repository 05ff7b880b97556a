(** Elements of three-dimensional arrays, and the pixels after a history. *)
From Coq Require Import List Reals ZArith Bool.
From Verif Require Import Base PyModel ViewModel.
From Verif Require FilmModel.
Import ListNotations.
(** a[i,j,k] in numpy *)
Definition item3 {T} (a : ndarray T) (i j k : nat) : option T :=
  match shape a, strides a with
  | [n; m; p], [s; t; u] => if (Nat.ltb i n && Nat.ltb j m && Nat.ltb k p)%bool then memory a (Z.of_nat i * s + Z.of_nat j * t + Z.of_nat k * u)%Z else None
  | _, _ => None
  end.
(** The film after the operations, without regard to buffers *)
Fixpoint film_after (l : list op) (f : FilmModel.film) : outcome FilmModel.film :=
  match l with [] => Ok f | o :: r => obind (film_op o f) (film_after r) end.
Definition resizes (o : op) : bool := match o with Construct _ _ => true | _ => false end.
Definition takes (o : op) : bool := match o with Buffer => true | _ => false end.
