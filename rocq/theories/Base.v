(** Shared vocabulary: outcomes of C++ calls.

    [Ok]     normal return
    [Throw]  an lm::Exception (include/lm/exception.h:162) or another C++ exception leaving the call
    [UB]     undefined behaviour of the C++ abstract machine (out-of-bounds access, null dereference...)
    [Fuel]   artefact of the model only: a fuelled loop ran out of fuel; theorems exclude it. *)
From Coq Require Import List String Ascii ZArith.
Import ListNotations.

(** include/lm/exception.h:142-150 [enum class Error], plus the standard exceptions that the
    modelled code can raise. The message texts are not modelled. *)
Inductive error :=
| ErrNone            (* Error::None *)
| ErrUnsupported     (* Error::Unsupported *)
| ErrUninitialized   (* Error::Uninitialized *)
| ErrInvalidArgument (* Error::InvalidArgument *)
| ErrUnimplemented   (* Error::Unimplemented *)
| ErrIOError         (* Error::IOError *)
| ErrFailedToRender  (* Error::FailedToRender *)
| ErrOutOfRange      (* std::out_of_range *)
| ErrLength          (* std::length_error *)
| ErrJsonType        (* nlohmann::json type_error / out_of_range *)
| ErrArchive         (* cereal::Exception *)
| ErrUser (n : nat). (* an exception raised by user code, identified by a number *)

Inductive outcome (A : Type) :=
| Ok (a : A)
| Throw (e : error)
| UB
| Fuel.
Arguments Ok {A} a.
Arguments Throw {A} e.
Arguments UB {A}.
Arguments Fuel {A}.

Definition obind {A B} (m : outcome A) (f : A -> outcome B) : outcome B :=
  match m with
  | Ok a => f a
  | Throw e => Throw e
  | UB => UB
  | Fuel => Fuel
  end.
