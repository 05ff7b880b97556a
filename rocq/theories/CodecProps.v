(** C10: value codecs round-trip and are self-delimiting. *)
From Coq Require Import List String Ascii ZArith Lia.
From Verif Require Import Base CodecModel CodecSpec CodecProofs.
Import ListNotations.
Open Scope list_scope. Open Scope Z_scope.

Theorem C10_round_trip : forall t v rest, valid t v -> decode t (encode t v ++ rest) = Ok (v, rest).
Proof. exact decode_encode. Qed.
Print Assumptions C10_round_trip.

Theorem C10_prefix_free : forall t v1 v2 r1 r2, valid t v1 -> valid t v2 ->
  encode t v1 ++ r1 = encode t v2 ++ r2 -> v1 = v2 /\ r1 = r2.
Proof. exact encode_prefix_free. Qed.
Print Assumptions C10_prefix_free.

(** A file cut anywhere before its end is reported, never misread. *)
Theorem C10_truncation_detected : forall t v p q, valid t v ->
  encode t v = p ++ q -> q <> [] -> decode t p = Throw ErrArchive.
Proof. intros t v p q Hv. exact (decode_detects t v Hv p q). Qed.
Print Assumptions C10_truncation_detected.

(** Non-trivial values meet the hypothesis: a map, an optional matrix and negative integers. *)
Example C10_example :
  valid (TPair (TMapS (TInt 4 true)) (TPair (TOpt (TFixed 2 (TFixed 2 TF64))) (TVec (TPair TBool TStr))))
        ([("a"%string, -3); ("b"%string, 2147483647)],
         (Some [[0; 1]; [4607182418800017408; 18446744073709551615]], [(true, "x.y"%string); (false, EmptyString)])).
Proof.
  cbn. unfold few, int_range. cbn. repeat split; try lia; repeat constructor; cbn; try lia; intuition discriminate.
Qed.

(** The byte layout itself, on literals (a test): count 2, then -3 and 1 as four bytes each. *)
Example C10_bytes_example :
  encode (TVec (TInt 4 true)) [-3; 1] =
  map (fun n => ascii_of_N (Z.to_N n)) [2;0;0;0;0;0;0;0; 253;255;255;255; 1;0;0;0].
Proof. reflexivity. Qed.
