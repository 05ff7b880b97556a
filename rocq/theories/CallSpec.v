(** What a call with properties asks for. *)
From Coq Require Import List String Ascii ZArith NArith Bool.
From Verif Require Import Base JsonModel PyModel PySpec CallModel.
Import ListNotations.
Open Scope string_scope. Open Scope list_scope.
Section Spec.
  Context {F : Type}.
  Variable encode : pystr -> option string.
  (** A Python string (str or bytes) with this text *)
  Definition is_text (v : py F) (s : string) : Prop := key_is encode v s.
  (** Keyword arguments as the dict that they are *)
  Definition dict_of (kw : kwargs F) : py F := PDict (map (fun e => (PStr (fst e), snd e)) kw).
  (** load_<interface>(name, impl, **properties) or load_<interface>(name, impl, properties) *)
  Inductive asks (interface : string) : list (py F) -> kwargs F -> string -> string -> json F -> Prop :=
  | by_keywords n k name impl kw p : is_text n name -> is_text k impl -> means encode (dict_of kw) p -> asks interface [n; k] kw name (interface ++ "::" ++ impl)%string p
  | by_position n k v name impl p : is_text n name -> is_text k impl -> means encode v p -> asks interface [n; k; v] [] name (interface ++ "::" ++ impl)%string p.
  (** The shape of arguments that the functions take *)
  Definition well_shaped (args : list (py F)) (kw : kwargs F) : Prop :=
    (exists n k a b, args = [n; k] /\ is_text n a /\ is_text k b) \/ (exists n k v a b, args = [n; k; v] /\ kw = [] /\ is_text n a /\ is_text k b).
  (** A parameter that may be given by its name *)
  Definition given (kw : kwargs F) (name : string) (default v : py F) : Prop :=
    In (text name, v) kw \/ (~ In (text name) (map fst kw) /\ v = default).
  (** init(type, **properties), init(type, properties), or init with the parameters type and prop by name, both optional *)
  Inductive init_asks (default : string) : list (py F) -> kwargs F -> string -> json F -> Prop :=
  | in_keywords t kw type p : is_text t type -> means encode (dict_of kw) p -> init_asks default [t] kw type p
  | in_position t v type p : is_text t type -> means encode v p -> init_asks default [t; v] [] type p
  | in_names kw t v type p : incl (map fst kw) [text "type"; text "prop"] -> given kw "type" (PStr (text default)) t -> given kw "prop" PNone v ->
      is_text t type -> means encode v p -> init_asks default [] kw type p.
End Spec.
