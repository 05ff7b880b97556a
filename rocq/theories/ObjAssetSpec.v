(** What a primitive of an OBJ model is made of. *)
From Coq Require Import List ZArith Bool Ascii String Reals.
From Verif Require Import Base LogModel ObjModel ObjSpec ObjAssetModel.
Import ListNotations.
Open Scope R_scope.

(** The material made for an entry of the MTL file: the user's material if one is given; glass for illumination
    model 7, a mirror for 5 (both black if specular materials are skipped); otherwise the mixture of a diffuse part
    with the texture of the entry and a glossy part, which is rougher the smaller its exponent and is stretched by
    its anisotropy. [find] is the component the model has under a name. *)
Definition roughness (m : mtl R) (ax ay : R) : Prop := exists a, 0 <= a /\ a * a = Rmax 0 (1 - 9 / 10 * m_an R m)
  /\ ax = Rmax (/ 1000) (2 / (2 + m_Ns R m) / a) /\ ay = Rmax (/ 1000) (2 / (2 + m_Ns R m) * a).
Inductive made (find : text -> option asset) (o : options) (m : mtl R) : material -> Prop :=
| made_base ref : base_material o = Some ref -> made find o m (MProxy ref)
| made_black : base_material o = None -> (m_illum R m = 5 \/ m_illum R m = 7)%Z -> skip_specular o = true -> made find o m MBlack
| made_glass : base_material o = None -> (m_illum R m = 7)%Z -> skip_specular o = false -> made find o m (MGlass (m_Ni R m))
| made_mirror : base_material o = None -> (m_illum R m = 5)%Z -> skip_specular o = false -> made find o m MMirror
| made_plain ax ay : base_material o = None -> m_illum R m <> 5%Z -> m_illum R m <> 7%Z -> m_map R m = [] ->
    roughness m ax ay -> made find o m (MMixture (m_Kd R m) None (m_Ks R m) ax ay (skip_specular o))
| made_textured ax ay tex : base_material o = None -> m_illum R m <> 5%Z -> m_illum R m <> 7%Z -> m_map R m <> [] ->
    find tex = Some (ATexture (m_map R m)) ->
    roughness m ax ay -> made find o m (MMixture (m_Kd R m) (Some tex) (m_Ks R m) ax ay (skip_specular o)).

(** It emits light if some component of its emission is positive. *)
Definition luminous (m : mtl R) : Prop := let '(x, y, z) := m_Ke R m in 0 < x \/ 0 < y \/ 0 < z.

(** The primitive of the faces [fs] with material [m]. The light is that of the mesh. *)
Definition primitive_of (find : text -> option asset) (o : options) (fs : list findex) (m : mtl R) (p : asset * asset * option asset) : Prop :=
  let '(mesh, mat, light) := p in
  mesh = AMesh fs /\ (exists x, mat = AMaterial x /\ made find o m x)
  /\ (luminous m -> exists n, light = Some (ALight (m_Ke R m) n) /\ find n = Some (AMesh fs))
  /\ (~ luminous m -> light = None).

(** The names of the materials are different and do not begin like the names the model gives to its meshes, lights
    and textures; different texture files have different stems. *)
Definition begins_with (p t : text) : Prop := exists r, t = p ++ r.
Definition clear_names (ms : list (mtl R)) : Prop :=
  NoDup (map (m_name R) ms)
  /\ (forall m, In m ms -> ~ begins_with (str "mesh_") (m_name R m) /\ ~ begins_with (str "texture_") (m_name R m))
  /\ forall m m', In m ms -> In m' ms -> stem (m_map R m) = stem (m_map R m') -> m_map R m = m_map R m'.

(** Component::underlying of the model (model_wavefrontobj.cpp:70-72) where the name is known. *)
Definition found (s : model) (n : text) : option asset :=
  match lookup n (names s) with Some i => nth_error (assets s) i | None => None end.

(** The triangles of a primitive. *)
Definition faces_of (p : asset * asset * option asset) : list tri := match p with (AMesh fs, _, _) => triples fs | _ => [] end.
