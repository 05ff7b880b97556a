(** The part of the OBJ and MTL formats that C46, C47 and C60 are about: what a line of text says, and
    what a sequence of statements means. *)
From Coq Require Import List ZArith Bool Ascii String.
From Verif Require Import Base LogModel ObjModel.
Import ListNotations.
Open Scope Z_scope.

(** A file is the sequence of its lines, each ended by a newline. *)
Definition file_of (ls : list text) (content : text) : Prop :=
  (forall l, In l ls -> ~ In newline l) /\ content = List.concat (map (fun l => l ++ [newline]) ls).
Definition short (l : text) : Prop := (List.length l <= 4095)%nat.

Definition is_blank (c : ascii) : Prop := c = blank \/ c = tab.
Definition blanks (t : text) : Prop := Forall is_blank t.

(** Decimal numerals. *)
Inductive decimal : Z -> text -> Prop :=
| dec_digit n : 0 <= n <= 9 -> decimal n [ascii_of_nat (48 + Z.to_nat n)]
| dec_more m n w : decimal m w -> 0 <= n <= 9 -> decimal (10 * m + n) (w ++ [ascii_of_nat (48 + Z.to_nat n)]).
Definition integer (i : Z) (w : text) : Prop := decimal i w \/ exists w', w = minus :: w' /\ decimal (- i) w'.

(** A vertex of a face: p, p/t, p//n or p/t/n. *)
Definition fvert := (Z * option Z * option Z)%type.
Inductive vert_text : fvert -> text -> Prop :=
| vt_p p w : integer p w -> vert_text (p, None, None) w
| vt_pt p t w w' : integer p w -> integer t w' -> vert_text (p, Some t, None) (w ++ slash :: w')
| vt_pn p n w w' : integer p w -> integer n w' -> vert_text (p, None, Some n) (w ++ slash :: slash :: w')
| vt_ptn p t n w w' w'' : integer p w -> integer t w' -> integer n w'' ->
    vert_text (p, Some t, Some n) (w ++ slash :: w' ++ slash :: w'').

(** Words: no blanks inside and no slash (numbers), or no white space at all (names). *)
Definition number_word (w : text) : Prop := w <> [] /\ Forall (fun c => c <> slash /\ ~ is_blank c) w.
Definition name_word (w : text) : Prop := w <> [] /\ Forall (fun c => isspace c = false) w /\ (List.length w <= 255)%nat.

(** Words separated by blanks, with blanks allowed before and after. *)
Definition ends_word (rest : text) : Prop := rest = [] \/ exists c r, rest = c :: r /\ is_blank c.
Inductive separated : list text -> text -> Prop :=
| sep_nil t : blanks t -> separated [] t
| sep_cons b w rest ws : blanks b -> ends_word rest -> separated ws rest -> separated (w :: ws) (b ++ w ++ rest).

(** A line that is command [c] with arguments [args] (the text after the blank that ends the command). *)
Definition command_line (c : string) (args : text) (l : text) : Prop :=
  exists b x, blanks b /\ is_blank x /\ l = b ++ str c ++ x :: args.

Section Floats.
Variable F : Type.
Variables zero one : F.
Variable num : text -> F.
Notation mtl := (mtl F).

(** ** OBJ statements *)
Inductive stmt :=
| SVertex (x y z : F) | SNormal (x y z : F) | STexcoord (x y : F)
| SGroup | SFace (vs : list fvert) | SUse (n : text) | SLib (n : text) | SOther.

Definition obj_commands : list string := ["v"; "vn"; "vt"; "g"; "f"; "usemtl"; "mtllib"]%string.

Definition three (args : text) (x y z : F) : Prop := exists wx wy wz more,
  number_word wx /\ number_word wy /\ number_word wz /\ separated (wx :: wy :: wz :: more) args
  /\ num wx = x /\ num wy = y /\ num wz = z.
Definition two (args : text) (x y : F) : Prop := exists wx wy more,
  number_word wx /\ number_word wy /\ separated (wx :: wy :: more) args /\ num wx = x /\ num wy = y.

Inductive says : stmt -> text -> Prop :=
| says_v args l x y z : command_line "v" args l -> three args x y z -> says (SVertex x y z) l
| says_vn args l x y z : command_line "vn" args l -> three args x y z -> says (SNormal x y z) l
| says_vt args l x y : command_line "vt" args l -> two args x y -> says (STexcoord x y) l
| says_g args l : command_line "g" args l -> says SGroup l
| says_f args l vs ws : command_line "f" args l -> separated ws args -> Forall2 vert_text vs ws ->
    (List.length vs = 3 \/ List.length vs = 4)%nat -> says (SFace vs) l
| says_usemtl args l n : command_line "usemtl" args l -> separated [n] args -> name_word n -> says (SUse n) l
| says_mtllib args l n : command_line "mtllib" args l -> separated [n] args -> name_word n -> says (SLib n) l
| says_other l : (forall c args, In c obj_commands -> ~ command_line c args l) -> says SOther l.

(** Index [i] of the format denotes element [k] (from 0) of a list of [n] elements: a positive index counts
    from 1, a negative index counts back from the most recent element. *)
Definition denotes (n : Z) (i k : Z) : Prop := 1 <= i <= n /\ k = i - 1 \/ - n <= i <= -1 /\ k = n + i.
(** A missing index is -1 in the meshes. *)
Definition denotes_opt (n : Z) (i : option Z) (k : Z) : Prop :=
  match i with None => k = -1 | Some i => denotes n i k end.
Definition vert_denotes (np nt nn : Z) (v : fvert) (f : findex) : Prop :=
  let '(p, t, n) := v in denotes np p (fp f) /\ denotes_opt nt t (ft f) /\ denotes_opt nn n (fn f).

Definition tri := (findex * findex * findex)%type.
(** Triangulation. *)
Definition triangles_of (fs : list findex) : list tri :=
  match fs with
  | [a; b; c] => [(a, b, c)]
  | [a; b; c; d] => [(a, b, c); (a, c, d)]
  | _ => []
  end.

(** The material in effect is material number [k] of the materials read so far, the last one of that name. *)
Definition named (mats : list mtl) (n : text) (k : nat) : Prop :=
  (exists m, nth_error mats k = Some m /\ m_name F m = n)
  /\ forall k' m', (k < k')%nat -> nth_error mats k' = Some m' -> m_name F m' <> n.

Record env := mk_env { e_ps : list (F * F * F); e_ns : list (F * F * F); e_ts : list (F * F); e_mats : list mtl; e_cur : nat }.

(** [means lib e l e' out]: after environment [e] the statements [l] lead to [e'] and define the triangles
    [out], each with the number of its material. [lib n] are the materials of MTL file [n]. *)
Inductive means (lib : text -> option (list mtl)) : env -> list stmt -> env -> list (tri * nat) -> Prop :=
| me_nil e : means lib e [] e []
| me_v e x y z l e' out :
    means lib (mk_env (e_ps e ++ [(x, y, z)]) (e_ns e) (e_ts e) (e_mats e) (e_cur e)) l e' out ->
    means lib e (SVertex x y z :: l) e' out
| me_vn e x y z l e' out :
    means lib (mk_env (e_ps e) (e_ns e ++ [(x, y, z)]) (e_ts e) (e_mats e) (e_cur e)) l e' out ->
    means lib e (SNormal x y z :: l) e' out
| me_vt e x y l e' out :
    means lib (mk_env (e_ps e) (e_ns e) (e_ts e ++ [(x, y)]) (e_mats e) (e_cur e)) l e' out ->
    means lib e (STexcoord x y :: l) e' out
| me_g e l e' out : means lib e l e' out -> means lib e (SGroup :: l) e' out
| me_other e l e' out : means lib e l e' out -> means lib e (SOther :: l) e' out
| me_f e vs fs l e' out :
    Forall2 (vert_denotes (zlen (e_ps e)) (zlen (e_ts e)) (zlen (e_ns e))) vs fs ->
    means lib e l e' out ->
    means lib e (SFace vs :: l) e' (map (fun t => (t, e_cur e)) (triangles_of fs) ++ out)
| me_use e n k l e' out : named (e_mats e) n k ->
    means lib (mk_env (e_ps e) (e_ns e) (e_ts e) (e_mats e) k) l e' out ->
    means lib e (SUse n :: l) e' out
| me_lib e n new l e' out : lib n = Some new ->
    means lib (mk_env (e_ps e) (e_ns e) (e_ts e) (e_mats e ++ new) (e_cur e)) l e' out ->
    means lib e (SLib n :: l) e' out.
Definition start : env := mk_env [] [] [] [] 0.

(** The materials of a file: those of its libraries, or the default material if there are none. *)
Definition materials (e : env) : list mtl :=
  match e_mats e with [] => [mk_mtl F (str "default") (-1) (one, one, one) (zero, zero, zero) (zero, zero, zero) [] zero zero zero] | l => l end.

(** The triangles of the meshes: three consecutive indices each. *)
Fixpoint triples {A} (l : list A) : list (A * A * A) :=
  match l with a :: b :: c :: l' => (a, b, c) :: triples l' | _ => [] end.

(** ** MTL statements *)
Inductive mstmt :=
| MNew (n : text)
| MKd (v : F * F * F) | MKs (v : F * F * F) | MKe (v : F * F * F)
| MNi (v : F) | MNs (v : F) | MAniso (v : F) | MIllum (i : Z) | MMap (n : text) | MOther.

Definition mtl_commands : list string := ["newmtl"; "Kd"; "Ks"; "Ni"; "Ns"; "aniso"; "Ke"; "illum"; "map_Kd"]%string.
Definition one_number (args : text) (v : F) : Prop := exists w more, number_word w /\ separated (w :: more) args /\ num w = v.

Inductive msays : mstmt -> text -> Prop :=
| ms_new args l n : command_line "newmtl" args l -> separated [n] args -> name_word n -> msays (MNew n) l
| ms_Kd args l x y z : command_line "Kd" args l -> three args x y z -> msays (MKd (x, y, z)) l
| ms_Ks args l x y z : command_line "Ks" args l -> three args x y z -> msays (MKs (x, y, z)) l
| ms_Ke args l x y z : command_line "Ke" args l -> three args x y z -> msays (MKe (x, y, z)) l
| ms_Ni args l v : command_line "Ni" args l -> one_number args v -> msays (MNi v) l
| ms_Ns args l v : command_line "Ns" args l -> one_number args v -> msays (MNs v) l
| ms_an args l v : command_line "aniso" args l -> one_number args v -> msays (MAniso v) l
| ms_illum args l i w : command_line "illum" args l -> separated [w] args -> integer i w -> msays (MIllum i) l
| ms_map args l n : command_line "map_Kd" args l -> separated [n] args -> name_word n -> msays (MMap n) l
| ms_other l : (forall c args, In c mtl_commands -> ~ command_line c args l) -> msays MOther l.

(** The parameters of a block override the zero defaults, a later line an earlier one. *)
Definition set_param (m : mtl) (s : mstmt) : mtl :=
  let name := m_name F m in let illum := m_illum F m in let Kd := m_Kd F m in let Ks := m_Ks F m in
  let Ke := m_Ke F m in let tex := m_map F m in let Ni := m_Ni F m in let Ns := m_Ns F m in let an := m_an F m in
  match s with
  | MKd v => mk_mtl F name illum v Ks Ke tex Ni Ns an
  | MKs v => mk_mtl F name illum Kd v Ke tex Ni Ns an
  | MKe v => mk_mtl F name illum Kd Ks v tex Ni Ns an
  | MNi v => mk_mtl F name illum Kd Ks Ke tex v Ns an
  | MNs v => mk_mtl F name illum Kd Ks Ke tex Ni v an
  | MAniso v => mk_mtl F name illum Kd Ks Ke tex Ni Ns v
  | MIllum i => mk_mtl F name i Kd Ks Ke tex Ni Ns an
  | MMap n => mk_mtl F name illum Kd Ks Ke n Ni Ns an
  | MNew _ | MOther => m
  end.
(** Blocks: a newmtl line with the lines up to the next one. *)
Fixpoint blocks (l : list mstmt) : list (text * list mstmt) :=
  match l with
  | [] => []
  | MNew n :: l' => (n, (fix upto (l : list mstmt) := match l with [] => [] | MNew _ :: _ => [] | s :: l'' => s :: upto l'' end) l') :: blocks l'
  | _ :: l' => blocks l'
  end.
Definition defaults (n : text) : mtl := mk_mtl F n 0 (zero, zero, zero) (zero, zero, zero) (zero, zero, zero) [] zero zero zero.
Definition mtl_means (l : list mstmt) : list mtl := map (fun b => fold_left set_param (snd b) (defaults (fst b))) (blocks l).
(** Parameters come after a newmtl line. *)
Fixpoint headed (l : list mstmt) : Prop :=
  match l with [] => True | MNew _ :: _ => True | MOther :: l' => headed l' | _ => False end.

(** A library: every MTL file consists of short lines that say the statements of its materials. *)
Definition library (open : text -> option text) (lib : text -> option (list mtl)) : Prop :=
  forall n new, lib n = Some new -> exists content ls sts,
    open n = Some content /\ file_of ls content /\ Forall short ls /\ Forall2 msays sts ls /\ headed sts /\ new = mtl_means sts.

End Floats.
