(** C63: the check whether a scene can be rendered. *)
From Coq Require Import List String ZArith Bool Lia.
From Verif Require Import Base JsonModel SceneModel SceneSpec SceneProofs SceneOpsProofs SceneCheckProofs.
Import ListNotations.
Open Scope string_scope. Open Scope list_scope. Open Scope nat_scope.

(** After any history of calls the check either passes or raises the error "unsupported", and it passes
    exactly if the scene has a node with a camera (the one reported), a light that the last build found
    at a node that still has it, and an acceleration structure. *)
Theorem C63_renderable : forall M F (one : M) mul get is_kind is_env prims mnodes accel (h : list (op (M:=M) (F:=F))),
  models_numbered mnodes -> let s := run one mul get is_kind is_env prims mnodes accel h in
  (require_renderable s = Ok tt \/ require_renderable s = Throw ErrUnsupported)
  /\ (require_renderable s = Ok tt <->
       (exists n c, has_node (s_nodes s) (camera_node s) n /\ camera_of n = Some c)
       /\ (exists T i n l, light_primitive_index_at s 0 = Ok (T, i) /\ has_node (s_nodes s) i n /\ light_of n = Some l)
       /\ (exists a, s_accel s = Some a)).
Proof.
  intros M F one mul get is_kind is_env prims mnodes accel h Hm s.
  assert (W := run_wf one mul get is_kind is_env prims mnodes accel h Hm). assert (L := run_lights one mul get is_kind is_env prims mnodes accel h Hm).
  fold s in W, L. destruct W as (Wn & (ch & Wr) & Wc & _ & _). unfold require_renderable, camera_node, num_lights, light_primitive_index_at in *. cbn [Z.ltb Z.compare Z.to_nat].
  split.
  - destruct (negb _); [now right|]. destruct (_ =? -1)%Z; [now right|]. destruct (negb _); [now right|]. destruct (s_accel s); auto.
  - split.
    + destruct (1 <? size s)%Z; cbn [negb]; [|discriminate]. destruct (s_camera s) as [i|] eqn:Ec; [|discriminate]. destruct (i =? -1)%Z; [discriminate|].
      destruct (s_lights s) as [|[T j] ls] eqn:El; [discriminate|]. destruct (negb _); [discriminate|]. destruct (s_accel s) as [a|]; [|discriminate]. intros _.
      split; [now apply Wc|]. split; [|now exists a]. destruct (L T j) as (n & l & Hn & Hl); [rewrite El; now left|]. exists T, j, n, l. auto.
    + intros ((n & c & Hn & Hc) & (T & j & m & l & Hj & _) & (a & Ha)). rewrite Ha.
      assert (B := has_node_lt _ _ _ Hn). assert (Z0 : match s_camera s with Some i => i | None => (-1)%Z end <> 0%Z).
      { intros E. rewrite E in Hn. assert (X := has_node_fun _ _ _ _ Hn Wr). subst n. discriminate. }
      destruct (Z.ltb_spec 1 (size s)) as [_|X]; [|unfold size in X; lia]. cbn [negb]. destruct (Z.eqb_spec (match s_camera s with Some i => i | None => (-1)%Z end) (-1)%Z); [lia|].
      destruct (s_lights s) as [|q ls]; [discriminate|]. destruct (Z.ltb_spec 0 (Z.of_nat (List.length (q :: ls)))) as [_|X]; [reflexivity|cbn in X; lia].
Qed.
Print Assumptions C63_renderable.

Definition x_get (s : string) : outcome (option nat) := Ok (if String.eqb s "c" then Some 0 else if String.eqb s "l" then Some 1 else None).
Definition x_kind (k : kind) (c : nat) : bool := match k with KCamera => Nat.eqb c 0 | KLight => Nat.eqb c 1 | _ => false end.
Example C63_example :
  let r := run (M:=unit) (F:=unit) tt (fun _ _ => tt) x_get x_kind (fun _ => false) (fun _ => ([], None)) (fun _ => ([], None)) (Some 5) in
  models_numbered (fun _ => ([] : list (node unit), None))
  /\ require_renderable (r [OAdd tt (JObj [("camera", JStr "c")]); OAdd tt (JObj [("light", JStr "l")]); OBuild 9]) = Ok tt
  /\ require_renderable (r [OAdd tt (JObj [("camera", JStr "c")]); OAdd tt (JObj [("light", JStr "l")])]) = Throw ErrUnsupported
  /\ require_renderable (r [OAdd tt (JObj [("light", JStr "l")]); OBuild 9]) = Throw ErrUnsupported.
Proof. split; [intros m k n H; destruct k; discriminate|]. repeat split; reflexivity. Qed.
