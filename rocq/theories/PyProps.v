(** C86: Python values and JSON; C87: numpy arrays and vectors. *)
From Coq Require Import List String Ascii ZArith Bool Permutation Lia ZifyBool.
From Verif Require Import Base JsonModel JsonSpec JsonProofs PyModel PySpec PyProofs.
Import ListNotations.
Open Scope string_scope. Open Scope list_scope.

(** ** C86 *)
(** A Python value is converted exactly if it has a meaning, and to that. *)
Theorem C86_meaning : forall F encode debug (v : py F) j, load encode debug v = Ok j <-> means encode v j.
Proof. intros. apply load_iff. Qed.
Print Assumptions C86_meaning.
(** The other values are reported, in builds without assertions and without objects of foreign classes. *)
Theorem C86_reported_partial : forall F encode (v : py F), no_foreign v -> (exists j, load encode false v = Ok j) \/ (exists e, load encode false v = Throw e).
Proof.
  intros F encode v. induction v using py_rect'; intros Hf; inversion Hf; subst; cbn [load]; eauto.
  - destruct (in_int z); eauto.
  - destruct (encode s); eauto.
  - fold (load_entries (F := F) encode false). generalize (@nil (string * json F)) as m. assert (H1' := H1). clear H1 Hf. induction d as [|[k x] d IH]; intros m; cbn [load_entries]; [eauto|]. fold (load_entries (F := F) encode false). destruct (load_key encode k) as [b|]; [|eauto].
    destruct (H k x (or_introl eq_refl) (H1' k x (or_introl eq_refl))) as [[j ->]|[e ->]]; cbn [obind]; [|eauto]. apply IH; intros; [eapply H|eapply H1']; try (right; eassumption); assumption.
  - fold (load_items (F := F) encode false). generalize (@nil (json F)) as acc. assert (H1' := H1). clear H1 Hf. induction l as [|x l IH]; intros acc; cbn [load_items]; [eauto|]. fold (load_items (F := F) encode false).
    destruct (H x (or_introl eq_refl) (H1' x (or_introl eq_refl))) as [[j ->]|[e ->]]; cbn [obind]; [|eauto]. apply IH; intros; [apply H|apply H1']; try (right; assumption); assumption.
Qed.
Print Assumptions C86_reported_partial.
(** Objects of other registered classes are taken for components; with assertions, an unknown object ends the program. *)
Theorem C86_reported_refuted : (forall F encode debug, @load F encode debug PForeign = UB) /\ forall F encode, @load F encode true (PSeq true [PInt 1; POther]) = UB.
Proof. split; reflexivity. Qed.
Print Assumptions C86_reported_refuted.

(** Values that JSON has come back equal. *)
Theorem C86_python_round_trip : forall F encode decode debug (v : py F), codec encode decode -> plain encode v -> exists j v', load encode debug v = Ok j /\ cast decode j = Ok v' /\ same v v'.
Proof. intros F encode decode debug v HC Hp. destruct (round_py encode decode HC v Hp) as (j & v' & M & C & S). exists j, v'. split; [now apply load_iff|auto]. Qed.
Print Assumptions C86_python_round_trip.
(** JSON values whose integers have 32 bits come back from Python unchanged. *)
Theorem C86_json_round_trip_partial : forall F encode decode debug (j : json F), codec encode decode -> fits encode j -> exists v, cast decode j = Ok v /\ plain encode v /\ load encode debug v = Ok j.
Proof. intros F encode decode debug j HC Hf. destruct (cast_fits encode decode HC j Hf) as (v & C & P & M). exists v. split; [exact C|]. split; [exact P|now apply load_iff]. Qed.
Print Assumptions C86_json_round_trip_partial.
(** Larger integers, such as a number of processed samples, silently become other numbers. *)
Theorem C86_integers_refuted : forall F decode, @cast F decode (JInt 4294967296) = Ok (PInt 0) /\ cast decode (@JInt F 3000000000) = Ok (PInt (-1294967296)).
Proof. split; reflexivity. Qed.
Print Assumptions C86_integers_refuted.

(** A codec (ASCII), and a value that meets the hypotheses: a dict with keys out of order *)
Definition enc1 (s : pystr) : option string := if forallb (fun c => (c <? 128)%N) s then Some (string_of_list_ascii (map ascii_of_N s)) else None.
Definition dec1 (b : string) : option pystr := let s := map N_of_ascii (list_ascii_of_string b) in if forallb (fun c => (c <? 128)%N) s then Some s else None.
Lemma codec1 : codec enc1 dec1.
Proof.
  assert (A : forall s, forallb (fun c => (c <? 128)%N) s = true -> map N_of_ascii (map ascii_of_N s) = s).
  { induction s as [|c s IH]; [reflexivity|]. cbn. intros H. apply andb_prop in H. destruct H as [H1 H2]. rewrite IH by assumption. rewrite N_ascii_embedding by lia. reflexivity. }
  intros s b. unfold enc1, dec1. split.
  - destruct (forallb _ s) eqn:E; [|discriminate]. intros [= <-]. rewrite list_ascii_of_string_of_list_ascii, (A s E), E. reflexivity.
  - destruct (forallb _ (map N_of_ascii (list_ascii_of_string b))) eqn:E; [|discriminate]. intros [= <-]. rewrite E. f_equal. rewrite map_map. rewrite (map_ext _ (fun x => x)) by apply ascii_N_embedding. rewrite map_id. apply string_of_list_ascii_of_string.
Qed.
Definition v1 : py bool := PDict [(PStr [98%N], PSeq true [PInt 7; PNone]); (PStr [97%N], PDict [])].
Example C86_example : codec enc1 dec1 /\ plain enc1 v1 /\ load enc1 true v1 = Ok (JObj [("a", JObj []); ("b", JArr [JInt 7; JNull])])
  /\ fits enc1 (JObj [("a", @JObj bool []); ("b", JArr [JInt 7; JNull])]) /\ no_foreign (PSeq false [POther; PComp "$.assets.x" : py bool]).
Proof.
  split; [exact codec1|]. split; [|split; [reflexivity|split]].
  - constructor.
    + repeat constructor; cbn; intuition congruence.
    + cbn. intros k x [[= <- <-]|[[= <- <-]|[]]].
      * split; [exists [98%N], "b"; auto|]. constructor. intros x [<-|[<-|[]]]; constructor. unfold representable. lia.
      * split; [exists [97%N], "a"; auto|]. constructor; [constructor|intros ? ? []].
  - constructor; [repeat constructor|]. cbn. intros k x [[= <- <-]|[[= <- <-]|[]]].
    + split; [exists [97%N]; reflexivity|]. constructor; [constructor|intros ? ? []].
    + split; [exists [98%N]; reflexivity|]. constructor. intros x [<-|[<-|[]]]; constructor. unfold representable. lia.
  - constructor. intros x [<-|[<-|[]]]; constructor.
Qed.

(** ** C87 *)
Lemma copy_ok {T} (mem : Z -> option T) k : forall from, (forall i, (i < k)%nat -> mem (from + Z.of_nat i)%Z <> None) -> exists l, copy mem from k = Ok l /\ List.length l = k /\ forall i, (i < k)%nat -> nth_error l i = mem (from + Z.of_nat i)%Z.
Proof.
  induction k as [|k IH]; intros from H; cbn [copy]; [exists []; split; [reflexivity|split; [reflexivity|lia]]|].
  assert (H0 := H O ltac:(lia)). cbn in H0. rewrite Z.add_0_r in H0. destruct (mem from) as [x|] eqn:E; [|congruence].
  destruct (IH (from + 1)%Z) as (l & El & Ll & Hl). { intros i Hi. specialize (H (S i) ltac:(lia)). replace (from + 1 + Z.of_nat i)%Z with (from + Z.of_nat (S i))%Z by lia. exact H. }
  rewrite El. cbn. exists (x :: l). split; [reflexivity|]. split; [cbn; lia|]. intros [|i] Hi; cbn; [now rewrite Z.add_0_r|]. rewrite Hl by lia. f_equal. lia.
Qed.
Lemma sel_len {T} n (g : nat -> option T) : forall a, (forall r, (a <= r < a + n)%nat -> g r <> None) ->
  List.length (flat_map (fun r => match g r with Some x => [x] | None => [] end) (seq a n)) = n /\ forall r, (r < n)%nat -> nth_error (flat_map (fun r => match g r with Some x => [x] | None => [] end) (seq a n)) r = g (a + r)%nat.
Proof.
  induction n as [|n IH]; intros a H; [split; [reflexivity|lia]|]. cbn [seq flat_map]. destruct (IH (S a)) as [L N]; [intros; apply H; lia|]. assert (H0 := H a ltac:(lia)). destruct (g a) as [x|] eqn:E; [|congruence]. cbn [app]. split; [cbn; lia|].
  intros [|r] Hr; cbn; [now rewrite Nat.add_0_r|]. rewrite N by lia. f_equal. lia.
Qed.
Lemma blocks {T} n (g : nat -> list T) k : forall a, (forall c, (a <= c < a + k)%nat -> List.length (g c) = n) -> List.length (flat_map g (seq a k)) = (k * n)%nat /\ forall c r, (c < k)%nat -> (r < n)%nat -> nth_error (flat_map g (seq a k)) (c * n + r) = nth_error (g (a + c)%nat) r.
Proof.
  induction k as [|k IH]; intros a H; [split; [reflexivity|lia]|]. cbn [seq flat_map]. destruct (IH (S a)) as [L N]; [intros; apply H; lia|]. assert (H0 := H a ltac:(lia)). split; [rewrite app_length; lia|].
  intros [|c] r Hc Hr; cbn [Nat.mul Nat.add]; [rewrite Nat.add_0_r, nth_error_app1 by lia; reflexivity|]. rewrite nth_error_app2 by lia. replace (n + c * n + r - List.length (g a))%nat with (c * n + r)%nat by lia. rewrite N by lia. f_equal. f_equal. lia.
Qed.
Lemma transpose_ok {T} n (l : list T) : List.length l = (n * n)%nat -> List.length (transpose n l) = (n * n)%nat /\ forall r c, (r < n)%nat -> (c < n)%nat -> nth_error (transpose n l) (c * n + r) = nth_error l (r * n + c).
Proof.
  intros Hl. assert (A : forall c, (0 <= c < 0 + n)%nat -> _) by (intros c Hc; exact (sel_len n (fun r => nth_error l (r * n + c)) 0 ltac:(intros r Hr; apply nth_error_Some; nia))).
  destruct (blocks n (fun c => flat_map (fun r => match nth_error l (r * n + c) with Some x => [x] | None => [] end) (seq 0 n)) n 0 (fun c Hc => proj1 (A c Hc))) as [B1 B2].
  split; [exact B1|]. intros r c Hr Hc. unfold transpose. rewrite B2 by assumption. apply (A c); lia.
Qed.

Lemma nth_error_ext_n {T} (a b : list T) : List.length a = List.length b -> (forall i, (i < List.length a)%nat -> nth_error a i = nth_error b i) -> a = b.
Proof.
  revert b. induction a as [|x a IH]; intros [|y b] L H; cbn in L; try lia; [reflexivity|]. assert (H0 := H O ltac:(cbn; lia)). cbn in H0. injection H0 as ->. f_equal. apply IH; [lia|]. intros i Hi. apply (H (S i)). cbn. lia.
Qed.

(** A contiguous array of the right type and length arrives as it is. *)
Theorem C87_vector_partial : forall T n (a : ndarray T), same_type a = true -> shape a = [n] -> contiguous a -> valid a ->
  exists v, load_vec n a = Ok v /\ List.length v = n /\ forall i, (i < n)%nat -> nth_error v i = item a i.
Proof.
  intros T n a Ht Hs Hc Hv. unfold load_vec, valid, contiguous, item in *. rewrite Ht, Hs in *. cbn [negb List.length Nat.eqb]. rewrite Hc in *.
  destruct (copy_ok (memory a) n 0) as (l & El & Ll & Hl). { intros i Hi. specialize (Hv i Hi). rewrite (proj2 (Nat.ltb_lt i n) Hi), Z.mul_1_r in Hv. exact Hv. }
  exists l. split; [exact El|]. split; [exact Ll|]. intros i Hi. rewrite (Hl i Hi), (proj2 (Nat.ltb_lt i n) Hi). f_equal. lia.
Qed.
Print Assumptions C87_vector_partial.
Theorem C87_matrix_partial : forall T n (a : ndarray T), same_type a = true -> shape a = [n; n] -> contiguous a -> valid a ->
  exists m, load_mat n a = Ok m /\ List.length m = (n * n)%nat /\ forall r c, (r < n)%nat -> (c < n)%nat -> entry n m r c = item2 a r c.
Proof.
  intros T n a Ht Hs Hc Hv. unfold load_mat, valid, contiguous, item2, entry in *. rewrite Ht, Hs in *. cbn [negb List.length Nat.eqb]. rewrite Hc in *.
  assert (B : forall r c, (r < n)%nat -> (c < n)%nat -> ((r <? n)%nat && (c <? n)%nat = true)) by (intros; lia).
  destruct (copy_ok (memory a) (n * n) 0) as (l & El & Ll & Hl).
  { intros i Hi. assert (Hn : n <> O) by lia. specialize (Hv (i / n) (i mod n) ltac:(apply Nat.div_lt_upper_bound; lia) ltac:(apply Nat.mod_upper_bound; lia)). rewrite B in Hv by (first [apply Nat.div_lt_upper_bound; lia|apply Nat.mod_upper_bound; lia]).
    replace (0 + Z.of_nat i)%Z with (Z.of_nat (i / n) * Z.of_nat n + Z.of_nat (i mod n) * 1)%Z; [exact Hv|]. assert (E := Nat.div_mod i n Hn). nia. }
  rewrite El. cbn [obind]. destruct (transpose_ok n l Ll) as [T1 T2]. exists (transpose n l). split; [reflexivity|]. split; [exact T1|]. intros r c Hr Hc'. rewrite T2 by assumption. rewrite (Hl (r * n + c)%nat) by nia. rewrite (B r c Hr Hc'). f_equal. lia.
Qed.
Print Assumptions C87_matrix_partial.
(** What is handed to Python has the same elements, and comes back unchanged. *)
Theorem C87_vector_round_trip : forall T (v : list T), (forall i, item (cast_vec v) i = nth_error v i) /\ load_vec (List.length v) (cast_vec v) = Ok v.
Proof.
  intros T v. assert (A : forall i, item (cast_vec v) i = nth_error v i).
  { intros i. unfold item, cast_vec. cbn [shape strides memory]. destruct (Nat.ltb_spec i (List.length v)) as [H|H]; [|symmetry; now apply nth_error_None]. rewrite (proj2 (Z.ltb_ge _ _)) by lia. f_equal. lia. }
  split; [exact A|]. destruct (C87_vector_partial T (List.length v) (cast_vec v)) as (v' & E & L & H); try reflexivity.
  - cbn. intros i Hi. change (item (cast_vec v) i <> None). rewrite A. now apply nth_error_Some.
  - rewrite E. f_equal. clear E. assert (H' : forall i, (i < List.length v)%nat -> nth_error v' i = nth_error v i) by (intros i Hi; now rewrite H, A). clear H A. revert v' L H'. induction v as [|x v IH]; intros [|x' v'] L H; cbn in L; try lia; [reflexivity|].
    assert (H0 := H O ltac:(cbn; lia)). cbn in H0. injection H0 as ->. f_equal. apply IH; [lia|]. intros i Hi. apply (H (S i)). cbn. lia.
Qed.
Print Assumptions C87_vector_round_trip.
Theorem C87_matrix_round_trip : forall T n (m : list T), List.length m = (n * n)%nat -> (forall r c, (r < n)%nat -> (c < n)%nat -> item2 (cast_mat n m) r c = entry n m r c) /\ load_mat n (cast_mat n m) = Ok m.
Proof.
  intros T n m Hm. destruct (transpose_ok n m Hm) as [T1 T2].
  assert (A : forall r c, (r < n)%nat -> (c < n)%nat -> item2 (cast_mat n m) r c = entry n m r c).
  { intros r c Hr Hc. unfold item2, cast_mat, entry. cbn [shape strides memory]. rewrite (proj2 (Nat.ltb_lt r n) Hr), (proj2 (Nat.ltb_lt c n) Hc). cbn [andb]. rewrite (proj2 (Z.ltb_ge _ _)) by nia. rewrite <- (T2 c r Hc Hr). f_equal. nia. }
  split; [exact A|]. destruct (C87_matrix_partial T n (cast_mat n m)) as (m' & E & L & H); try reflexivity.
  - cbn. intros r c Hr Hc. change (item2 (cast_mat n m) r c <> None). rewrite A by assumption. apply nth_error_Some. nia.
  - rewrite E. f_equal. apply (nth_error_ext_n m' m). { congruence. } intros i Hi. assert (Hn : n <> O) by (destruct n; cbn in L; lia).
    specialize (H (i mod n) (i / n) ltac:(apply Nat.mod_upper_bound; lia) ltac:(apply Nat.div_lt_upper_bound; lia)). rewrite A in H by (first [apply Nat.mod_upper_bound; lia|apply Nat.div_lt_upper_bound; lia]). unfold entry in H. assert (D := Nat.div_mod i n Hn). replace (i / n * n + i mod n)%nat with i in H by lia. exact H.
Qed.
Print Assumptions C87_matrix_round_trip.
(** Arrays of another type or with another number of dimensions are reported. *)
Theorem C87_reported : forall T n (a : ndarray T), (same_type a = false \/ List.length (shape a) <> 1%nat -> load_vec n a = Throw type_error) /\ (same_type a = false \/ List.length (shape a) <> 2%nat -> load_mat n a = Throw type_error).
Proof.
  intros T n a. unfold load_vec, load_mat. split; (intros [-> |H]; [reflexivity|]); destruct (same_type a); [|reflexivity| |reflexivity]; cbn [negb]; apply Nat.eqb_neq in H; now rewrite H.
Qed.
Print Assumptions C87_reported.
(** Strides are ignored: a view of every second element arrives as other numbers, and the transpose of a matrix as the matrix itself. *)
Theorem C87_view_refuted : exists a : ndarray nat, same_type a = true /\ shape a = [3%nat] /\ valid a /\ load_vec 3 a = Ok [0; 1; 2]%nat /\ item a 0 = Some 0%nat /\ item a 1 = Some 2%nat /\ item a 2 = Some 4%nat.
Proof.
  exists (mk_ndarray true [3%nat] [2%Z] (fun i => if (0 <=? i)%Z && (i <? 6)%Z then Some (Z.to_nat i) else None)). repeat split. intros [|[|[|i]]] Hi; try discriminate. lia.
Qed.
Print Assumptions C87_view_refuted.
Definition transposed_view {T} (a : ndarray T) : ndarray T := mk_ndarray (same_type a) (rev (shape a)) (rev (strides a)) (memory a).
Theorem C87_transpose_refuted : (forall T n (a : ndarray T), shape a = [n; n] -> load_mat n (transposed_view a) = load_mat n a)
  /\ exists a : ndarray nat, same_type a = true /\ shape a = [2; 2]%nat /\ contiguous a /\ valid a /\ valid (transposed_view a) /\ (forall r c, item2 (transposed_view a) r c = item2 a c r) /\ item2 a 0 1 <> item2 a 1 0.
Proof.
  split; [intros T n a Hs; unfold load_mat, transposed_view; rewrite Hs; reflexivity|].
  exists (mk_ndarray true [2; 2]%nat [2%Z; 1%Z] (fun i => if (0 <=? i)%Z && (i <? 4)%Z then Some (Z.to_nat i) else None)). repeat split.
  - intros [|[|r]] [|[|c]] Hr Hc; try lia; discriminate.
  - intros [|[|r]] [|[|c]] Hr Hc; try lia; discriminate.
  - intros r c. unfold item2, transposed_view. cbn [shape strides rev app memory]. rewrite andb_comm. destruct ((c <? 2)%nat && (r <? 2)%nat); [|reflexivity]. now rewrite Z.add_comm.
  - discriminate.
Qed.
Print Assumptions C87_transpose_refuted.
(** The length is not checked: memory behind a short array is read, a longer one is cut. *)
Theorem C87_length_refuted : load_vec 3 (cast_vec [1; 2]%nat) = UB /\ load_vec 3 (cast_vec [1; 2; 3; 4]%nat) = Ok [1; 2; 3]%nat.
Proof. split; reflexivity. Qed.
Print Assumptions C87_length_refuted.
Example C87_example : contiguous (cast_mat 2 [1; 2; 3; 4]%nat) /\ valid (cast_mat 2 [1; 2; 3; 4]%nat) /\ item2 (cast_mat 2 [1; 2; 3; 4]%nat) 0 1 = Some 3%nat /\ contiguous (cast_vec [1; 2]%nat) /\ valid (cast_vec [1; 2]%nat).
Proof. repeat split; [intros [|[|r]] [|[|c]] Hr Hc; try lia; discriminate|]. intros i Hi. destruct i as [|[|i]]; [discriminate|discriminate|cbn in Hi; lia]. Qed.
