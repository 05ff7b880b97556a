(** Association lists keyed by strings: the model of std::unordered_map<std::string, V>.
    The iteration order of the real container is unspecified; models that iterate say so. *)
From Coq Require Import List String.
Import ListNotations.

Section A.
  Context {V : Type}.

  (** unordered_map::find *)
  Fixpoint alookup (k : string) (m : list (string * V)) : option V :=
    match m with
    | [] => None
    | (k', v) :: r => if String.eqb k k' then Some v else alookup k r
    end.

  (** m[k] = v : overwrite or append *)
  Fixpoint aset (k : string) (v : V) (m : list (string * V)) : list (string * V) :=
    match m with
    | [] => [(k, v)]
    | (k', v') :: r => if String.eqb k k' then (k, v) :: r else (k', v') :: aset k v r
    end.

  (** unordered_map::erase(key) *)
  Fixpoint aerase (k : string) (m : list (string * V)) : list (string * V) :=
    match m with
    | [] => []
    | (k', v') :: r => if String.eqb k k' then aerase k r else (k', v') :: aerase k r
    end.

  Definition akeys (m : list (string * V)) : list string := map fst m.

  Lemma alookup_set k v m k' :
    alookup k' (aset k v m) = if String.eqb k' k then Some v else alookup k' m.
  Proof.
    induction m as [|[a b] m IH]; cbn.
    - reflexivity.
    - destruct (String.eqb_spec k a) as [->|Hne]; cbn.
      + destruct (String.eqb k' a); reflexivity.
      + destruct (String.eqb_spec k' a) as [->|Hne'].
        * destruct (String.eqb_spec a k) as [->|]; [now contradiction Hne|reflexivity].
        * exact IH.
  Qed.

  Lemma alookup_erase k m k' :
    alookup k' (aerase k m) = if String.eqb k' k then None else alookup k' m.
  Proof.
    induction m as [|[a b] m IH]; cbn.
    - now destruct (String.eqb k' k).
    - destruct (String.eqb_spec k a) as [->|Hne]; cbn.
      + rewrite IH. destruct (String.eqb k' a); reflexivity.
      + rewrite IH. destruct (String.eqb_spec k' a) as [->|Hne'].
        * destruct (String.eqb_spec a k) as [->|]; [now contradiction Hne|reflexivity].
        * reflexivity.
  Qed.

  Lemma akeys_set k v m x : In x (akeys (aset k v m)) <-> x = k \/ In x (akeys m).
  Proof.
    unfold akeys. induction m as [|[a b] m IH]; cbn.
    - intuition.
    - destruct (String.eqb_spec k a) as [->|Hne]; cbn; [intuition|]. rewrite IH. tauto.
  Qed.

  Lemma akeys_erase k m x : In x (akeys (aerase k m)) <-> x <> k /\ In x (akeys m).
  Proof.
    unfold akeys. induction m as [|[a b] m IH]; cbn; [tauto|].
    destruct (String.eqb_spec k a) as [->|Hne]; cbn; rewrite IH; [intuition congruence|].
    intuition congruence.
  Qed.

  Lemma nodup_set k v m : NoDup (akeys m) -> NoDup (akeys (aset k v m)).
  Proof.
    unfold akeys. induction m as [|[a b] m IH]; cbn; intros H.
    - constructor; [easy | constructor].
    - inversion H as [|? ? Hn Hr]; subst.
      destruct (String.eqb_spec k a) as [->|Hne]; cbn; [now constructor|].
      constructor; [|now apply IH].
      intros Hin. apply (akeys_set k v m a) in Hin. destruct Hin as [->|Hin]; [now apply Hne | contradiction].
  Qed.

  Lemma nodup_erase k m : NoDup (akeys m) -> NoDup (akeys (aerase k m)).
  Proof.
    unfold akeys. induction m as [|[a b] m IH]; cbn; intros H; [constructor|].
    inversion H as [|? ? Hn Hr]; subst.
    destruct (String.eqb k a); cbn; [now apply IH|].
    constructor; [|now apply IH]. intros Hin. apply (akeys_erase k m a) in Hin. tauto.
  Qed.

  Lemma alookup_in k m v : alookup k m = Some v -> In k (akeys m).
  Proof.
    induction m as [|[a b] m IH]; cbn; [discriminate|].
    destruct (String.eqb_spec k a) as [->|]; [now left | right; auto].
  Qed.

  Lemma alookup_none k m : alookup k m = None <-> ~ In k (akeys m).
  Proof.
    induction m as [|[a b] m IH]; cbn; [tauto|].
    destruct (String.eqb_spec k a) as [->|Hne]; [split; [discriminate | tauto]|].
    rewrite IH. intuition congruence.
  Qed.

  Lemma alookup_some_in k m v : alookup k m = Some v -> In (k, v) m.
  Proof.
    induction m as [|[a b] m IH]; cbn; [discriminate|].
    destruct (String.eqb_spec k a) as [->|]; [intros [= ->]; now left | right; auto].
  Qed.

  Lemma alookup_nodup k m v : NoDup (akeys m) -> In (k, v) m -> alookup k m = Some v.
  Proof.
    induction m as [|[a b] m IH]; cbn; [tauto|]. intros Hnd [E|Hin].
    - injection E as -> ->. now rewrite String.eqb_refl.
    - inversion Hnd as [|? ? Hn Hr]; subst.
      destruct (String.eqb_spec k a) as [->|]; [|auto].
      exfalso. apply Hn. change (In (fst (a, v)) (map fst m)). now apply in_map.
  Qed.

  Lemma length_akeys m : List.length (akeys m) = List.length m.
  Proof. apply map_length. Qed.
End A.
