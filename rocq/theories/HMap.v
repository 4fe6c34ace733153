(** [std::collections::HashMap]: a finite map with at most one value per key, as used in
    mock-contract/src/lib.rs:28,35 and aggregator/src/lib.rs:36. Iteration order is not modelled
    (no code in /repo iterates over a HashMap). *)
From Coq Require Import ZArith List Bool Lia Permutation.
Import ListNotations.
From Verif Require Import Base.
Open Scope Z_scope.

Definition hmap (K V : Type) := list (K * V).

Section hmap.
  Context {K V : Type} (eqb : K -> K -> bool) (eqb_eq : forall a b, eqb a b = true <-> a = b).

  (** [map.get(&k)] *)
  Fixpoint hget (m : hmap K V) (k : K) : option V :=
    match m with
    | [] => None
    | (k', v) :: m' => if eqb k k' then Some v else hget m' k
    end.
  (** [map.insert(k, v)]: replaces the value of an existing key *)
  Fixpoint hset (m : hmap K V) (k : K) (v : V) : hmap K V :=
    match m with
    | [] => [(k, v)]
    | (k', v') :: m' => if eqb k k' then (k, v) :: m' else (k', v') :: hset m' k v
    end.
  Definition hkeys (m : hmap K V) : list K := map fst m.
  Definition hvalues (m : hmap K V) : list V := map snd m.

  Lemma eqb_refl' k : eqb k k = true.
  Proof. now apply eqb_eq. Qed.
  Lemma hget_hset_same m k v : hget (hset m k v) k = Some v.
  Proof.
    induction m as [|[k' v'] m IH]; cbn; [ now rewrite eqb_refl' |].
    destruct (eqb k k') eqn:E; cbn; [ now rewrite eqb_refl' | now rewrite E ].
  Qed.
  Lemma hget_hset_other m k k0 v : k0 <> k -> hget (hset m k v) k0 = hget m k0.
  Proof.
    intros Hn. assert (En : eqb k0 k = false).
    { destruct (eqb k0 k) eqn:E; auto. apply eqb_eq in E. contradiction. }
    induction m as [|[k' v'] m IH]; cbn; [ now rewrite En |].
    destruct (eqb k k') eqn:E; cbn.
    - apply eqb_eq in E. subst k'. now rewrite En.
    - now rewrite IH.
  Qed.
  Lemma hset_keys m k v : hkeys (hset m k v) = match hget m k with Some _ => hkeys m | None => hkeys m ++ [k] end.
  Proof.
    induction m as [|[k' v'] m IH]; cbn; auto.
    destruct (eqb k k') eqn:E; cbn.
    - apply eqb_eq in E. now subst.
    - unfold hkeys in *. rewrite IH. destruct (hget m k); reflexivity.
  Qed.
  Lemma hget_in m k v : hget m k = Some v -> In (k, v) m.
  Proof.
    induction m as [|[k' v'] m IH]; cbn; [ discriminate |].
    destruct (eqb k k') eqn:E; [| auto ]. apply eqb_eq in E. intros [= ->]. left. now subst.
  Qed.
  Lemma hget_key m k : hget m k <> None <-> In k (hkeys m).
  Proof.
    induction m as [|[k' v'] m IH]; cbn; [ tauto |].
    destruct (eqb k k') eqn:E.
    - apply eqb_eq in E. subst. split; auto. discriminate.
    - rewrite IH. split; auto. intros [->|H]; auto. now rewrite eqb_refl' in E.
  Qed.
  Lemma hset_nodup m k v : NoDup (hkeys m) -> NoDup (hkeys (hset m k v)).
  Proof.
    intros H. rewrite hset_keys. destruct (hget m k) eqn:E; auto.
    apply Permutation_NoDup with (k :: hkeys m).
    - apply Permutation_cons_append.
    - constructor; auto. rewrite <- hget_key. rewrite E. tauto.
  Qed.
  Lemma in_hget m k v : NoDup (hkeys m) -> In (k, v) m -> hget m k = Some v.
  Proof.
    induction m as [|[k' v'] m IH]; cbn; [ tauto |]. intros Hn.
    apply NoDup_cons_iff in Hn as [H1 H2]. intros [E|H].
    - injection E as -> ->. now rewrite eqb_refl'.
    - destruct (eqb k k') eqn:E; auto. apply eqb_eq in E. subst. exfalso. apply H1.
      change k' with (fst (k', v)). now apply in_map.
  Qed.
  (** splitting a map around an existing key *)
  Lemma hset_split m k v v0 : hget m k = Some v0 ->
    exists a b, m = a ++ (k, v0) :: b /\ hset m k v = a ++ (k, v) :: b.
  Proof.
    induction m as [|[k' v'] m IH]; cbn; [ discriminate |].
    destruct (eqb k k') eqn:E.
    - apply eqb_eq in E. intros [= ->]. subst. now exists [], m.
    - intros H. destruct (IH H) as (a & b & -> & ->). now exists ((k', v') :: a), b.
  Qed.
  Lemma hset_new m k v : hget m k = None -> hset m k v = m ++ [(k, v)].
  Proof.
    induction m as [|[k' v'] m IH]; cbn; auto.
    destruct (eqb k k'); [ discriminate |]. intros H. now rewrite IH.
  Qed.
End hmap.
