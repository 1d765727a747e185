(** General lemmas about the base types. *)
From Verif Require Import Base.
From Coq Require Import ZifyBool.
Ltac Zify.zify_post_hook ::= Z.to_euclidean_division_equations.

(** ** Bytes *)

Lemma code_range : forall c, 0 <= code c <= 255.
Proof.
  intro c. unfold code. pose proof (N_ascii_bounded c). lia.
Qed.

Lemma byte_of_code : forall c, byte_of (code c) = c.
Proof.
  intro c. unfold byte_of, code.
  pose proof (N_ascii_bounded c).
  rewrite Z.mod_small by lia. rewrite N2Z.id. apply ascii_N_embedding.
Qed.

Lemma code_byte_of : forall z, code (byte_of z) = z mod 256.
Proof.
  intro z. unfold byte_of, code.
  rewrite N_ascii_embedding by lia.
  rewrite Z2N.id by lia. reflexivity.
Qed.

Lemma code_byte_of_small : forall z, 0 <= z < 256 -> code (byte_of z) = z.
Proof. intros. rewrite code_byte_of. apply Z.mod_small. lia. Qed.

Lemma code_inj : forall a b, code a = code b -> a = b.
Proof. intros a b H. rewrite <- (byte_of_code a), <- (byte_of_code b). now rewrite H. Qed.

Lemma ascii_eqb_code : forall a b, Ascii.eqb a b = (code a =? code b).
Proof.
  intros a b. destruct (Ascii.eqb_spec a b) as [->|H].
  - symmetry. apply Z.eqb_refl.
  - symmetry. apply Z.eqb_neq. intro E. apply H, code_inj, E.
Qed.

(** Checking a boolean predicate on all 256 bytes. *)
Definition all_bytes : list ascii := map ascii_of_nat (seq 0 256).

Lemma all_bytes_in : forall c, In c all_bytes.
Proof.
  intro c. unfold all_bytes. rewrite in_map_iff. exists (nat_of_ascii c).
  split; [apply ascii_nat_embedding|].
  apply in_seq. pose proof (nat_ascii_bounded c). lia.
Qed.

Lemma for_all_bytes : forall f, forallb f all_bytes = true -> forall c, f c = true.
Proof.
  intros f H c. rewrite forallb_forall in H. apply H, all_bytes_in.
Qed.

(** ** Byte strings *)

Lemma bs_eqb_eq : forall a b, bs_eqb a b = true <-> a = b.
Proof.
  induction a as [|x a IH]; intros [|y b]; simpl; split; intro H; try easy.
  - apply andb_true_iff in H as [H1 H2]. apply Ascii.eqb_eq in H1. apply IH in H2. congruence.
  - inversion H; subst. rewrite Ascii.eqb_refl. now apply IH.
Qed.

Lemma bs_eqb_refl : forall a, bs_eqb a a = true.
Proof. intro a. now apply bs_eqb_eq. Qed.

Lemma bs_eqb_neq : forall a b, bs_eqb a b = false <-> a <> b.
Proof.
  intros a b. rewrite <- not_true_iff_false. now rewrite bs_eqb_eq.
Qed.

Lemma bs_eqb_spec : forall a b, reflect (a = b) (bs_eqb a b).
Proof. intros. apply iff_reflect. now rewrite bs_eqb_eq. Qed.

Lemma bs_eqb_sym : forall a b, bs_eqb a b = bs_eqb b a.
Proof.
  intros a b. destruct (bs_eqb_spec a b) as [->|H]; [now rewrite bs_eqb_refl|].
  symmetry. apply bs_eqb_neq. congruence.
Qed.

Lemma bs_eq_dec : forall a b : bs, {a = b} + {a <> b}.
Proof. apply list_eq_dec, ascii_dec. Qed.

Lemma bs_mem_in : forall x l, bs_mem x l = true <-> In x l.
Proof.
  intros x l. unfold bs_mem. rewrite existsb_exists. split.
  - intros (y & Hy & E). apply bs_eqb_eq in E. now subst.
  - intro H. exists x. split; [easy|apply bs_eqb_refl].
Qed.

(** ** Outcomes *)

Lemma bind_Ret : forall A C (m : out A) (k : A -> out C) c,
  bind m k = Ret c -> exists a, m = Ret a /\ k a = Ret c.
Proof. intros A C [a| |] k c H; simpl in H; try discriminate. now exists a. Qed.

(** ** Multi-maps *)

Lemma assoc_in : forall A k (v : A) m, assoc k m = Some v -> In (k, v) m.
Proof.
  induction m as [|[k' v'] m IH]; simpl; [easy|].
  destruct (bs_eqb_spec k k') as [->|H]; intro E; [inversion E; auto|auto].
Qed.

Lemma assoc_none : forall A k (m : list (bs * A)), assoc k m = None <-> ~ In k (map fst m).
Proof.
  induction m as [|[k' v'] m IH]; simpl; [easy|].
  destruct (bs_eqb_spec k k') as [->|H]; split; intro E; try easy.
  - exfalso. apply E. auto.
  - intros [F|F]; [congruence|]. now apply IH in F.
  - apply IH. tauto.
Qed.

Lemma in_assoc : forall A k (v : A) m, NoDup (map fst m) -> In (k, v) m -> assoc k m = Some v.
Proof.
  induction m as [|[k' v'] m IH]; simpl; [easy|].
  intros ND [E|E].
  - inversion E; subst. now rewrite bs_eqb_refl.
  - inversion ND; subst. destruct (bs_eqb_spec k k') as [->|H].
    + exfalso. apply H1. apply (in_map fst) in E. exact E.
    + auto.
Qed.

Lemma vals_add_keys : forall k v m x,
  In x (map fst (vals_add k v m)) <-> x = k \/ In x (map fst m).
Proof.
  induction m as [|[k' vs] m IH]; simpl; intro x.
  - intuition congruence.
  - destruct (bs_eqb_spec k k') as [->|H]; simpl; [intuition congruence|].
    rewrite IH. intuition congruence.
Qed.

Lemma vals_add_nodup : forall k v m, NoDup (map fst m) -> NoDup (map fst (vals_add k v m)).
Proof.
  induction m as [|[k' vs] m IH]; simpl; intro ND.
  - repeat constructor; easy.
  - inversion ND; subst. destruct (bs_eqb_spec k k') as [->|H]; simpl; [now constructor|].
    constructor; [|auto]. rewrite vals_add_keys. intros [E|E]; [congruence|auto].
Qed.

Lemma vals_add_values : forall k v m,
  Permutation (flat_map snd (vals_add k v m)) (v :: flat_map snd m).
Proof.
  induction m as [|[k' vs] m IH]; simpl.
  - apply Permutation_refl.
  - destruct (bs_eqb_spec k k') as [->|H]; simpl.
    + rewrite <- app_assoc. simpl. apply Permutation_sym, Permutation_middle.
    + rewrite IH. apply Permutation_sym, Permutation_middle.
Qed.

Lemma vals_add_assoc : forall k v m k',
  assoc k' (vals_add k v m) =
  if bs_eqb k' k then Some (match assoc k m with Some vs => vs ++ [v] | None => [v] end)
  else assoc k' m.
Proof.
  induction m as [|[q vs] m IH]; simpl; intro k'.
  - destruct (bs_eqb_spec k' k); easy.
  - destruct (bs_eqb_spec k q) as [->|H]; simpl.
    + destruct (bs_eqb_spec k' q); easy.
    + rewrite IH. destruct (bs_eqb_spec k' q) as [->|H2]; [|easy].
      destruct (bs_eqb_spec q k); congruence.
Qed.

(** ** Lists *)

Lemma flat_map_app : forall A C (f : A -> list C) l1 l2,
  flat_map f (l1 ++ l2) = flat_map f l1 ++ flat_map f l2.
Proof. induction l1; simpl; intros; [easy|]. now rewrite IHl1, app_assoc. Qed.

Lemma Permutation_flat_map : forall A C (f : A -> list C) l1 l2,
  Permutation l1 l2 -> Permutation (flat_map f l1) (flat_map f l2).
Proof.
  intros A C f l1 l2 H. induction H; simpl.
  - apply Permutation_refl.
  - now apply Permutation_app_head.
  - rewrite !app_assoc. apply Permutation_app_tail, Permutation_app_comm.
  - eapply Permutation_trans; eassumption.
Qed.

Lemma last_cons_app : forall A (l : list A) (x d : A), last (l ++ [x]) d = x.
Proof. intros. apply last_last. Qed.

Lemma strong_length_ind : forall (A : Type) (P : list A -> Prop),
  (forall l, (forall l', (length l' < length l)%nat -> P l') -> P l) -> forall l, P l.
Proof.
  intros A P H l. remember (length l) as n eqn:E.
  revert l E. induction n as [n IH] using lt_wf_ind. intros l E.
  apply H. intros l' L. apply (IH (length l')); [lia|easy].
Qed.
