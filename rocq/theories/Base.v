(** Shared vocabulary of the model: strings as lists of Unicode scalar values, and the few
    standard-library functions of Rust (and itertools) the modelled code calls. *)
From Coq Require Export Ascii String.
From Coq Require Export List Bool Arith NArith ZArith Lia Permutation Sorted.
Export ListNotations.

(** A Rust [char] (Unicode scalar value). Surrogates are not excluded by the type; no theorem needs them excluded. *)
Definition char := N.
(** A Rust [String]/[&str] as the list of its [char]s. *)
Definition str := list char.

(** Literal notation: the code points of an ASCII string literal. *)
Fixpoint lit (s : String.string) : str :=
  match s with
  | String.EmptyString => []
  | String.String a s' => Ascii.N_of_ascii a :: lit s'
  end.
Arguments lit _%string_scope.

Definition c_nl : char := 10%N.     (* '\n' *)
Definition c_cr : char := 13%N.     (* '\r' *)
Definition c_space : char := 32%N.
Definition c_tab : char := 9%N.
Definition c_hyphen : char := 45%N.
Definition c_underscore : char := 95%N.
Definition c_quote : char := 34%N.

Fixpoint str_eqb (a b : str) : bool :=
  match a, b with
  | [], [] => true
  | x :: a', y :: b' => N.eqb x y && str_eqb a' b'
  | _, _ => false
  end.

Lemma str_eqb_eq a b : str_eqb a b = true <-> a = b.
Proof.
  revert b; induction a as [|x a IH]; intros [|y b]; simpl; split; intros H;
    try reflexivity; try discriminate.
  - apply andb_true_iff in H; destruct H as [H1 H2].
    apply N.eqb_eq in H1; apply IH in H2; subst; reflexivity.
  - inversion H; subst. rewrite N.eqb_refl; simpl. apply IH; reflexivity.
Qed.

Lemma str_eqb_refl a : str_eqb a a = true.
Proof. apply str_eqb_eq; reflexivity. Qed.

Lemma str_eqb_neq a b : str_eqb a b = false <-> a <> b.
Proof.
  split; intros H.
  - intros E; subst; rewrite str_eqb_refl in H; discriminate.
  - destruct (str_eqb a b) eqn:E; [apply str_eqb_eq in E; contradiction | reflexivity].
Qed.

Definition str_eq_dec (a b : str) : {a = b} + {a <> b} := list_eq_dec N.eq_dec a b.

(** [str::starts_with(&str)] *)
Fixpoint starts_with (p s : str) : bool :=
  match p, s with
  | [], _ => true
  | x :: p', y :: s' => N.eqb x y && starts_with p' s'
  | _ :: _, [] => false
  end.

(** [str::strip_prefix(&str)] *)
Definition strip_prefix (p s : str) : option str :=
  if starts_with p s then Some (skipn (length p) s) else None.

(** [str::ends_with(&str)] *)
Definition ends_with (p s : str) : bool := starts_with (rev p) (rev s).

Lemma starts_with_app p s : starts_with p s = true <-> exists t, s = p ++ t.
Proof.
  revert s; induction p as [|x p IH]; intros s; simpl.
  - split; [intros _; exists s; reflexivity | reflexivity].
  - destruct s as [|y s].
    + split; [discriminate | intros [t H]; discriminate].
    + rewrite andb_true_iff, N.eqb_eq, IH. split.
      * intros [-> [t ->]]; exists t; reflexivity.
      * intros [t H]; inversion H; subst; split; [reflexivity | exists t; reflexivity].
Qed.

Lemma strip_prefix_some p s t : strip_prefix p s = Some t <-> s = p ++ t.
Proof.
  unfold strip_prefix. destruct (starts_with p s) eqn:E.
  - apply starts_with_app in E; destruct E as [t' ->].
    rewrite skipn_app, skipn_all, Nat.sub_diag; simpl.
    split; intros H; [inversion H; reflexivity | apply app_inv_head in H; subst; reflexivity].
  - split; [discriminate|]. intros ->.
    assert (starts_with p (p ++ t) = true) by (apply starts_with_app; exists t; reflexivity).
    congruence.
Qed.

Lemma ends_with_app p s : ends_with p s = true <-> exists t, s = t ++ p.
Proof.
  unfold ends_with. rewrite starts_with_app. split; intros [t H].
  - exists (rev t). rewrite <- (rev_involutive s), H, rev_app_distr, rev_involutive. reflexivity.
  - exists (rev t). rewrite H, rev_app_distr. reflexivity.
Qed.

(** [str::contains(char)] / membership *)
Definition mem_char (c : char) (s : str) : bool := existsb (N.eqb c) s.

Lemma mem_char_In c s : mem_char c s = true <-> In c s.
Proof.
  unfold mem_char. rewrite existsb_exists. split.
  - intros [x [Hx E]]; apply N.eqb_eq in E; subst; exact Hx.
  - intros H; exists c; split; [exact H | apply N.eqb_refl].
Qed.

(** itertools [Iterator::unique_by]: keeps the first element for every key. *)
Section Unique.
  Context {A K : Type} (keqb : K -> K -> bool) (key : A -> K).
  Fixpoint unique_by_aux (seen : list K) (l : list A) : list A :=
    match l with
    | [] => []
    | x :: l' =>
        if existsb (keqb (key x)) seen then unique_by_aux seen l'
        else x :: unique_by_aux (key x :: seen) l'
    end.
  Definition unique_by (l : list A) : list A := unique_by_aux [] l.
End Unique.

(** Rust's stable sorts ([sort_by], itertools [sorted_by_key], [sorted]): insertion sort on a natural key. *)
Section Sort.
  Context {A : Type} (key : A -> nat).
  Fixpoint insert_sorted (x : A) (l : list A) : list A :=
    match l with
    | [] => [x]
    | y :: l' => if key x <=? key y then x :: l else y :: insert_sorted x l'
    end.
  Fixpoint stable_sort (l : list A) : list A :=
    match l with
    | [] => []
    | x :: l' => insert_sorted x (stable_sort l')
    end.
End Sort.

(** Option combinators. *)
Definition obind {A B} (o : option A) (f : A -> option B) : option B :=
  match o with Some x => f x | None => None end.
Definition oor {A} (o p : option A) : option A := match o with Some _ => o | None => p end.
Definition is_some {A} (o : option A) : bool := match o with Some _ => true | None => false end.

(** [Iterator::filter_map] *)
Fixpoint filter_map {A B} (f : A -> option B) (l : list A) : list B :=
  match l with
  | [] => []
  | x :: l' => match f x with Some y => y :: filter_map f l' | None => filter_map f l' end
  end.

(** [Iterator::find_map] *)
Fixpoint find_map {A B} (f : A -> option B) (l : list A) : option B :=
  match l with
  | [] => None
  | x :: l' => match f x with Some y => Some y | None => find_map f l' end
  end.

(** [slice::last] *)
Fixpoint last_opt {A} (l : list A) : option A :=
  match l with
  | [] => None
  | [x] => Some x
  | _ :: l' => last_opt l'
  end.

Global Arguments N.eqb : simpl never.
Global Arguments N.leb : simpl never.
Global Arguments N.ltb : simpl never.
Global Arguments N.add : simpl never.
Global Arguments lit : simpl never.

(** Decimal formatting of unsigned integers ([format!("{n}")]). *)
From Coq Require Import DecimalN.
Fixpoint uint_str (u : Decimal.uint) : str :=
  match u with
  | Decimal.Nil => []
  | Decimal.D0 u => 48%N :: uint_str u
  | Decimal.D1 u => 49%N :: uint_str u
  | Decimal.D2 u => 50%N :: uint_str u
  | Decimal.D3 u => 51%N :: uint_str u
  | Decimal.D4 u => 52%N :: uint_str u
  | Decimal.D5 u => 53%N :: uint_str u
  | Decimal.D6 u => 54%N :: uint_str u
  | Decimal.D7 u => 55%N :: uint_str u
  | Decimal.D8 u => 56%N :: uint_str u
  | Decimal.D9 u => 57%N :: uint_str u
  end.
Definition dec (n : N) : str := uint_str (N.to_uint n).
Lemma uint_str_inj u v : uint_str u = uint_str v -> u = v.
Proof.
  revert v; induction u; intros v; destruct v; simpl; intros H; try discriminate; try reflexivity;
    injection H as H; f_equal; auto.
Qed.
Lemma dec_inj n m : dec n = dec m -> n = m.
Proof. intros H. apply DecimalN.Unsigned.to_uint_inj. apply uint_str_inj. exact H. Qed.
Lemma dec_nonempty n : dec n <> [].
Proof.
  unfold dec. intros H. apply (uint_str_inj _ Decimal.Nil) in H.
  pose proof (DecimalN.Unsigned.to_of Decimal.Nil) as E. 
  assert (E2 : N.of_uint (N.to_uint n) = n) by apply DecimalN.Unsigned.of_to.
  rewrite H in E2. simpl in E2. subst n. discriminate.
Qed.
