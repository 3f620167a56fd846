(** Lemmas for C94. *)
From Verif Require Import Base BaseFacts CustomModel CustomSpec.

(** Induction over types and paths *)
Section Ind.
  Variables (P : ty -> Prop) (Q : tpath -> Prop) (R : garg -> Prop).
  Hypotheses (HP : forall p, Q p -> P (TyPath (Some p))) (HN : P (TyPath None)) (HI : forall t, P t -> P (TyIn (Some t))) (HIN : P (TyIn None))
    (HT : forall l, Forall P l -> P (TyTuple l)) (HO : P TyOther)
    (HA : forall s l, Forall R l -> Q (TPath s (Some l))) (HAN : forall s, Q (TPath s None))
    (HG : forall t, P t -> R (ArgType (Some t))) (HGN : R (ArgType None)) (HGO : R ArgOther).
  Fixpoint ty_ind2 (t : ty) : P t :=
    match t with
    | TyPath (Some p) => HP p (path_ind2 p)
    | TyPath None => HN
    | TyIn (Some t) => HI t (ty_ind2 t)
    | TyIn None => HIN
    | TyTuple l => HT l ((fix go (l : list ty) : Forall P l := match l with [] => Forall_nil _ | t :: l' => Forall_cons t (ty_ind2 t) (go l') end) l)
    | TyOther => HO
    end
  with path_ind2 (p : tpath) : Q p :=
    match p with
    | TPath s (Some l) => HA s l ((fix go (l : list garg) : Forall R l := match l with [] => Forall_nil _ | a :: l' => Forall_cons a (arg_ind2 a) (go l') end) l)
    | TPath s None => HAN s
    end
  with arg_ind2 (a : garg) : R a :=
    match a with ArgType (Some t) => HG t (ty_ind2 t) | ArgType None => HGN | ArgOther => HGO end.
End Ind.

Section Proofs.
  Context {adt diag : Type} (range : adt -> nat * nat) (resolve : tpath -> option adt) (check : adt -> option diag).
  Notation found := (list (tpath * option (list adt))).
  Definition got {A} (o : option (list A)) : list A := match o with Some l => l | None => [] end.
  Notation types t := (got (custom_types resolve t)).
  Notation items p := (got (resolvable resolve p)).

  Lemma types_tuple l : types (TyTuple l) = flat_map (fun t => types t) l.
  Proof.
    cbn [custom_types]. match goal with |- context [?f l] => assert (E : f l = flat_map (fun t => types t) l) end.
    { induction l as [|t l IH]; [reflexivity|]. cbn [flat_map]. rewrite <- IH. reflexivity. }
    rewrite E. destruct (flat_map _ l); reflexivity.
  Qed.
  Lemma types_names t p r : In (p, r) (types t) <-> names t p /\ r = resolvable resolve p.
  Proof.
    revert p r. induction t using ty_ind2 with (Q := fun _ => True) (R := fun _ => True); try exact I; intros q r.
    - cbn [custom_types got In]. split.
      + intros [E|[]]. injection E as <- <-. split; [constructor | reflexivity].
      + intros [H ->]. inversion H; subst. auto.
    - cbn [custom_types got In]. split; [contradiction|]. intros [H _]. inversion H.
    - cbn [custom_types]. rewrite IHt. split; intros [H ->]; (split; [|reflexivity]); [constructor; exact H | inversion H; subst; assumption].
    - cbn [custom_types got In]. split; [contradiction|]. intros [H _]. inversion H.
    - rewrite types_tuple, in_flat_map. rewrite Forall_forall in H. split.
      + intros (t & Ht & Hi). apply (H t Ht) in Hi. destruct Hi as [Hn ->]. split; [econstructor; eassumption | reflexivity].
      + intros [Hn ->]. inversion Hn as [| |? t ? Ht Hp]; subst. exists t. split; [exact Ht|]. apply (H t Ht). auto.
    - cbn [custom_types got In]. split; [contradiction|]. intros [H _]. inversion H.
  Qed.
  Definition arg_paths (l : list garg) : found := flat_map (fun a => got (arg_types resolve a)) l.
  Lemma arg_paths_names l p r : In (p, r) (arg_paths l) <-> (exists u, In (ArgType (Some u)) l /\ names u p) /\ r = resolvable resolve p.
  Proof.
    unfold arg_paths. rewrite in_flat_map. split.
    - intros (a & Ha & Hi). destruct a as [[u|]|]; cbn [arg_types got] in Hi; [|contradiction|contradiction]. apply types_names in Hi. destruct Hi as [Hn ->].
      split; [exists u; auto | reflexivity].
    - intros ((u & Hu & Hn) & ->). exists (ArgType (Some u)). split; [exact Hu|]. cbn [arg_types]. apply types_names. auto.
  Qed.
  (** Paths without repetitions of their text *)
  Lemma unique_paths (l : found) : (forall x y, In x l -> In y l -> ptext (fst x) = ptext (fst y) -> x = y) ->
    forall x, In x (unique_by str_eqb (fun x => ptext (fst x)) l) <-> In x l.
  Proof.
    intros H x. split; [apply unique_by_aux_incl|]. intros Hx. unfold unique_by.
    destruct (unique_by_aux_complete str_eqb (fun x : tpath * option (list adt) => ptext (fst x)) str_eqb_eq [] l x Hx (fun H => H)) as (y & Hy & E).
    assert (y = x) by (apply H; [eapply unique_by_aux_incl, Hy | exact Hx | exact E]). subst y. exact Hy.
  Qed.
  (** [Q] holds of a path and of all in its generic arguments. *)
  Inductive all_below (S : tpath -> Prop) : tpath -> Prop :=
    all_below_intro p : S p -> (forall s args u q, p = TPath s (Some args) -> In (ArgType (Some u)) args -> names u q -> all_below S q) -> all_below S p.
  Lemma items_of (S : tpath -> Prop) : (forall p q, S p -> S q -> ptext p = ptext q -> p = q) ->
    forall p, all_below S p -> forall a, In a (items p) <-> stands_for resolve p a.
  Proof.
    intros Hdet p. induction p using path_ind2 with
      (P := fun t => forall q, names t q -> all_below S q -> forall a, In a (items q) <-> stands_for resolve q a)
      (R := fun a => forall u q, a = ArgType (Some u) -> names u q -> all_below S q -> forall a, In a (items q) <-> stands_for resolve q a).
    - intros q Hq. inversion Hq; subst. exact IHp.
    - intros q Hq. inversion Hq.
    - intros q Hq. inversion Hq; subst. apply IHp. assumption.
    - intros q Hq. inversion Hq.
    - intros q Hq. inversion Hq as [| |? t ? Ht Hp]; subst. rewrite Forall_forall in H. apply (H t Ht q Hp).
    - intros q Hq. inversion Hq.
    - intros Hb a. inversion Hb as [? HS Hbelow]; subst. rewrite Forall_forall in H. cbn [resolvable]. destruct (resolve (TPath s (Some l))) as [b|] eqn:E.
      + cbn [got In]. split; [intros [<-|[]]; constructor; exact E|]. intros Hs. inversion Hs; subst; [left; congruence | congruence].
      + cbn [got]. match goal with |- context [unique_by _ _ (?f l)] => change (f l) with (arg_paths l) end.
        rewrite in_flat_map. split.
        * intros ([q r] & Hq & Ha). apply unique_by_aux_incl in Hq. apply arg_paths_names in Hq. destruct Hq as ((u & Hu & Hn) & ->). cbn [snd] in Ha.
          apply (stands_arg resolve s l u q a E Hu Hn). apply (H _ Hu u q eq_refl Hn); [apply (Hbelow s l u q eq_refl Hu Hn) | exact Ha].
        * intros Hs. inversion Hs as [|? ? u q ? _ Hu Hn Hq]; subst; [congruence|]. exists (q, resolvable resolve q). split.
          -- apply unique_paths.
             ++ intros [x1 x2] [y1 y2] Hx Hy Et. apply arg_paths_names in Hx, Hy. destruct Hx as ((ux & Hux & Hnx) & ->). destruct Hy as ((uy & Huy & Hny) & ->). cbn [fst] in Et.
                assert (x1 = y1); [|congruence]. apply Hdet; [| |exact Et].
                ** pose proof (Hbelow s l ux x1 eq_refl Hux Hnx) as B. inversion B. assumption.
                ** pose proof (Hbelow s l uy y1 eq_refl Huy Hny) as B. inversion B. assumption.
             ++ apply arg_paths_names. split; [exists u; auto | reflexivity].
          -- cbn [snd]. apply (H _ Hu u q eq_refl Hn); [apply (Hbelow s l u q eq_refl Hu Hn) | exact Hq].
    - intros _ a. cbn [resolvable]. destruct (resolve (TPath s None)) as [b|] eqn:E; cbn [got In].
      + split; [intros [<-|[]]; constructor; exact E|]. intros Hs. inversion Hs; subst. left. congruence.
      + split; [contradiction|]. intros Hs. inversion Hs; subst. congruence.
    - intros u q E Hn. injection E as ->. apply IHp, Hn.
    - intros u q E. discriminate.
    - intros u q E. discriminate.
  Qed.
  Lemma occurs_below params ret p : occurs params ret p -> all_below (occurs params ret) p.
  Proof.
    induction p using path_ind2 with
      (P := fun t => forall q, names t q -> occurs params ret q -> all_below (occurs params ret) q)
      (R := fun a => forall u q, a = ArgType (Some u) -> names u q -> occurs params ret q -> all_below (occurs params ret) q).
    - intros q Hq. inversion Hq; subst. exact IHp.
    - intros q Hq. inversion Hq.
    - intros q Hq. inversion Hq; subst. apply IHp. assumption.
    - intros q Hq. inversion Hq.
    - intros q Hq. inversion Hq as [| |? t ? Ht Hp]; subst. rewrite Forall_forall in H. apply (H t Ht q Hp).
    - intros q Hq. inversion Hq.
    - intros Ho. constructor; [exact Ho|]. intros s' args u q E Hu Hn. injection E as <- <-. rewrite Forall_forall in H. apply (H _ Hu u q eq_refl Hn).
      eapply occurs_arg; eassumption.
    - intros Ho. constructor; [exact Ho|]. intros s' args u q E. discriminate.
    - intros u q E Hn. injection E as ->. apply IHp, Hn.
    - intros u q E. discriminate.
    - intros u q E. discriminate.
  Qed.

  Lemma signature_names params ret p r : In (p, r) (got (signature_types resolve params ret)) <-> (exists t, in_signature params ret t /\ names t p) /\ r = resolvable resolve p.
  Proof.
    assert (E : got (signature_types resolve params ret) = flat_map (fun o => match o with Some t => types t | None => [] end) (got params ++ [ret])).
    { rewrite flat_map_app. cbn [flat_map]. rewrite app_nil_r. unfold signature_types, param_types. destruct params as [l|]; cbn [option_map got].
      - assert (F : flat_map (fun x => x) (filter_map (fun t => match t with Some t => custom_types resolve t | None => None end) l)
          = flat_map (fun o => match o with Some t => types t | None => [] end) l).
        { induction l as [|[t|] l IH]; [reflexivity| |exact IH]. cbn [filter_map flat_map]. rewrite <- IH. destruct (custom_types resolve t); reflexivity. }
        rewrite F. destruct ret as [t|]; [|rewrite app_nil_r; reflexivity]. destruct (custom_types resolve t); cbn [got]; [reflexivity | rewrite app_nil_r; reflexivity].
      - destruct ret; reflexivity. }
    rewrite E, in_flat_map. split.
    - intros ([t|] & Ht & Hi); [|contradiction]. apply types_names in Hi. destruct Hi as [Hn ->]. split; [|reflexivity]. exists t. split; [|exact Hn].
      apply in_app_or in Ht. destruct Ht as [Ht|[Ht|[]]]; [left | right; exact Ht]. destruct params as [l|]; [|contradiction]. exists l. auto.
    - intros ((t & Ht & Hn) & ->). exists (Some t). split; [|apply types_names; auto]. apply in_or_app. destruct Ht as [(l & -> & Ht)| -> ]; [left; exact Ht | right; left; reflexivity].
  Qed.
  Lemma range_eqb_eq a b : range_eqb a b = true <-> a = b.
  Proof.
    unfold range_eqb. rewrite Bool.andb_true_iff, !Nat.eqb_eq. destruct a, b. cbn [fst snd]. split; [intros [-> ->]; reflexivity | intros E; injection E; auto].
  Qed.
  Lemma flat_filter {A B} (f : A -> option (list B)) l : flat_map (fun x => x) (filter_map f l) = flat_map (fun x => got (f x)) l.
  Proof. induction l as [|x l IH]; [reflexivity|]. cbn [filter_map flat_map]. rewrite <- IH. destruct (f x); reflexivity. Qed.
  Lemma reports params ret : by_text params ret -> by_range range resolve params ret ->
    exists l, NoDup (map range l) /\ (forall a, In a l <-> used resolve params ret a) /\ codec_reports range resolve check params ret = filter_map check l.
  Proof.
    intros Ht Hr.
    exists (unique_by range_eqb range (flat_map (fun x => got (snd x)) (unique_by str_eqb (fun x => ptext (fst x)) (got (signature_types resolve params ret))))).
    split; [apply unique_by_nodup, range_eqb_eq|].
    set (l := flat_map (fun x => got (snd x)) (unique_by str_eqb (fun x => ptext (fst x)) (got (signature_types resolve params ret)))).
    assert (L : forall a, In a l <-> used resolve params ret a).
    { intros a. unfold l. rewrite in_flat_map. split.
      - intros ([p r] & Hp & Ha). apply unique_by_aux_incl in Hp. apply signature_names in Hp. destruct Hp as ((t & Hs & Hn) & ->). exists t, p. split; [exact Hs|]. split; [exact Hn|].
        apply (items_of (occurs params ret) Ht p); [apply occurs_below, (occurs_top _ _ t p Hs Hn) | exact Ha].
      - intros (t & p & Hs & Hn & Ha). exists (p, resolvable resolve p). split.
        + apply unique_paths.
          * intros [x1 x2] [y1 y2] Hx Hy Et. apply signature_names in Hx, Hy. destruct Hx as ((tx & Hsx & Hnx) & ->). destruct Hy as ((ty & Hsy & Hny) & ->). cbn [fst] in Et.
            assert (x1 = y1); [|congruence]. apply Ht; [exact (occurs_top _ _ tx x1 Hsx Hnx) | exact (occurs_top _ _ ty y1 Hsy Hny) | exact Et].
          * apply signature_names. split; [exists t; auto | reflexivity].
        + cbn [snd]. apply (items_of (occurs params ret) Ht p); [apply occurs_below, (occurs_top _ _ t p Hs Hn) | exact Ha]. }
    split.
    - intros a. split; [intros H; apply L; eapply unique_by_aux_incl, H|]. intros H. pose proof (proj2 (L a) H) as Ha. unfold unique_by.
      destruct (unique_by_aux_complete range_eqb range range_eqb_eq [] l a Ha (fun H => H)) as (b & Hb & E).
      assert (b = a) by (apply Hr; [apply L; eapply unique_by_aux_incl, Hb | exact H | exact E]). subst b. exact Hb.
    - unfold codec_reports. unfold l. destruct (signature_types resolve params ret) as [paths|]; cbn [got]; [|reflexivity]. rewrite flat_filter. reflexivity.
  Qed.
End Proofs.
