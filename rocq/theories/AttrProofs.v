(** Proofs about the attribute IR. *)
From Verif Require Import Base BaseFacts PositionModel PositionProofs SyntaxModel AttrModel AttrSpec.

Lemma arg_kind_eqb_eq a b : arg_kind_eqb a b = true <-> a = b.
Proof. split; [apply internal_arg_kind_dec_bl | apply internal_arg_kind_dec_lb]. Qed.
Lemma macro_kind_eqb_eq a b : macro_kind_eqb a b = true <-> a = b.
Proof. split; [apply internal_macro_kind_dec_bl | apply internal_macro_kind_dec_lb]. Qed.
Lemma attr_kind_eqb_eq a b : attr_kind_eqb a b = true <-> a = b.
Proof.
  destruct a, b; simpl; rewrite ?macro_kind_eqb_eq, ?arg_kind_eqb_eq; split; intros H; congruence.
Qed.

(** ** C20 *)
Lemma arg_kind_of_str k : k <> AUnknown -> arg_kind_of (arg_kind_str k) = k.
Proof. destruct k; reflexivity. Qed.

Ltac str_cases s :=
  match goal with
  | |- context [if str_eqb s ?l then _ else _] => destruct (str_eqb s l) eqn:?
  | H : context [if str_eqb s ?l then _ else _] |- _ => destruct (str_eqb s l) eqn:?
  end.

Lemma arg_kind_of_known s k : arg_kind_of s = k -> k <> AUnknown -> s = arg_kind_str k.
Proof.
  unfold arg_kind_of. intros H Hk.
  repeat (str_cases s; [subst k; match goal with E : str_eqb s _ = true |- _ => apply str_eqb_eq in E; exact E end |]).
  congruence.
Qed.

Lemma macro_kind_of_known c n k :
  macro_kind_of c n = k -> k <> MUnknown -> c = macro_crate k /\ n = macro_name k.
Proof.
  unfold macro_kind_of. intros H Hk.
  destruct (str_eqb c (lit "ink")) eqn:Ec.
  - apply str_eqb_eq in Ec.
    repeat (str_cases n; [subst k; split; [exact Ec | match goal with E : str_eqb n _ = true |- _ => apply str_eqb_eq in E; exact E end] |]).
    congruence.
  - destruct (str_eqb c (lit "ink_e2e") && str_eqb n (lit "test")) eqn:E; [|congruence].
    apply andb_true_iff in E; destruct E as [E1 E2]. apply str_eqb_eq in E1, E2. subst k; split; assumption.
Qed.

(** ** C21 / C56: primary elements *)
Lemma stable_sort_primary {A} (key : A -> nat) (prec : A -> A -> Prop) l x :
  (forall a b, prec a b <-> key a < key b) ->
  hd_error (stable_sort key l) = Some x <-> primary_of prec l x.
Proof.
  intros Hp. rewrite stable_sort_hd. unfold primary_of. split.
  - intros (l1 & l2 & E & H1 & H2). exists l1, l2. rewrite Forall_forall in H1, H2.
    split; [exact E|]. split; intros y Hy.
    + apply Hp, H1, Hy.
    + rewrite Hp. specialize (H2 y Hy). lia.
  - intros (l1 & l2 & E & H1 & H2). exists l1, l2. split; [exact E|]. split; apply Forall_forall; intros y Hy.
    + apply Hp, H1, Hy.
    + specialize (H2 y Hy). rewrite Hp in H2. lia.
Qed.

Lemma entity_rank k : In k entity_args <-> arg_rank k = 0.
Proof.
  unfold entity_args; destruct k; simpl; split; intros H; try reflexivity; try discriminate;
    try (repeat (destruct H as [H|H]; [discriminate|]); contradiction);
    repeat (first [left; reflexivity | right]).
Qed.
Lemma unknown_rank k : k = AUnknown <-> 1 < arg_rank k.
Proof. destruct k; simpl; split; intros H; try reflexivity; try discriminate; lia. Qed.

Lemma precedes_rank a b : precedes a b <-> arg_rank a < arg_rank b.
Proof.
  unfold precedes. rewrite !entity_rank. rewrite !unknown_rank.
  assert (forall k, arg_rank k <= 1 \/ arg_rank k = 10) by (destruct k; simpl; lia).
  pose proof (H a); pose proof (H b). lia.
Qed.

Lemma kind_precedes_rank a b : kind_precedes a b <-> attr_rank a < attr_rank b.
Proof.
  destruct a, b; simpl.
  - split; [tauto | lia].
  - split; intros _; [lia | exact I].
  - split; [tauto | lia].
  - rewrite precedes_rank. lia.
Qed.

Lemma primary_insert {A} (prec : A -> A -> Prop) (l1 l2 : list A) x y :
  primary_of prec (l1 ++ l2) x -> (forall a b, prec a b -> ~ prec b a) ->
  prec x y -> primary_of prec (l1 ++ y :: l2) x.
Proof.
  intros (b & a & E & Hb & Ha) Has Hy.
  assert (H : (exists m, l1 = b ++ x :: m /\ a = m ++ l2) \/ (exists m, b = l1 ++ m /\ l2 = m ++ x :: a)).
  { revert b E Hb. induction l1 as [|z l1 IH]; intros b E Hb; simpl in *.
    - right. exists b. split; [reflexivity | exact E].
    - destruct b as [|w b]; simpl in E; injection E as -> E.
      + left. exists l1. split; [reflexivity | symmetry; exact E].
      + destruct (IH b E) as [(m & -> & ->)|(m & -> & ->)].
        * intros u Hu; apply Hb; right; exact Hu.
        * left. exists m. split; reflexivity.
        * right. exists m. split; reflexivity. }
  destruct H as [(m & -> & ->)|(m & -> & ->)].
  - exists b, (m ++ y :: l2). rewrite <- app_assoc. split; [reflexivity|]. split; [exact Hb|].
    intros z Hz. apply in_app_iff in Hz. destruct Hz as [Hz|[<-|Hz]].
    + apply Ha. apply in_app_iff; left; exact Hz.
    + apply Has; exact Hy.
    + apply Ha. apply in_app_iff; right; exact Hz.
  - exists (l1 ++ y :: m), a. rewrite <- app_assoc. split; [reflexivity|]. split; [|exact Ha].
    intros z Hz. apply in_app_iff in Hz. destruct Hz as [Hz|[<-|Hz]].
    + apply Hb. apply in_app_iff; left; exact Hz.
    + exact Hy.
    + apply Hb. apply in_app_iff; right; exact Hz.
Qed.

Lemma primary_unique {A} (prec : A -> A -> Prop) (l : list A) x y :
  (forall a b, {prec a b} + {~ prec a b}) -> 
  primary_of prec l x -> primary_of prec l y -> x = y.
Proof.
  intros _ (b1 & a1 & E1 & Hb1 & Ha1) (b2 & a2 & E2 & Hb2 & Ha2). subst l.
  revert b2 E2 Hb2. revert Hb1. induction b1 as [|z b1 IH]; intros Hb1 b2 E2 Hb2.
  - destruct b2 as [|w b2]; simpl in E2; injection E2 as E2a E2; [exact E2a|]. subst w.
    exfalso. subst a1. specialize (Hb2 x (or_introl eq_refl)). apply (Ha1 y); [|exact Hb2].
    apply in_app_iff; right; left; reflexivity.
  - destruct b2 as [|w b2]; simpl in E2; injection E2 as E2a E2.
    + subst z. exfalso. subst a2. specialize (Hb1 y (or_introl eq_refl)). apply (Ha2 x); [|exact Hb1].
      apply in_app_iff; right; left; reflexivity.
    + subst w. apply (IH (fun u Hu => Hb1 u (or_intror Hu)) b2 E2).
      intros u Hu; apply Hb2; right; exact Hu.
Qed.

(** ** C22: parsing *)
Definition items_at (px : expr_parser) (le : lelem) : list meta :=
  match snd le with Node TOKEN_TREE _ => parse_meta_items px (snd le) (fst le) | _ => [] end.
Global Arguments items_at : simpl never.
Definition ann (px : expr_parser) (l : list lelem) : list pchild := map (fun le => (le, items_at px le)) l.

Lemma parse_meta_items_node px k cs o :
  parse_meta_items px (Node k cs) o =
  let children := ann px (place o cs) in
  let l_paren := find (fun e => is_tok e && skind_eqb (kind_of e) L_PAREN) cs in
  let start :=
    match find (fun c => is_tok (snd (fst c)) && skind_eqb (lkind (fst c)) L_PAREN) children with
    | Some p => lend (fst p)
    | None => o
    end in
  let body := match l_paren with Some _ => skipn 1 children | None => children end in
  let taken :=
    take_while (fun c => negb (is_tok (snd (fst c)) && skind_eqb (lkind (fst c)) R_PAREN)
                         && negb (is_error_wrapped_closing_bracket (snd (fst c)))) body in
  parse_groups px start false [] taken.
Proof.
  cbn [parse_meta_items].
  assert (E : (fix ann (l : list elem) (o : nat) : list pchild :=
           match l with
           | [] => []
           | c :: l' =>
               ((o, c), match c with Node TOKEN_TREE _ => parse_meta_items px c o | _ => [] end)
                 :: ann l' (o + len_of c)
           end) cs o = ann px (place o cs)).
  { revert o. induction cs as [|c cs IH]; intros o; simpl; [reflexivity|].
    f_equal. apply IH. }
  rewrite E. reflexivity.
Qed.

(** Splitting on commas. *)
Fixpoint seg_split (cur l : list pchild) : list (list pchild) :=
  match l with
  | [] => [cur]
  | c :: l' => if skind_eqb (lkind (fst c)) COMMA then cur :: seg_split [] l' else seg_split (cur ++ [c]) l'
  end.

Lemma parse_groups_segs px l : forall last ic cur,
  Forall2 (fun seg m => exists last', m = parse_group px last' seg)
          (filter nonempty (seg_split (rev cur) l)) (parse_groups px last ic cur l).
Proof.
  induction l as [|c l IH]; intros last ic cur; simpl.
  - destruct cur as [|x cur]; simpl; [constructor|].
    destruct (rev cur ++ [x]) eqn:E; [destruct (rev cur); discriminate|].
    simpl. constructor; [|constructor]. exists last. reflexivity.
  - destruct (skind_eqb (lkind (fst c)) COMMA) eqn:E.
    + destruct cur as [|x cur]; simpl.
      * apply (IH _ true []).
      * destruct (rev cur ++ [x]) eqn:Er; [destruct (rev cur); discriminate|].
        simpl. constructor; [exists last; reflexivity|]. apply (IH _ true []).
    + change (rev cur ++ [c]) with (rev (c :: cur)). apply IH.
Qed.

Lemma seg_split_app s l cur :
  (forall c, In c s -> lkind (fst c) <> COMMA) -> seg_split cur (s ++ l) = seg_split (cur ++ s) l.
Proof.
  revert cur; induction s as [|c s IH]; intros cur H; simpl; [rewrite app_nil_r; reflexivity|].
  destruct (skind_eqb (lkind (fst c)) COMMA) eqn:E.
  - apply skind_eqb_eq in E. exfalso; apply (H c); [left; reflexivity | exact E].
  - rewrite IH; [rewrite <- app_assoc; reflexivity|]. intros c' Hc'; apply H; right; exact Hc'.
Qed.

Lemma seg_split_spec px l segs :
  comma_separated l segs -> seg_split [] (ann px l) = map (ann px) segs.
Proof.
  induction 1 as [s Hs|s c rest segs Hs Hc _ IH].
  - rewrite <- (app_nil_r (ann px s)), seg_split_app; [reflexivity|].
    intros c Hc. apply in_map_iff in Hc. destruct Hc as (e & <- & He). apply Hs, He.
  - unfold ann at 1. rewrite map_app. change (map (fun le => (le, items_at px le)) s) with (ann px s).
    rewrite seg_split_app.
    + simpl. rewrite Hc, skind_eqb_refl. f_equal. exact IH.
    + intros c' Hc'. apply in_map_iff in Hc'. destruct Hc' as (e & <- & He). apply Hs, He.
Qed.

Lemma comma_separated_exists l : exists segs, comma_separated l segs.
Proof.
  induction l as [|c l (segs & IH)].
  - exists [[]]. constructor. intros e [].
  - destruct (skind_eqb (lkind c) COMMA) eqn:E.
    + apply skind_eqb_eq in E. exists ([] :: segs).
      change (c :: l) with ([] ++ c :: l). constructor; [intros e []|exact E|exact IH].
    + assert (Hc : lkind c <> COMMA) by (intros H; rewrite H in E; discriminate).
      inversion IH as [s Hs|s c' rest segs' Hs Hc' IH' E1 E2]; subst.
      * exists [c :: l]. constructor. intros e [<-|He]; [exact Hc | apply Hs, He].
      * exists ((c :: s) :: segs'). change (c :: s ++ c' :: rest) with ((c :: s) ++ c' :: rest).
        constructor; [|exact Hc'|exact IH']. intros e [<-|He]; [exact Hc | apply Hs, He].
Qed.

(** Splitting at the equal sign. *)
Lemma split_eq_spec px l :
  exists name eq value,
    split_at_eq l name eq value
    /\ split_eq (ann px l) =
       (ann px name, match eq with Some q => if is_tok (snd q) then Some q else None | None => None end,
        ann px value).
Proof.
  induction l as [|c l (name & eq & value & H & E)].
  - exists [], None, []. split; [|reflexivity]. split; [split; reflexivity | intros e []].
  - simpl. destruct (skind_eqb (lkind c) EQ) eqn:Ec.
    + apply skind_eqb_eq in Ec. exists [], (Some c), l. split; [|reflexivity].
      split; [split; [reflexivity | exact Ec] | intros e []].
    + exists (c :: name), eq, value. destruct H as [H1 H2]. split.
      * split.
        -- destruct eq as [q|]; destruct H1 as [H1 H1']; subst; split; auto.
        -- intros e [<-|He]; [intros K; rewrite K in Ec; discriminate | apply H2, He].
      * rewrite E. reflexivity.
Qed.

Lemma map_fst_ann px l : map fst (ann px l) = l.
Proof. unfold ann. rewrite map_map. simpl. apply map_id. Qed.

Lemma is_tt_eq e : is_tt e = match snd e with Node TOKEN_TREE _ => true | _ => false end.
Proof. reflexivity. Qed.

Lemma filter_ann px l :
  filter (fun c => is_tt (fst c)) (ann px l) = map (fun t => (t, items_at px t)) (trees l).
Proof.
  unfold ann, trees. induction l as [|e l IH]; simpl; [reflexivity|].
  rewrite is_tt_eq. destruct (snd e) as [k t|k cs]; [exact IH|]. destruct k; simpl; try exact IH.
  f_equal. exact IH.
Qed.

Lemma trees_items px l t : In t (trees l) -> items_at px t = parse_meta_items px (snd t) (fst t).
Proof.
  unfold trees. rewrite filter_In. intros [_ H]. unfold items_at.
  destruct (snd t) as [k s|k cs]; [discriminate|]. destruct k; try discriminate. reflexivity.
Qed.

Lemma parse_meta_name_reads l : name_reads l (parse_meta_name l).
Proof.
  unfold parse_meta_name, name_reads, significant, non_trivia.
  destruct (filter (fun e => negb (is_trivia (lkind e))) l) as [|e [|e' r]] eqn:E.
  - reflexivity.
  - destruct (is_tok (snd e) && is_name_kind (lkind e)) eqn:Ek.
    + split; [reflexivity|]. unfold name_token. unfold lkind in Ek.
      destruct (snd e) as [k t|k cs]; simpl in Ek; [|discriminate]. exists t.
      destruct k; simpl in Ek; try discriminate; [left|right]; reflexivity.
    + split; [reflexivity|]. split; [discriminate|]. intros n Hn. injection Hn as <-.
      intros (t & [Ht|Ht]); unfold lkind in Ek; rewrite Ht in Ek; discriminate.
  - split; [reflexivity|]. split; [discriminate|]. intros n Hn; discriminate.
Qed.

Lemma parse_meta_value_reads px l : value_reads px l (parse_meta_value px l).
Proof.
  unfold parse_meta_value, value_reads. destruct l as [|f l0] eqn:El; [reflexivity|].
  rewrite <- El. assert (Hne : l <> []) by (rewrite El; discriminate).
  unfold value_parse. destruct l as [|f' l'] eqn:El2; [contradiction|]. rewrite <- El2 in *. clear El2 El f l0 f' l'.
  set (as_expr := match px (texts_of (map snd l)) with
        | Some e => Some (MValue l None (Some e)) | None => None end).
  assert (K : match match as_expr with Some v => MOk v | None => MErr l end with
    | MOk v => mv_elements v = l /\ l <> []
       /\ ((exists k t e, significant l = [e] /\ snd e = Tok k t /\ (k = UNDERSCORE \/ k = AT)
                         /\ mv_token v = Some e /\ mv_expr v = None)
          \/ (mv_token v = None /\ mv_expr v = px (texts_of (map snd l)) /\ mv_expr v <> None))
    | MErr es => es = l /\ l <> [] /\ px (texts_of (map snd l)) = None
    | MNone => l = [] end).
  { unfold as_expr. destruct (px (texts_of (map snd l))) as [e|] eqn:E; simpl.
    - split; [reflexivity|]. split; [exact Hne|]. right. repeat split. discriminate.
    - repeat split; [exact Hne]. }
  unfold non_trivia in *. fold (significant l).
  destruct (significant l) as [|e [|e' r]] eqn:Es; try exact K.
  destruct ((skind_eqb (lkind e) UNDERSCORE || skind_eqb (lkind e) AT) && is_tok (snd e)) eqn:Ek; [|exact K].
  simpl. split; [reflexivity|]. split; [exact Hne|]. left.
  apply andb_true_iff in Ek. destruct Ek as [Ek1 Ek2]. unfold lkind in Ek1.
  destruct (snd e) as [k t|k cs] eqn:Ee; [|discriminate]. exists k, t, e.
  repeat split; [exact Ee|]. simpl in Ek1. apply orb_true_iff in Ek1.
  destruct Ek1 as [Ek1|Ek1]; apply skind_eqb_eq in Ek1; auto.
Qed.

Lemma build_meta_fields last mn eq mv nested :
  let m := build_meta last mn eq mv nested in
  m_name m = mn /\ m_eq m = eq /\ m_value m = mv /\ m_nested m = nested.
Proof. destruct mn, eq, mv, nested; simpl; auto. Qed.

Lemma nested_of_ann px name :
  nested_of (ann px name) =
  match trees name with
  | [t] =>
      match parse_meta_items px (snd t) (fst t) with
      | [m] => Some m
      | _ => if str_eqb (text_of (snd t)) (lit "(") || str_eqb (text_of (snd t)) (lit "()")
             then Some (meta_empty (lstart t) (Some (lend t))) else None
      end
  | _ => None
  end.
Proof.
  unfold nested_of. rewrite filter_ann.
  destruct (trees name) as [|t [|t' r]] eqn:Et; try reflexivity.
  assert (Hi : items_at px t = parse_meta_items px (snd t) (fst t)).
  { apply (trees_items px name). rewrite Et; left; reflexivity. }
  simpl. rewrite Hi. reflexivity.
Qed.

Definition name_elems (nested : option meta) (name : list lelem) : list lelem :=
  match nested with Some _ => without_trees name | None => name end.

Lemma parse_group_ann px last l :
  exists name eq value,
    split_at_eq l name eq value
    /\ parse_group px last (ann px l) =
       build_meta last (parse_meta_name (name_elems (nested_of (ann px name)) name))
         (match eq with Some q => if is_tok (snd q) then Some q else None | None => None end)
         (parse_meta_value px value) (nested_of (ann px name)).
Proof.
  destruct (split_eq_spec px l) as (name & eq & value & Hs & E).
  exists name, eq, value. split; [exact Hs|].
  unfold parse_group. rewrite E. rewrite !map_fst_ann. unfold name_elems, without_trees.
  destruct (nested_of (ann px name)); reflexivity.
Qed.

Lemma parse_group_reads px last l :
  reads px (fun t => parse_meta_items px (snd t) (fst t)) l (parse_group px last (ann px l)).
Proof.
  destruct (parse_group_ann px last l) as (name & eq & value & Hs & ->).
  exists name, eq, value. split; [exact Hs|].
  pose proof (parse_meta_value_reads px value) as Hv.
  set (qe := match eq with Some q => if is_tok (snd q) then Some q else None | None => None end).
  pose proof (parse_meta_name_reads (name_elems (nested_of (ann px name)) name)) as Hn.
  destruct (build_meta_fields last (parse_meta_name (name_elems (nested_of (ann px name)) name)) qe
              (parse_meta_value px value) (nested_of (ann px name))) as (-> & -> & -> & ->).
  split; [reflexivity|]. split; [exact Hv|]. clear Hv qe Hs.
  revert Hn. rewrite nested_of_ann.
  destruct (trees name) as [|t [|t' r]] eqn:Et.
  - intros Hn. right; right. split; [reflexivity|]. split; [exact Hn|]. intros t Ht; discriminate.
  - assert (K : length (parse_meta_items px (snd t) (fst t)) <> 1 ->
      name_reads (name_elems (if str_eqb (text_of (snd t)) (lit "(") || str_eqb (text_of (snd t)) (lit "()")
             then Some (meta_empty (lstart t) (Some (lend t))) else None) name) (parse_meta_name (name_elems (if str_eqb (text_of (snd t)) (lit "(") || str_eqb (text_of (snd t)) (lit "()")
             then Some (meta_empty (lstart t) (Some (lend t))) else None) name)) ->
      (exists t0 n, [t] = [t0] /\ length (parse_meta_items px (snd t0) (fst t0)) <> 1
                        /\ (text_of (snd t0) = lit "(" \/ text_of (snd t0) = lit "()")
                        /\ (if str_eqb (text_of (snd t)) (lit "(") || str_eqb (text_of (snd t)) (lit "()")
             then Some (meta_empty (lstart t) (Some (lend t))) else None) = Some n /\ m_name n = MNone /\ m_eq n = None
                        /\ m_value n = MNone /\ m_nested n = None
                        /\ name_reads (without_trees name) (parse_meta_name (name_elems (if str_eqb (text_of (snd t)) (lit "(") || str_eqb (text_of (snd t)) (lit "()")
             then Some (meta_empty (lstart t) (Some (lend t))) else None) name)))
        \/ ((if str_eqb (text_of (snd t)) (lit "(") || str_eqb (text_of (snd t)) (lit "()")
             then Some (meta_empty (lstart t) (Some (lend t))) else None) = None /\ name_reads name (parse_meta_name (name_elems (if str_eqb (text_of (snd t)) (lit "(") || str_eqb (text_of (snd t)) (lit "()")
             then Some (meta_empty (lstart t) (Some (lend t))) else None) name))
            /\ (forall t0, [t] = [t0] -> length (parse_meta_items px (snd t0) (fst t0)) <> 1))).
    { intros Hl. destruct (str_eqb (text_of (snd t)) (lit "(") || str_eqb (text_of (snd t)) (lit "()")) eqn:Eq; intros Hn.
      - left. exists t, (meta_empty (lstart t) (Some (lend t))). apply orb_true_iff in Eq. rewrite !str_eqb_eq in Eq.
        do 8 (split; [first [reflexivity | assumption]|]). exact Hn.
      - right. split; [reflexivity|]. split; [exact Hn|]. intros t0 E0; injection E0 as <-; exact Hl. }
    destruct (parse_meta_items px (snd t) (fst t)) as [|n [|n' r]] eqn:Ep; intros Hn.
    + right. apply K; [simpl; lia | exact Hn].
    + left. exists t, n. do 3 (split; [first [reflexivity | assumption]|]). exact Hn.
    + right. apply K; [simpl; lia | exact Hn].
  - intros Hn. right; right. split; [reflexivity|]. split; [exact Hn|]. intros t0 Ht0; discriminate.
Qed.

(** The argument region. *)
Lemma closing_error_iff e : is_error_wrapped_closing_bracket e = true <-> closing_error e.
Proof.
  unfold closing_error, is_error_wrapped_closing_bracket, last_leaf. destruct e as [k t|k cs].
  - split; [discriminate|]. intros (cs & l & t' & E & _); discriminate.
  - split.
    + destruct k; try discriminate. intros H.
      destruct (last_opt (leaves (Node ERROR cs))) as [[k t]|] eqn:E; [|discriminate].
      destruct k; try discriminate. apply last_opt_some in E. destruct E as (l & E).
      exists cs, l, t. split; [reflexivity | exact E].
    + intros (cs' & l & t & E & E'). injection E as -> ->.
      rewrite E', last_opt_app. reflexivity.
Qed.

Definition keep (c : pchild) : bool :=
  negb (is_tok (snd (fst c)) && skind_eqb (lkind (fst c)) R_PAREN)
  && negb (is_error_wrapped_closing_bracket (snd (fst c))).

Global Arguments keep : simpl never.
Lemma keep_plain px o e : plain_element e <-> keep ((o, e), items_at px (o, e)) = true.
Proof.
  unfold plain_element, keep, lkind; simpl. rewrite andb_true_iff, !negb_true_iff.
  rewrite <- closing_error_iff. split.
  - intros [H1 H2]. split.
    + destruct e as [k t|k cs]; simpl; [|reflexivity]. destruct (skind_eqb k R_PAREN) eqn:E; [|reflexivity].
      apply skind_eqb_eq in E; subst. exfalso; apply (H1 t); reflexivity.
    + destruct (is_error_wrapped_closing_bracket e); [contradiction H2; reflexivity | reflexivity].
  - intros [H1 H2]. split.
    + intros t ->. simpl in H1. discriminate.
    + rewrite H2. discriminate.
Qed.

Lemma region_end_taken px cs body o :
  region_end cs body -> take_while keep (ann px (place o cs)) = ann px (place o body).
Proof.
  intros H. inversion H as [b t after Hb|b e after He Hb|b Hb]; subst; clear H.
  - revert o. induction Hb as [|e b He Hb IH]; intros o; simpl; [reflexivity|].
    match goal with |- (if ?b then _ else _) = _ => assert (K : b = true) by exact (proj1 (keep_plain px o e) He); rewrite K end. f_equal. apply IH.
  - revert o. induction Hb as [|e' b He' Hb IH]; intros o; simpl.
    + match goal with |- (if ?b then _ else _) = _ => assert (K : b = false) end.
      { unfold keep; simpl. rewrite (proj2 (closing_error_iff e) He). rewrite andb_false_r. reflexivity. }
      rewrite K. reflexivity.
    + match goal with |- (if ?b then _ else _) = _ => assert (K : b = true) by exact (proj1 (keep_plain px o e') He'); rewrite K end. f_equal. apply IH.
  - revert o. induction Hb as [|e b He Hb IH]; intros o; simpl; [reflexivity|].
    match goal with |- (if ?b then _ else _) = _ => assert (K : b = true) by exact (proj1 (keep_plain px o e) He); rewrite K end. f_equal. apply IH.
Qed.


Lemma no_lparen cs : (forall o, ~ In (Tok L_PAREN o) cs) ->
  find (fun e => is_tok e && skind_eqb (kind_of e) L_PAREN) cs = None.
Proof.
  induction cs as [|e cs IH]; intros H; simpl; [reflexivity|].
  destruct (is_tok e && skind_eqb (kind_of e) L_PAREN) eqn:E.
  - apply andb_true_iff in E. destruct E as [E1 E2]. destruct e as [k t|]; [|discriminate].
    simpl in E2. apply skind_eqb_eq in E2; subst. exfalso; apply (H t); left; reflexivity.
  - apply IH. intros o Ho; apply (H o); right; exact Ho.
Qed.

Lemma parse_region px k cs body o :
  region cs body ->
  exists start, parse_meta_items px (Node k cs) o = parse_groups px start false [] (ann px (place (region_start o cs) body)).
Proof.
  intros H. rewrite parse_meta_items_node. cbv zeta.
  change (fun c : lelem * list meta => negb (is_tok (snd (fst c)) && skind_eqb (lkind (fst c)) R_PAREN)
            && negb (is_error_wrapped_closing_bracket (snd (fst c)))) with keep.
  inversion H as [t rest b Hr|cs' b Hn Hr]; subst; clear H.
  - assert (E : find (fun e => is_tok e && skind_eqb (kind_of e) L_PAREN) (Tok L_PAREN t :: rest) = Some (Tok L_PAREN t)) by reflexivity.
    rewrite E. eexists. cbn [place ann map skipn]. fold (ann px (place (o + len_of (Tok L_PAREN t)) rest)).
    rewrite (region_end_taken px _ _ _ Hr). reflexivity.
  - rewrite (no_lparen _ Hn). eexists. rewrite (region_end_taken px _ _ _ Hr).
    f_equal. f_equal. f_equal. unfold region_start.
    destruct cs as [|[k' t'|k' cs'] r]; try reflexivity. destruct k'; try reflexivity.
    exfalso; apply (Hn t'); left; reflexivity.
Qed.

Lemma parse_arguments px k cs body o segs :
  region cs body ->
  comma_separated (place (region_start o cs) body) segs ->
  Forall2 (reads px (fun t => parse_meta_items px (snd t) (fst t))) (filter nonempty segs)
          (parse_meta_items px (Node k cs) o).
Proof.
  intros Hr Hs. destruct (parse_region px k cs body o Hr) as [start ->].
  pose proof (parse_groups_segs px (ann px (place (region_start o cs) body)) start false []) as H.
  simpl in H. rewrite (seg_split_spec px _ _ Hs) in H. clear Hs Hr.
  revert H. generalize (parse_groups px start false [] (ann px (place (region_start o cs) body))).
  induction segs as [|s segs IH]; intros ms H; simpl in *.
  - inversion H; subst. constructor.
  - destruct s as [|e s]; simpl in *; [apply IH, H|].
    inversion H as [|? ? ? ? [last Hm] H']; subst. constructor; [|apply IH, H'].
    apply (parse_group_reads px last (e :: s)).
Qed.

(** ** C22: no content is lost *)
Definition lleaves (l : list lelem) : list (skind * str) := flat_map (fun e => leaves (snd e)) l.

Lemma content_app a b : content (a ++ b) = content a ++ content b.
Proof. apply filter_app. Qed.
Lemma lleaves_app a b : lleaves (a ++ b) = lleaves a ++ lleaves b.
Proof. apply flat_map_app. Qed.
Lemma lleaves_perm a b : Permutation a b -> Permutation (lleaves a) (lleaves b).
Proof. intros H. unfold lleaves. apply Permutation_flat_map, H. Qed.
Lemma Permutation_filter' {A} (f : A -> bool) a b : Permutation a b -> Permutation (filter f a) (filter f b).
Proof.
  induction 1; simpl; try (destruct (f x)); try (destruct (f y)); auto using perm_swap, Permutation_refl.
  eapply perm_trans; eassumption.
Qed.
Lemma content_perm a b : Permutation a b -> Permutation (content a) (content b).
Proof. apply Permutation_filter'. Qed.

Lemma lleaves_place o l : lleaves (place o l) = leaves_of l.
Proof. revert o; induction l as [|e l IH]; intros o; simpl; [reflexivity|]. unfold lleaves, leaves_of in *; simpl. f_equal. apply IH. Qed.

Lemma content_sig l :
  Forall (fun e => balanced (snd e)) l -> content (lleaves (significant l)) = content (lleaves l).
Proof.
  induction 1 as [|e l He _ IH]; simpl; [reflexivity|].
  change (lleaves (e :: l)) with (leaves (snd e) ++ lleaves l). rewrite content_app, <- IH.
  unfold lkind. inversion He as [k t Hk1 Hk2 Hk3 Ht E|o cs c Hcs Hd E]; simpl.
  - destruct (is_trivia k) eqn:Et; simpl.
    + destruct k; try discriminate; reflexivity.
    + change (lleaves (e :: significant l)) with (leaves (snd e) ++ lleaves (significant l)).
      rewrite content_app, <- E. reflexivity.
  - change (lleaves (e :: significant l)) with (leaves (snd e) ++ lleaves (significant l)).
    rewrite content_app, <- E. reflexivity.
Qed.

Lemma significant_balanced l :
  Forall (fun e => balanced (snd e)) l -> Forall (fun e => balanced (snd e)) (significant l).
Proof. intros H. apply Forall_forall. intros x Hx. apply filter_In in Hx. rewrite Forall_forall in H. apply H, Hx. Qed.

Definition name_part (m : moption lelem) : list lelem := match m with MOk n => [n] | MErr l => l | MNone => [] end.
Definition value_part (m : moption mvalue) : list lelem := match m with MOk v => mv_elements v | MErr l => l | MNone => [] end.

Lemma name_reads_content l m :
  Forall (fun e => balanced (snd e)) l -> name_reads l m -> content (lleaves (name_part m)) = content (lleaves l).
Proof.
  intros Hb H. rewrite <- (content_sig l Hb). destruct m as [n|es|]; simpl in *.
  - destruct H as [-> _]. reflexivity.
  - destruct H as (-> & _). symmetry. apply content_sig, Hb.
  - rewrite H. reflexivity.
Qed.

Lemma value_reads_content px l m : value_reads px l m -> value_part m = l.
Proof. destruct m as [v|es|]; simpl; [intros (H & _); exact H | intros (H & _); exact H | intros H; symmetry; exact H]. Qed.

Lemma trees_split l :
  Forall (fun e => balanced (snd e)) l -> Permutation l (without_trees l ++ trees l).
Proof.
  induction 1 as [|e l He _ IH]; simpl; [constructor|].
  unfold lkind. inversion He as [k t Hk1 Hk2 Hk3 Ht E|o cs c Hcs Hd E]; simpl.
  - destruct (skind_eqb k TOKEN_TREE) eqn:Ek; [apply skind_eqb_eq in Ek; contradiction|].
    simpl. apply perm_skip, IH.
  - eapply perm_trans; [apply perm_skip, IH|]. apply Permutation_middle.
Qed.

Lemma balanced_empty e : balanced e -> text_of e = lit "(" \/ text_of e = lit "()" ->
  kind_of e = TOKEN_TREE -> content (leaves e) = [].
Proof.
  intros H Ht Hk. inversion H as [k t Hk1 Hk2 Hk3 Hne E|o cs c Hcs Hd E]; subst; [simpl in Hk; contradiction|].
  rewrite text_of_node in Ht. unfold texts_of in Ht. simpl in Ht. rewrite flat_map_app in Ht. simpl in Ht.
  rewrite app_nil_r in Ht.
  assert (Hcs0 : flat_map text_of cs = [] -> cs = []).
  { intros E. destruct cs as [|e' cs']; [reflexivity|]. exfalso. simpl in E.
    apply app_eq_nil in E. destruct E as [E _].
    apply Forall_inv in Hcs. inversion Hcs as [k t ? ? ? Hne E'|o' cs'' c' Hcs' Hd' E']; subst.
    - simpl in E. contradiction.
    - rewrite text_of_node in E. unfold texts_of in E. simpl in E.
      destruct Hd' as [Hd'|[Hd'|[Hd'|[]]]]; injection Hd' as <- <-; discriminate. }
  simpl in Hd. destruct Hd as [Hd|[Hd|[Hd|[]]]]; injection Hd as <- <-; simpl in Ht.
  - assert (E : flat_map text_of cs = []).
    { destruct Ht as [Ht|Ht]; vm_compute (lit _) in Ht; injection Ht as Ht.
      - destruct (flat_map text_of cs); discriminate.
      - destruct (flat_map text_of cs) as [|x [|y r]]; [reflexivity|discriminate|discriminate]. }
    rewrite (Hcs0 E). reflexivity.
  - destruct Ht as [Ht|Ht]; discriminate.
  - destruct Ht as [Ht|Ht]; discriminate.
Qed.

Lemma meta_elements_raw_eq m :
  meta_elements_raw m = name_part (m_name m) ++ match m_eq m with Some e => [e] | None => [] end
    ++ value_part (m_value m) ++ match m_nested m with Some n => meta_elements n | None => [] end.
Proof. destruct m; reflexivity. Qed.

Lemma reads_content px seg m :
  Forall (fun e => balanced (snd e)) seg ->
  (forall t, In t seg -> kind_of (snd t) = TOKEN_TREE ->
     Permutation (content (lleaves (flat_map meta_elements (parse_meta_items px (snd t) (fst t)))))
                 (content (leaves (snd t)))) ->
  reads px (fun t => parse_meta_items px (snd t) (fst t)) seg m ->
  Permutation (content (lleaves (meta_elements m))) (content (lleaves seg)).
Proof.
  intros Hb IH (name & eq & value & Hs & Heq & Hv & Hn).
  unfold meta_elements.
  eapply perm_trans; [apply content_perm, lleaves_perm, Permutation_sym, stable_sort_perm|].
  rewrite meta_elements_raw_eq, !lleaves_app, !content_app.
  rewrite (value_reads_content _ _ _ Hv). clear Hv.
  (* the segment *)
  assert (E : exists ql, content (lleaves seg) = content (lleaves name) ++ content (lleaves ql) ++ content (lleaves value)
              /\ ql = match m_eq m with Some e => [e] | None => [] end /\ incl name seg).
  { destruct Hs as [Hs _]. destruct eq as [q|].
    - destruct Hs as [-> Hq].
      assert (Hq' : is_tok (snd q) = true).
      { rewrite Forall_forall in Hb. assert (Hqb : balanced (snd q)) by (apply Hb, in_app_iff; right; left; reflexivity).
        unfold lkind in Hq. inversion Hqb as [k t Hk1 Hk2 Hk3 Hne E|o cs c Hcs Hd E]; rewrite <- E in Hq; simpl in *; [reflexivity|discriminate]. }
      rewrite Hq' in Heq. exists [q]. rewrite Heq. split; [|split; [reflexivity|]].
      + change (q :: value) with ([q] ++ value). rewrite !lleaves_app, !content_app. reflexivity.
      + intros x Hx; apply in_app_iff; left; exact Hx.
    - destruct Hs as [-> ->]. exists []. rewrite Heq. split; [|split; [reflexivity | intros x Hx; exact Hx]].
      simpl. rewrite app_nil_r. reflexivity. }
  destruct E as (ql & -> & <- & Hincl).
  assert (Hbn : Forall (fun e => balanced (snd e)) name).
  { apply Forall_forall. intros x Hx. rewrite Forall_forall in Hb. apply Hb, Hincl, Hx. }
  assert (Hbw : Forall (fun e => balanced (snd e)) (without_trees name)).
  { apply Forall_forall. intros x Hx. apply filter_In in Hx. rewrite Forall_forall in Hbn. apply Hbn, Hx. }
  assert (Hgoal : Permutation (content (lleaves (name_part (m_name m))) ++
            content (lleaves match m_nested m with Some n => meta_elements n | None => [] end))
            (content (lleaves name))).
  { destruct Hn as [(t & n & Et & Ei & En & Hr)|[(t & n & Et & Ei & Etx & En & E1 & E2 & E3 & E4 & Hr)|(En & Hr & _)]].
    - rewrite En, (name_reads_content _ _ Hbw Hr).
      eapply perm_trans; [|apply content_perm, lleaves_perm, Permutation_sym, trees_split, Hbn].
      rewrite lleaves_app, content_app. apply Permutation_app_head. rewrite Et.
      assert (Hin : In t (trees name)) by (rewrite Et; left; reflexivity).
      apply filter_In in Hin. destruct Hin as [Hin Hk].
      assert (Hk' : kind_of (snd t) = TOKEN_TREE).
      { destruct (snd t) as [|k cs]; [discriminate|]. destruct k; try discriminate. reflexivity. }
      specialize (IH t (Hincl _ Hin) Hk'). rewrite Ei in IH. simpl in IH. rewrite app_nil_r in IH.
      change (lleaves [t]) with (leaves (snd t) ++ []). rewrite app_nil_r. exact IH.
    - rewrite En, (name_reads_content _ _ Hbw Hr).
      eapply perm_trans; [|apply content_perm, lleaves_perm, Permutation_sym, trees_split, Hbn].
      rewrite lleaves_app, content_app. apply Permutation_app_head. rewrite Et.
      assert (Hin : In t (trees name)) by (rewrite Et; left; reflexivity).
      apply filter_In in Hin. destruct Hin as [Hin Hk].
      assert (Hk' : kind_of (snd t) = TOKEN_TREE).
      { destruct (snd t) as [|k cs]; [discriminate|]. destruct k; try discriminate. reflexivity. }
      change (lleaves [t]) with (leaves (snd t) ++ []). rewrite app_nil_r.
      rewrite balanced_empty; [|rewrite Forall_forall in Hbn; apply Hbn, Hin|exact Etx|exact Hk'].
      unfold meta_elements. rewrite meta_elements_raw_eq, E1, E2, E3, E4. constructor.
    - rewrite En, (name_reads_content _ _ Hbn Hr). simpl. rewrite app_nil_r. apply Permutation_refl. }
  eapply perm_trans; [|apply Permutation_app_tail; exact Hgoal].
  rewrite <- !app_assoc. apply Permutation_app_head.
  rewrite (app_assoc (content (lleaves ql))). apply Permutation_app_comm.
Qed.

Lemma comma_separated_content l segs :
  comma_separated l segs -> Forall (fun e => balanced (snd e)) l ->
  content (lleaves l) = content (lleaves (concat segs)) /\ Forall (fun e => balanced (snd e)) (concat segs)
  /\ incl (concat segs) l.
Proof.
  induction 1 as [s Hs|s c rest segs Hs Hc _ IH]; intros Hb; simpl.
  - rewrite app_nil_r. repeat split; [exact Hb | intros x Hx; exact Hx].
  - apply Forall_app in Hb. destruct Hb as [Hb1 Hb2]. inversion Hb2 as [|? ? Hbc Hbr]; subst.
    destruct (IH Hbr) as (E1 & E2 & E3). split; [|split].
    + rewrite !lleaves_app, !content_app. f_equal. change (c :: rest) with ([c] ++ rest).
      rewrite lleaves_app, content_app, E1.
      unfold lkind in Hc. inversion Hbc as [k t Hk1 Hk2 Hk3 Hne E|o cs c' Hcs Hd E]; rewrite <- E in Hc; simpl in Hc; [|discriminate].
      subst k. unfold lleaves at 1. simpl. rewrite <- E. reflexivity.
    + apply Forall_app; split; assumption.
    + intros x Hx. apply in_app_iff in Hx. apply in_app_iff. destruct Hx as [Hx|Hx]; [left; exact Hx | right; right; apply E3, Hx].
Qed.

Lemma place_In o l e : In e (place o l) -> In (snd e) l.
Proof.
  revert o; induction l as [|x l IH]; intros o; simpl; [tauto|].
  intros [<-|H]; [left; reflexivity | right; eapply IH; exact H].
Qed.

Lemma balanced_plain e : balanced e -> plain_element e.
Proof.
  intros H. inversion H as [k t Hk1 Hk2 Hk3 Hne E|o cs c Hcs Hd E]; subst; split.
  - intros t' E; injection E as E _; contradiction.
  - intros (cs & l & t' & E & _); discriminate.
  - intros t' E; discriminate.
  - intros (cs' & l & t' & E & _); discriminate.
Qed.

Lemma balanced_region o cs c : Forall balanced cs -> In (o, c) delimiters ->
  exists body, region (o :: cs ++ [c]) body /\ content (leaves_of body) = content (leaves_of (o :: cs ++ [c]))
  /\ forall e, In e body -> balanced e /\ (In e cs \/ e = o \/ e = c).
Proof.
  intros Hb Hd.
  assert (Hp : Forall plain_element cs) by (eapply Forall_impl; [apply balanced_plain | exact Hb]).
  rewrite Forall_forall in Hb.
  assert (Hbare : forall (k1 k2 : skind) (t1 t2 : str), o = Tok k1 t1 -> c = Tok k2 t2 ->
    k1 <> L_PAREN -> k2 <> L_PAREN -> k1 <> R_PAREN -> k2 <> R_PAREN -> k1 <> TOKEN_TREE -> k2 <> TOKEN_TREE ->
    t1 <> [] -> t2 <> [] ->
    exists body, region (o :: cs ++ [c]) body /\ content (leaves_of body) = content (leaves_of (o :: cs ++ [c]))
    /\ forall e, In e body -> balanced e /\ (In e cs \/ e = o \/ e = c)).
  { intros k1 k2 t1 t2 -> -> H1 H2 H3 H4 H5 H6 H7 H8. exists (Tok k1 t1 :: cs ++ [Tok k2 t2]).
    assert (Hall : forall e, In e (Tok k1 t1 :: cs ++ [Tok k2 t2]) -> balanced e).
    { intros e [<-|He]; [constructor; assumption|]. apply in_app_iff in He.
      destruct He as [He|[<-|[]]]; [apply Hb, He | constructor; assumption]. }
    split; [|split; [reflexivity|]].
    - apply region_bare.
      + intros t Ht. specialize (Hall _ Ht). inversion Hall; subst. contradiction.
      + apply re_all. apply Forall_forall. intros e He. apply balanced_plain, Hall, He.
    - intros e He. split; [apply Hall, He|]. destruct He as [<-|He]; [right; left; reflexivity|].
      apply in_app_iff in He. destruct He as [He|[<-|[]]]; [left; exact He | right; right; reflexivity]. }
  simpl in Hd. destruct Hd as [Hd|[Hd|[Hd|[]]]]; injection Hd as <- <-.
  - exists cs. split; [|split].
    + apply region_open. apply re_close. exact Hp.
    + unfold leaves_of. simpl. rewrite flat_map_app, content_app. simpl. rewrite app_nil_r. reflexivity.
    + intros e He. split; [apply Hb, He | left; exact He].
  - eapply Hbare; try reflexivity; discriminate.
  - eapply Hbare; try reflexivity; discriminate.
Qed.

Lemma parse_content px e : balanced e -> forall o,
  kind_of e = TOKEN_TREE ->
  Permutation (content (lleaves (flat_map meta_elements (parse_meta_items px e o)))) (content (leaves e)).
Proof.
  induction e as [k t|k cs IH] using elem_ind'; intros Hb o Hk.
  - inversion Hb; subst. simpl in Hk. contradiction.
  - inversion Hb as [|op cs' cl Hcs Hd E]; subst.
    destruct (balanced_region op cs' cl Hcs Hd) as (body & Hr & Hc & Hbody).
    destruct (comma_separated_exists (place (region_start o (op :: cs' ++ [cl])) body)) as [segs Hs].
    pose proof (parse_arguments px TOKEN_TREE _ _ o segs Hr Hs) as Hargs.
    assert (Hbp : Forall (fun e => balanced (snd e)) (place (region_start o (op :: cs' ++ [cl])) body)).
    { apply Forall_forall. intros x Hx. apply Hbody. eapply place_In, Hx. }
    destruct (comma_separated_content _ _ Hs Hbp) as (E1 & E2 & E3).
    rewrite leaves_node, <- Hc, <- (lleaves_place (region_start o (op :: cs' ++ [cl])) body), E1.
    assert (IHt : forall t, In t (concat segs) -> kind_of (snd t) = TOKEN_TREE ->
      Permutation (content (lleaves (flat_map meta_elements (parse_meta_items px (snd t) (fst t))))) (content (leaves (snd t)))).
    { intros t Ht Hkt. rewrite Forall_forall in IH.
      assert (Hin : In (snd t) body) by (eapply place_In, E3, Ht).
      destruct (Hbody _ Hin) as [Hbt Hin']. apply IH; [|exact Hbt|exact Hkt].
      destruct Hin' as [Hin'|[Hin'|Hin']].
      - right. apply in_app_iff; left; exact Hin'.
      - left. symmetry; exact Hin'.
      - right. apply in_app_iff; right; left. symmetry; exact Hin'. }
    clear Hs Hbp E1 E3 Hc Hr Hbody IH. revert Hargs.
    generalize (parse_meta_items px (Node TOKEN_TREE (op :: cs' ++ [cl])) o). 
    induction segs as [|s segs IHs]; intros ms Hargs; simpl in *.
    + inversion Hargs; subst. constructor.
    + apply Forall_app in E2. destruct E2 as [E2a E2b].
      assert (IHt1 : forall t, In t s -> kind_of (snd t) = TOKEN_TREE ->
        Permutation (content (lleaves (flat_map meta_elements (parse_meta_items px (snd t) (fst t))))) (content (leaves (snd t)))).
      { intros t Ht; apply IHt, in_app_iff; left; exact Ht. }
      assert (IHt2 : forall t, In t (concat segs) -> kind_of (snd t) = TOKEN_TREE ->
        Permutation (content (lleaves (flat_map meta_elements (parse_meta_items px (snd t) (fst t))))) (content (leaves (snd t)))).
      { intros t Ht; apply IHt, in_app_iff; right; exact Ht. }
      destruct s as [|x s]; simpl in Hargs.
      * simpl. apply IHs; assumption.
      * inversion Hargs as [|? m ? ms' Hm Hms]; subst. 
        change (flat_map meta_elements (m :: ms')) with (meta_elements m ++ flat_map meta_elements ms').
        rewrite !lleaves_app, !content_app. apply Permutation_app.
        -- apply (reads_content px); assumption.
        -- apply IHs; assumption.
Qed.

(** ** C22: written arguments are read back *)
Scheme writes_mut := Minimality for writes Sort Prop
  with writes_nested_mut := Minimality for writes_nested Sort Prop
  with writes_value_mut := Minimality for writes_value Sort Prop.

Lemma place_app o a b : place o (a ++ b) = place o a ++ place (o + bytes (texts_of a)) b.
Proof.
  revert o; induction a as [|e a IH]; intros o; simpl; [rewrite Nat.add_0_r; reflexivity|].
  f_equal. rewrite IH. f_equal. f_equal. unfold texts_of; simpl.
  rewrite bytes_app. unfold len_of. lia.
Qed.
Lemma map_snd_place o l : map snd (place o l) = l.
Proof. revert o; induction l as [|e l IH]; intros o; simpl; [reflexivity | f_equal; apply IH]. Qed.

Lemma split_at_eq_unique s n1 e1 v1 n2 e2 v2 :
  split_at_eq s n1 e1 v1 -> split_at_eq s n2 e2 v2 -> n1 = n2 /\ e1 = e2 /\ v1 = v2.
Proof.
  intros [H1 N1] [H2 N2].
  revert n2 s H1 H2 N2. induction n1 as [|a n1 IH]; intros n2 s H1 H2 N2.
  - destruct e1 as [q1|]; destruct H1 as [-> H1].
    + destruct n2 as [|b n2].
      * destruct e2 as [q2|]; destruct H2 as [H2 H2']; [|discriminate].
        simpl in H2. injection H2 as -> ->. auto.
      * exfalso. destruct e2 as [q2|]; destruct H2 as [H2 H2']; simpl in H2; injection H2 as -> _;
          apply (N2 b); [left; reflexivity | exact H1 | left; reflexivity | exact H1].
    + subst v1. destruct e2 as [q2|]; destruct H2 as [H2 H2']; [destruct n2; discriminate|].
      subst. auto.
  - destruct n2 as [|b n2].
    + exfalso. destruct e2 as [q2|]; destruct H2 as [H2 H2'].
      * destruct e1 as [q1|]; destruct H1 as [H1 H1']; rewrite H1 in H2; simpl in H2; injection H2 as -> _;
          apply (N1 q2); [left; reflexivity | exact H2' | left; reflexivity | exact H2'].
      * subst s. destruct e1 as [q1|]; destruct H1 as [H1 H1']; discriminate.
    + assert (K : a = b /\ n1 = n2 /\ e1 = e2 /\ v1 = v2); [|destruct K as (-> & -> & -> & ->); auto].
      destruct e1 as [q1|]; destruct H1 as [H1 H1']; destruct e2 as [q2|]; destruct H2 as [H2 H2'];
        rewrite H1 in H2; simpl in H2; injection H2 as -> H2.
      * split; [reflexivity|]. apply (IH (fun e He => N1 e (or_intror He)) n2 (n1 ++ q1 :: v1)).
        -- split; auto.
        -- split; auto.
        -- intros e He; apply N2; right; exact He.
      * split; [reflexivity|]. apply (IH (fun e He => N1 e (or_intror He)) n2 (n1 ++ q1 :: v1)).
        -- split; auto.
        -- split; auto.
        -- intros e He; apply N2; right; exact He.
      * split; [reflexivity|]. apply (IH (fun e He => N1 e (or_intror He)) n2 n1).
        -- split; auto.
        -- split; auto.
        -- intros e He; apply N2; right; exact He.
      * split; [reflexivity|]. apply (IH (fun e He => N1 e (or_intror He)) n2 n1).
        -- split; auto.
        -- split; auto.
        -- intros e He; apply N2; right; exact He.
Qed.

Lemma trivia_place_sig o l : trivia l -> significant (place o l) = [] /\ trees (place o l) = []
  /\ without_trees (place o l) = place o l /\ (forall e, In e (place o l) -> lkind e <> EQ /\ lkind e <> COMMA /\ lkind e <> TOKEN_TREE).
Proof.
  intros H. revert o; induction l as [|e l IH]; intros o; simpl; [repeat split; contradiction|].
  assert (He : exists k t, e = Tok k t /\ is_trivia k = true) by (apply H; left; reflexivity).
  destruct He as (k & t & -> & Hk).
  assert (Hl : trivia l) by (intros x Hx; apply H; right; exact Hx).
  destruct (IH Hl (o + len_of (Tok k t))) as (E1 & E2 & E3 & E4).
  unfold lkind at 1 2 3; simpl. rewrite Hk. simpl.
  assert (Hkk : k = WHITESPACE \/ k = COMMENT) by (destruct k; try discriminate; auto).
  split; [exact E1|]. split; [exact E2|]. split.
  - destruct Hkk as [-> | ->]; simpl; f_equal; exact E3.
  - intros x [<-|Hx]; [|apply E4, Hx]. unfold lkind; simpl. destruct Hkk as [-> | ->]; repeat split; discriminate.
Qed.

Lemma trivia_plain l e : trivia l -> In e l -> kind_of e <> COMMA /\ plain_element e.
Proof.
  intros H He. destruct (H e He) as (k & t & -> & Hk). simpl. split.
  - intros ->; discriminate.
  - split; [intros t' E; injection E as -> _; discriminate | intros (cs & l0 & t' & E & _); discriminate].
Qed.

Lemma significant_app a b : significant (a ++ b) = significant a ++ significant b.
Proof. apply filter_app. Qed.
Lemma trees_app a b : trees (a ++ b) = trees a ++ trees b.
Proof. apply filter_app. Qed.
Lemma without_trees_app a b : without_trees (a ++ b) = without_trees a ++ without_trees b.
Proof. apply filter_app. Qed.

(** Ranges of placed elements. *)
Lemma place_ge o l e : In e (place o l) -> o <= lstart e.
Proof.
  revert o; induction l as [|x l IH]; intros o; simpl; [contradiction|].
  intros [<-|H]; [apply le_n|]. apply IH in H. lia.
Qed.
Lemma place_first_last (p : lelem -> bool) o l a b :
  hd_error (filter p (place o l)) = Some a -> last_opt (filter p (place o l)) = Some b ->
  o <= lstart a /\ lstart a <= lend b /\ lstart a <= lstart b.
Proof.
  revert o; induction l as [|x l IH]; intros o; simpl; [discriminate|].
  destruct (p (o, x)) eqn:E.
  - intros H Hl. simpl in H. injection H as <-.
    apply last_opt_some in Hl. destruct Hl as [l' Hl].
    assert (Hin : In b (filter p (place o (x :: l)))) by (simpl; rewrite E, Hl; apply in_app_iff; right; left; reflexivity).
    apply filter_In in Hin. destruct Hin as [Hin _]. apply place_ge in Hin.
    unfold lend, lstart in *. simpl. lia.
  - intros H Hl. destruct (IH _ H Hl) as (A & B & C). repeat split; try assumption. lia.
Qed.

Lemma value_range_place px o v x : value_reads px (place o v) (MOk x) ->
  exists r, value_range x = Done r /\ o <= fst r /\ fst r <= snd r.
Proof.
  intros (He & Hne & _). unfold value_range. rewrite He.
  destruct (place o v) as [|f l] eqn:E; [contradiction|]. rewrite <- E.
  unfold non_trivia.
  destruct (hd_error (filter (fun e => negb (is_trivia (lkind e))) (place o v))) as [a|] eqn:Ha;
  destruct (last_opt (filter (fun e => negb (is_trivia (lkind e))) (place o v))) as [b|] eqn:Hb.
  - destruct (place_first_last _ _ _ _ _ Ha Hb) as (A & B & C).
    unfold mk_range. rewrite (proj2 (Nat.leb_le _ _) B). eexists. split; [reflexivity|]. simpl. lia.
  - exfalso. apply last_opt_none in Hb. rewrite Hb in Ha. discriminate.
  - exfalso. apply last_opt_some in Hb. destruct Hb as [l' Hb]. rewrite Hb in Ha. destruct l'; discriminate.
  - destruct (last_opt (place o v)) as [b|] eqn:Hl.
    + assert (Ht : filter (fun _ => true) (place o v) = place o v).
      { clear. generalize (place o v). induction l; simpl; congruence. }
      destruct (place_first_last (fun _ => true) o v f b) as (A & B & C); [rewrite Ht, E; reflexivity | rewrite Ht; exact Hl|].
      unfold mk_range. rewrite (proj2 (Nat.leb_le _ _) C). eexists. split; [reflexivity|]. simpl. lia.
    + apply last_opt_none in Hl. congruence.
Qed.
Lemma items_range_place o v : v <> [] ->
  exists r, items_range (place o v) = Done (Some r) /\ o <= fst r /\ fst r <= snd r.
Proof.
  intros Hne. unfold items_range. destruct (place o v) as [|f l] eqn:E; [destruct v; [contradiction|discriminate]|].
  rewrite <- E. destruct (last_opt (place o v)) as [b|] eqn:Hl.
  - assert (Ht : filter (fun _ => true) (place o v) = place o v).
    { clear. generalize (place o v). induction l; simpl; congruence. }
    destruct (place_first_last (fun _ => true) o v f b) as (A & B & C); [rewrite Ht, E; reflexivity | rewrite Ht; exact Hl|].
    unfold mk_range. rewrite (proj2 (Nat.leb_le _ _) B). eexists. split; [reflexivity|]. simpl. lia.
  - apply last_opt_none in Hl. congruence.
Qed.

(** The argument starts at its name, and its range ends no earlier than its name, nested argument and value. *)
Definition ranged (o : nat) (m : meta) : Prop :=
  exists n e, m_name m = MOk n /\ meta_range m = Done (lstart n, e) /\ o <= lstart n /\ lend n <= e.

Lemma ranged_intro o o3 ov n m v :
  m_name m = MOk n -> o <= lstart n -> lend n <= o3 -> lend n <= ov ->
  (forall q, m_eq m = Some q -> lend n <= lstart q) ->
  (forall x, m_nested m = Some x -> ranged o3 x) ->
  (m_value m = MNone \/ exists px, value_reads px (place ov v) (m_value m)) ->
  ranged o m.
Proof.
  destruct m as [nm eq vl nested st en]. cbn [m_name m_eq m_value m_nested].
  intros -> Ho H3 Hv Hq Hnest Hval.
  exists n. cbn [meta_range m_name m_eq m_value m_nested m_start m_end obind_o].
  assert (Hlen : lstart n <= lend n) by (unfold lstart, lend; lia).
  assert (HN : exists sr, match nested with Some n => match meta_range n with Done r => Done (Some r) | Panic => Panic end | None => Done None end = Done sr
             /\ match sr with Some r => o3 <= fst r /\ fst r <= snd r | None => True end).
  { destruct nested as [x|]; [|exists None; auto]. destruct (Hnest x eq_refl) as (n' & e' & _ & -> & A & B).
    exists (Some (lstart n', e')). unfold lend, lstart in *. simpl. split; [reflexivity|lia]. }
  destruct HN as (sr & -> & Hsr). cbn [obind_o].
  assert (HV : exists vr, match vl with MOk v => match value_range v with Done r => Done (Some r) | Panic => Panic end
               | MErr items => items_range items | MNone => Done None end = Done vr
             /\ match vr with Some r => ov <= fst r /\ fst r <= snd r | None => True end).
  { destruct Hval as [->|(px & Hval)]; [exists None; auto|]. destruct vl as [x|es|]; [| |exists None; auto].
    - destruct (value_range_place _ _ _ _ Hval) as (r & -> & A). exists (Some r). auto.
    - destruct Hval as (-> & Hne & _). destruct (items_range_place ov v) as (r & E & A).
      + intros ->. apply Hne. reflexivity.
      + exists (Some r). auto. }
  destruct HV as (vr & -> & Hvr). cbn [obind_o].
  destruct eq as [q|]; [specialize (Hq q eq_refl)|clear Hq]; destruct sr as [[s1 e1]|]; destruct vr as [[s2 e2]|]; simpl in Hsr, Hvr;
    cbn [upd fst snd oor mk_range]; unfold mk_range;
    match goal with |- exists e, _ /\ (if ?x <=? ?y then _ else _) = _ /\ _ =>
      exists y; assert (K : lend n <= y); [|rewrite (proj2 (Nat.leb_le x y) (Nat.le_trans _ _ _ Hlen K)); auto] end;
    unfold lstart, lend in *; lia.
Qed.

(** What each written part is. *)
Definition good_seg (px : expr_parser) (w : warg) (seg : list elem) : Prop :=
  seg <> [] /\ (forall e, In e seg -> kind_of e <> COMMA /\ plain_element e)
  /\ forall o last, is_arg w (parse_group px last (ann px (place o seg)))
                    /\ ranged o (parse_group px last (ann px (place o seg))).
Definition good_nested (px : expr_parser) (w : option warg) (np : list elem) : Prop :=
  match w with
  | None => np = []
  | Some w => exists cs, np = [Node TOKEN_TREE cs]
       /\ forall o, exists m, parse_meta_items px (Node TOKEN_TREE cs) o = [m] /\ is_arg w m /\ ranged o m
  end.
Definition good_value (v : option (list elem)) (vp : list elem) : Prop :=
  match v with
  | None => vp = []
  | Some v => vp = Tok EQ (lit "=") :: v /\ v <> [] /\ (forall e, In e v -> kind_of e <> COMMA /\ plain_element e)
  end.

Lemma name_reads_ok l m n : name_reads l m -> significant l = [n] -> name_token n -> m = MOk n.
Proof.
  destruct m as [x|es|]; simpl; intros H Hs Hn.
  - destruct H as [H _]. congruence.
  - destruct H as (_ & _ & H). exfalso. apply (H n Hs Hn).
  - congruence.
Qed.

(** The comma separated pieces of an argument list whose pieces are known. *)
Lemma parse_groups_app px s l : forall last ic cur,
  (forall c, In c s -> lkind (fst c) <> COMMA) -> s <> [] ->
  parse_groups px last ic cur (s ++ l) = parse_groups px last false (rev s ++ cur) l.
Proof.
  induction s as [|c s IH]; intros last ic cur H Hne; [contradiction|]. simpl.
  destruct (skind_eqb (lkind (fst c)) COMMA) eqn:E.
  - apply skind_eqb_eq in E. exfalso; apply (H c); [left; reflexivity | exact E].
  - destruct s as [|c' s].
    + simpl. reflexivity.
    + rewrite IH; [|intros x Hx; apply H; right; exact Hx|discriminate].
      simpl. rewrite <- !app_assoc. reflexivity.
Qed.

Lemma parse_groups_seg px s : forall last ic,
  (forall c, In c s -> lkind (fst c) <> COMMA) -> s <> [] ->
  parse_groups px last ic [] s = [parse_group px last s].
Proof.
  intros last ic H Hne. rewrite <- (app_nil_r s) at 1. rewrite parse_groups_app; [|exact H|exact Hne].
  rewrite app_nil_r. simpl. destruct (rev s) eqn:E.
  - exfalso; apply Hne. rewrite <- (rev_involutive s), E. reflexivity.
  - rewrite <- E, rev_involutive. reflexivity.
Qed.

Lemma parse_groups_seg_comma px s c l : forall last ic,
  (forall c, In c s -> lkind (fst c) <> COMMA) -> s <> [] -> lkind (fst c) = COMMA ->
  parse_groups px last ic [] (s ++ c :: l) = parse_group px last s :: parse_groups px (lend (fst c)) true [] l.
Proof.
  intros last ic H Hne Hc. rewrite parse_groups_app; [|exact H|exact Hne].
  rewrite app_nil_r. simpl. rewrite Hc, skind_eqb_refl. destruct (rev s) eqn:E.
  - exfalso; apply Hne. rewrite <- (rev_involutive s), E. reflexivity.
  - rewrite <- E, rev_involutive. reflexivity.
Qed.

Lemma ann_no_comma px o seg :
  (forall e, In e seg -> kind_of e <> COMMA /\ plain_element e) ->
  forall c, In c (ann px (place o seg)) -> lkind (fst c) <> COMMA.
Proof.
  intros H c Hc. unfold ann in Hc. apply in_map_iff in Hc. destruct Hc as (e & <- & He).
  simpl. apply place_In in He. apply (H _ He).
Qed.
Lemma ann_nonempty px o seg : seg <> [] -> ann px (place o seg) <> [].
Proof. destruct seg; [contradiction | discriminate]. Qed.
Lemma ann_place_app px o a b :
  ann px (place o (a ++ b)) = ann px (place o a) ++ ann px (place (o + bytes (texts_of a)) b).
Proof. rewrite place_app. apply map_app. Qed.

Lemma paren_region body :
  Forall plain_element body ->
  region (Tok L_PAREN (lit "(") :: body ++ [Tok R_PAREN (lit ")")]) body.
Proof. intros H. apply region_open, re_close, H. Qed.

Lemma good_paren px w seg c :
  good_seg px w seg -> (c = [] \/ exists t, c = [Tok COMMA t]) ->
  forall k o, exists m, parse_meta_items px (Node k (Tok L_PAREN (lit "(") :: seg ++ c ++ [Tok R_PAREN (lit ")")])) o = [m]
                      /\ is_arg w m /\ ranged o m.
Proof.
  intros (Hne & Hpl & Hg) Hc k o.
  assert (Hp : Forall plain_element (seg ++ c)).
  { apply Forall_app; split.
    - apply Forall_forall; intros e He; apply Hpl, He.
    - destruct Hc as [->|(t & ->)]; [constructor|]. constructor; [|constructor].
      split; [discriminate | intros (cs & l & t' & E & _); discriminate]. }
  rewrite app_assoc. destruct (parse_region px k _ _ o (paren_region _ Hp)) as [start ->].
  assert (Ho' : o <= region_start o (Tok L_PAREN (lit "(") :: (seg ++ c) ++ [Tok R_PAREN (lit ")")])) by (simpl; lia).
  revert Ho'. generalize (region_start o (Tok L_PAREN (lit "(") :: (seg ++ c) ++ [Tok R_PAREN (lit ")")])). intros o' Ho'.
  rewrite ann_place_app.
  exists (parse_group px start (ann px (place o' seg))). split; [|destruct (Hg o' start) as [G1 (n & e & G2 & G3 & G4 & G5)];
    split; [exact G1|]; exists n, e; repeat split; try assumption; lia].
  destruct Hc as [->|(t & ->)].
  - simpl. rewrite app_nil_r. apply parse_groups_seg; [apply ann_no_comma, Hpl | apply ann_nonempty, Hne].
  - simpl. rewrite parse_groups_seg_comma; [reflexivity|apply ann_no_comma, Hpl|apply ann_nonempty, Hne|reflexivity].
Qed.

Lemma writes_good px w seg : writes w seg -> good_seg px w seg.
Proof.
  apply (writes_mut (good_seg px) (good_nested px) good_value).
  - (* an argument *)
    intros name nested value t1 nk t2 np t3 vp Ht1 Ht2 Ht3 Hnk _ Hnp _ Hvp.
    assert (Hnpk : forall e, In e np -> kind_of e <> COMMA /\ plain_element e).
    { destruct nested as [w'|]; simpl in Hnp; [|subst np; intros e []].
      destruct Hnp as (cs & -> & _). intros e [<-|[]]. split; [discriminate|].
      split; [discriminate | intros (cs' & l & t & E & _); discriminate]. }
    assert (Hvk : forall e, In e vp -> kind_of e <> COMMA /\ plain_element e).
    { destruct value as [v|]; simpl in Hvp; [|subst vp; intros e []].
      destruct Hvp as (-> & _ & Hv). intros e [<-|He]; [|apply Hv, He]. split; [discriminate|].
      split; [discriminate | intros (cs' & l & t & E & _); discriminate]. }
    split; [destruct t1; discriminate|]. split.
    + intros e He. apply in_app_iff in He. destruct He as [He|[<-|He]]; [eapply trivia_plain; [exact Ht1|exact He] | |].
      * split; [destruct Hnk; subst; discriminate|].
        split; [destruct Hnk; subst; discriminate | intros (cs' & l & t & E & _); discriminate].
      * rewrite !in_app_iff in He. destruct He as [He|[He|[He|He]]].
        -- eapply trivia_plain; [exact Ht2|exact He].
        -- apply Hnpk, He.
        -- eapply trivia_plain; [exact Ht3|exact He].
        -- apply Hvk, He.
    + intros o last.
      set (A := t1 ++ Tok nk name :: t2 ++ np ++ t3).
      assert (EA : t1 ++ Tok nk name :: t2 ++ np ++ t3 ++ vp = A ++ vp).
      { unfold A. rewrite <- app_assoc. simpl. rewrite <- !app_assoc. reflexivity. }
      rewrite EA. clear EA.
      pose proof (parse_group_reads px last (place o (A ++ vp))) as (nm & eq & vl & Hs & Heq & Hv & Hn).
      rewrite place_app in Hs.
      assert (EP : exists o2 o3 o4, place o A = place o t1 ++ (o + bytes (texts_of t1), Tok nk name) :: place o2 t2
                     ++ place o3 np ++ place o4 t3 /\ o + bytes (texts_of t1) + bytes name <= o3
                     /\ o + bytes (texts_of t1) + bytes name <= o + bytes (texts_of A)).
      { unfold A. rewrite place_app. simpl. rewrite !place_app. do 3 eexists. split; [reflexivity|].
        unfold texts_of. rewrite flat_map_app, bytes_app. simpl. rewrite !flat_map_app, !bytes_app.
        unfold len_of; simpl. lia. }
      destruct EP as (o2 & o3 & o4 & EP & Ho3 & HoA).
      destruct (trivia_place_sig o t1 Ht1) as (S1 & T1 & W1 & K1).
      destruct (trivia_place_sig o2 t2 Ht2) as (S2 & T2 & W2 & K2).
      destruct (trivia_place_sig o4 t3 Ht3) as (S3 & T3 & W3 & K3).
      set (n := (o + bytes (texts_of t1), Tok nk name) : lelem) in *.
      assert (Hnt : name_token n) by (exists name; destruct Hnk; subst; [left|right]; reflexivity).
      assert (HnE : lkind n <> EQ) by (unfold n, lkind; simpl; destruct Hnk; subst; discriminate).
      assert (HnpE : forall e, In e (place o3 np) -> lkind e <> EQ).
      { intros e He. apply place_In in He. destruct nested as [w'|]; simpl in Hnp; [|subst np; destruct He].
        destruct Hnp as (cs & -> & _). destruct He as [He|[]]. unfold lkind. rewrite <- He. discriminate. }
      assert (HA : forall e, In e (place o A) -> lkind e <> EQ).
      { rewrite EP. intros e He. rewrite in_app_iff in He. destruct He as [He|[<-|He]]; [apply K1, He|exact HnE|].
        rewrite !in_app_iff in He. destruct He as [He|[He|He]]; [apply K2, He|apply HnpE, He|apply K3, He]. }
      assert (Hsplit : exists q, split_at_eq (place o A ++ place (o + bytes (texts_of A)) vp) (place o A)
                 (match value with Some _ => Some q | None => None end)
                 (match value with Some v => place (o + bytes (texts_of A) + 1) v | None => [] end)
                 /\ q = (o + bytes (texts_of A), Tok EQ (lit "="))).
      { destruct value as [v|]; simpl in Hvp.
        - destruct Hvp as (-> & _). exists (o + bytes (texts_of A), Tok EQ (lit "=")).
          split; [|reflexivity]. split; [|exact HA]. split; [|reflexivity]. reflexivity.
        - subst vp. simpl. rewrite app_nil_r. eexists. split; [|reflexivity]. split; [|exact HA]. split; reflexivity. }
      destruct Hsplit as (q & Hsplit & Hq).
      destruct (split_at_eq_unique _ _ _ _ _ _ _ Hs Hsplit) as (-> & -> & ->).
      assert (Hname : m_name (parse_group px last (ann px (place o (A ++ vp)))) = MOk n
               /\ is_nested nested (m_nested (parse_group px last (ann px (place o (A ++ vp)))))
               /\ forall x, m_nested (parse_group px last (ann px (place o (A ++ vp)))) = Some x -> ranged o3 x).
      { assert (HnT : without_trees [n] = [n]).
        { unfold without_trees, n, lkind; simpl. destruct Hnk; subst; reflexivity. }
        assert (HnT' : trees [n] = []) by reflexivity.
        assert (HnS : significant [n] = [n]).
        { unfold significant, n, lkind; simpl. destruct Hnk; subst; reflexivity. }
        revert Hn. rewrite EP. change (n :: place o2 t2 ++ place o3 np ++ place o4 t3) with ([n] ++ place o2 t2 ++ place o3 np ++ place o4 t3).
        rewrite !trees_app, !without_trees_app, T1, T2, T3, HnT', HnT, W1, W2, W3. simpl. rewrite app_nil_r.
        destruct nested as [w'|]; simpl in Hnp.
        - destruct Hnp as (cs & -> & Hitems). simpl.
          destruct (Hitems o3) as (m & Em & Hm & Hmr).
          intros [(t & n' & Et & Ei & En & Hr)|[(t & n' & Et & Ei & _)|(En & Hr & Hno)]].
          + injection Et as <-. simpl in Ei. rewrite Em in Ei. injection Ei as <-. split.
            * eapply name_reads_ok; [exact Hr| |exact Hnt].
              change (n :: place o2 t2 ++ place o4 t3) with ([n] ++ place o2 t2 ++ place o4 t3).
              rewrite !significant_app, S1, S2, S3, HnS. reflexivity.
            * rewrite En. split; [constructor; exact Hm|]. intros x Ex; injection Ex as <-; exact Hmr.
          + exfalso. injection Et as <-. simpl in Ei. rewrite Em in Ei. simpl in Ei. lia.
          + exfalso. apply (Hno _ eq_refl). simpl. rewrite Em. reflexivity.
        - subst np. simpl. intros [(t & n' & Et & _)|[(t & n' & Et & _)|(En & Hr & Hno)]]; [discriminate|discriminate|].
          split; [|split; [rewrite En; constructor | rewrite En; discriminate]].
          eapply name_reads_ok; [exact Hr| |exact Hnt].
          change (n :: place o2 t2 ++ place o4 t3) with ([n] ++ place o2 t2 ++ place o4 t3).
          rewrite !significant_app, S1, S2, S3, HnS. reflexivity. }
      destruct Hname as (Hname & Hnest & Hnr).
      split; [|apply (ranged_intro o o3 (o + bytes (texts_of A) + 1) n _ (match value with Some v => v | None => [] end));
        [exact Hname | unfold n, lstart; simpl; lia | unfold n, lend, len_of; simpl; lia | unfold n, lend, len_of; simpl; lia
        | intros q' Hq'; rewrite Heq in Hq'; destruct value; [|discriminate]; subst q; simpl in Hq'; injection Hq' as <-;
          unfold n, lend, lstart, len_of; simpl; lia
        | exact Hnr | right; exists px; destruct value; exact Hv]].
      econstructor; [exact Hname|reflexivity|exact Hnest| |].
      * intros ->. rewrite Heq. split; [reflexivity|]. destruct (m_value _); simpl in Hv.
        -- destruct Hv as (_ & Hv & _). contradiction.
        -- destruct Hv as (_ & Hv & _). contradiction.
        -- reflexivity.
      * intros v ->. rewrite Heq. subst q. simpl. split; [discriminate|].
        change (map snd (value_part (m_value (parse_group px last (ann px (place o (A ++ vp)))))) = v).
        rewrite (value_reads_content _ _ _ Hv). apply map_snd_place.
  - reflexivity.
  - intros w' seg' c _ Hg Hc. unfold good_nested. eexists. split; [reflexivity|]. exact (good_paren px w' seg' c Hg Hc TOKEN_TREE).
  - reflexivity.
  - intros v Hne Hv. simpl. auto.
Qed.

Lemma ranged_covers o m : ranged o m -> covers_name m.
Proof. intros (n & e & A & B & _ & C). exists n, e. auto. Qed.

Lemma writes_args_good px ws body : writes_args ws body ->
  Forall plain_element body /\
  forall o start ic, Forall2 (fun w m => is_arg w m /\ covers_name m) ws (parse_groups px start ic [] (ann px (place o body))).
Proof.
  induction 1 as [|w seg c Hw Hc|w seg t w' ws rest Hw _ IH].
  - split; [constructor|]. intros; constructor.
  - destruct (writes_good px _ _ Hw) as (Hne & Hpl & Hg). split.
    + apply Forall_app; split.
      * apply Forall_forall; intros e He; apply Hpl, He.
      * destruct Hc as [->|(t & ->)]; [constructor|]. constructor; [|constructor].
        split; [discriminate | intros (cs & l & t' & E & _); discriminate].
    + intros o start ic. rewrite ann_place_app. destruct Hc as [->|(t & ->)].
      * simpl. rewrite app_nil_r, parse_groups_seg; [|apply ann_no_comma, Hpl | apply ann_nonempty, Hne].
        constructor; [split; [apply (Hg _ _) | eapply ranged_covers, (Hg _ _)] | constructor].
      * simpl. rewrite parse_groups_seg_comma; [|apply ann_no_comma, Hpl|apply ann_nonempty, Hne|reflexivity].
        constructor; [split; [apply (Hg _ _) | eapply ranged_covers, (Hg _ _)] | constructor].
  - destruct (writes_good px _ _ Hw) as (Hne & Hpl & Hg). destruct IH as [IHp IH]. split.
    + apply Forall_app; split.
      * apply Forall_forall; intros e He; apply Hpl, He.
      * constructor; [|exact IHp]. split; [discriminate | intros (cs & l & t' & E & _); discriminate].
    + intros o start ic. rewrite ann_place_app. simpl.
      rewrite parse_groups_seg_comma; [|apply ann_no_comma, Hpl|apply ann_nonempty, Hne|reflexivity].
      constructor; [split; [apply (Hg _ _) | eapply ranged_covers, (Hg _ _)] | apply IH].
Qed.

Lemma parse_written px ws body o k : writes_args ws body ->
  Forall2 (fun w m => is_arg w m /\ covers_name m) ws (parse_meta_items px (Node k (Tok L_PAREN (lit "(") :: body ++ [Tok R_PAREN (lit ")")])) o).
Proof.
  intros H. destruct (writes_args_good px _ _ H) as [Hp Hg].
  destruct (parse_region px k _ _ o (paren_region _ Hp)) as [start ->]. apply Hg.
Qed.

(** ** C23: integer literals *)
Lemma digit_spec radix c d : (radix <= 16)%N -> digit radix c = Some d <-> digit_char radix c d.
Proof.
  intros Hr. unfold digit, digit_char.
  destruct ((48 <=? c)%N && (c <=? 57)%N) eqn:E1;
  [|destruct ((97 <=? c)%N && (c <=? 122)%N) eqn:E2; [|destruct ((65 <=? c)%N && (c <=? 90)%N) eqn:E3]];
  rewrite ?andb_true_iff, ?andb_false_iff, ?N.leb_le, ?N.leb_gt in *;
  try (match goal with |- (if ?b then _ else _) = _ <-> _ => destruct b eqn:E end);
  rewrite ?N.ltb_lt, ?N.ltb_ge in *;
  (split; [intros H; try discriminate; injection H as <-; lia | intros H; try (f_equal; lia); lia]).
Qed.
Lemma digits_value_snoc radix s c : forall acc,
  digits_value radix acc (s ++ [c])
  = match digits_value radix acc s with
    | Some n => match digit radix c with Some d => Some (n * radix + d)%N | None => None end
    | None => None
    end.
Proof.
  induction s as [|x s IH]; intros acc; simpl.
  - reflexivity.
  - destruct (digit radix x); [apply IH | reflexivity].
Qed.
Lemma digits_value_sound radix s : (radix <= 16)%N -> forall n,
  s <> [] -> digits_value radix 0 s = Some n -> radix_digits radix s n.
Proof.
  intros Hr. induction s as [|c s IH] using rev_ind; intros n Hne H; [contradiction|].
  rewrite digits_value_snoc in H. destruct (digits_value radix 0 s) as [m|] eqn:E; [|discriminate].
  destruct (digit radix c) as [d|] eqn:Ed; [|discriminate]. injection H as <-.
  apply digit_spec in Ed; [|exact Hr].
  destruct s as [|x s].
  - simpl in E. injection E as <-. simpl. constructor. exact Ed.
  - apply rd_digit; [apply IH; [discriminate|reflexivity] | exact Ed].
Qed.
Lemma radix_digits_nonempty radix s n : radix_digits radix s n -> s <> [].
Proof. induction 1; try discriminate; destruct s; discriminate. Qed.
Lemma digits_value_complete radix s n : (radix <= 16)%N ->
  radix_digits radix s n -> ~ In c_underscore s -> digits_value radix 0 s = Some n.
Proof.
  intros Hr. induction 1 as [c d Hd|s n c d Hs IH Hd|s n Hs IH|s n Hs IH]; intros Hu.
  - simpl. apply digit_spec in Hd; [|exact Hr]. rewrite Hd. f_equal; lia.
  - rewrite digits_value_snoc, IH, (proj2 (digit_spec _ _ _ Hr) Hd); [reflexivity|].
    intros H; apply Hu, in_app_iff; left; exact H.
  - exfalso; apply Hu, in_app_iff; right; left; reflexivity.
  - exfalso; apply Hu; left; reflexivity.
Qed.

Lemma parse_int_sound max radix s n : (radix <= 16)%N ->
  parse_int max radix s = Some n -> radix_digits radix s n /\ (n <= max)%N.
Proof.
  intros Hr. unfold parse_int. destruct s as [|c s]; [discriminate|].
  destruct (digits_value radix 0 (c :: s)) as [m|] eqn:E; [|discriminate].
  destruct (m <=? max)%N eqn:El; [|discriminate]. intros H; injection H as <-.
  split; [apply digits_value_sound; [exact Hr|discriminate|exact E] | apply N.leb_le, El].
Qed.
Lemma parse_int_complete max radix s n : (radix <= 16)%N ->
  radix_digits radix s n -> ~ In c_underscore s -> parse_int max radix s = if (n <=? max)%N then Some n else None.
Proof.
  intros Hr Hs Hu. pose proof (digits_value_complete _ _ _ Hr Hs Hu) as H.
  pose proof (radix_digits_nonempty _ _ _ Hs) as Hne.
  unfold parse_int. destruct s; [contradiction|]. rewrite H. reflexivity.
Qed.

Lemma int_of_text_sound max s n : int_of_text max s = Some n -> denotes s n /\ (n <= max)%N.
Proof.
  unfold int_of_text. destruct (strip_prefix (lit "0x") s) as [h|] eqn:E; intros H;
    apply parse_int_sound in H; try lia; destruct H as [H1 H2]; split; try exact H2.
  - apply strip_prefix_some in E. rewrite E. rewrite <- (app_nil_r h). apply den_hex; [exact H1|left; reflexivity].
  - rewrite <- (app_nil_r s). apply den_dec; [exact H1|left; reflexivity].
Qed.
Lemma radix_digits_10_no_x s n : radix_digits 10 s n -> ~ In (120%N) s.
Proof.
  induction 1 as [c d Hd|s n c d Hs IH Hd|s n Hs IH|s n Hs IH Hr]; try (intros Hin; apply in_app_iff in Hin; destruct Hin as [Hin|[Hin|[]]]; [tauto|]).
  - intros [H|[]]. unfold digit_char in Hd. subst. lia.
  - unfold digit_char in Hd. subst. lia.
  - discriminate.
  - exfalso; apply Hr; reflexivity.
Qed.
Lemma int_of_text_dec max s n : radix_digits 10 s n -> ~ In c_underscore s ->
  int_of_text max s = if (n <=? max)%N then Some n else None.
Proof.
  intros Hs Hu. unfold int_of_text.
  destruct (strip_prefix (lit "0x") s) as [h|] eqn:E.
  - apply strip_prefix_some in E. exfalso. apply (radix_digits_10_no_x _ _ Hs). rewrite E. right; left; reflexivity.
  - apply parse_int_complete; [lia|exact Hs|exact Hu].
Qed.
Lemma int_of_text_hex max s n : radix_digits 16 s n -> ~ In c_underscore s ->
  int_of_text max (lit "0x" ++ s) = if (n <=? max)%N then Some n else None.
Proof.
  intros Hs Hu. unfold int_of_text. change (strip_prefix (lit "0x") (lit "0x" ++ s)) with (Some s).
  apply parse_int_complete; [lia|exact Hs|exact Hu].
Qed.

(** A reader of all literals, to show that [denotes] is a function. *)
Fixpoint read_digits (radix acc : N) (s : str) : N :=
  match s with
  | [] => acc
  | c :: s' => if N.eqb c c_underscore then read_digits radix acc s'
               else match digit radix c with Some d => read_digits radix (acc * radix + d) s' | None => acc end
  end.
Lemma digit_underscore radix : digit radix c_underscore = None.
Proof. reflexivity. Qed.
Lemma digit_char_not_under radix c d : digit_char radix c d -> N.eqb c c_underscore = false.
Proof. intros H. apply N.eqb_neq. intros ->. unfold digit_char, c_underscore in H. lia. Qed.
Definition not_under (c : char) : bool := negb (N.eqb c c_underscore).
Lemma not_under_digit radix c d : digit_char radix c d -> not_under c = true.
Proof. intros H. unfold not_under. rewrite (digit_char_not_under _ _ _ H). reflexivity. Qed.
Lemma filter_snoc {A} (f : A -> bool) l x : filter f (l ++ [x]) = filter f l ++ if f x then [x] else [].
Proof. rewrite filter_app. simpl. destruct (f x); reflexivity. Qed.
Lemma radix_digits_chars radix s n : (radix <= 16)%N -> radix_digits radix s n ->
  forall acc r, read_digits radix acc (s ++ r) = read_digits radix (acc * radix ^ N.of_nat (length (filter not_under s)) + n) r.
Proof.
  intros Hr. induction 1 as [c d Hd|s n c d Hs IH Hd|s n Hs IH|s n Hs IH _]; intros acc r.
  - cbn [app read_digits]. rewrite (digit_char_not_under _ _ _ Hd), (proj2 (digit_spec _ _ _ Hr) Hd).
    cbn [filter]. rewrite (not_under_digit _ _ _ Hd). cbn [length]. change (N.of_nat 1) with 1%N. rewrite N.pow_1_r. reflexivity.
  - rewrite <- app_assoc, IH. cbn [app read_digits]. rewrite (digit_char_not_under _ _ _ Hd), (proj2 (digit_spec _ _ _ Hr) Hd).
    f_equal. rewrite filter_snoc, (not_under_digit _ _ _ Hd), app_length. cbn [length].
    rewrite Nat2N.inj_add, N.pow_add_r. change (N.of_nat 1) with 1%N. rewrite N.pow_1_r, N.mul_add_distr_r, N.mul_assoc. lia.
  - rewrite <- app_assoc, IH. cbn [app read_digits]. rewrite N.eqb_refl. f_equal.
    rewrite filter_snoc. change (not_under c_underscore) with false. cbv iota. rewrite app_nil_r. reflexivity.
  - cbn [app read_digits]. rewrite N.eqb_refl. rewrite IH. reflexivity.
Qed.
Lemma read_suffix radix acc suf : (radix <= 16)%N -> In suf int_suffixes -> read_digits radix acc suf = acc.
Proof.
  intros Hr H. unfold int_suffixes in H.
  assert (Hd : forall c, (c = 117 \/ c = 105)%N -> digit radix c = None).
  { intros c Hc. destruct (digit radix c) eqn:E; [|reflexivity]. apply digit_spec in E; [|exact Hr].
    unfold digit_char in E. lia. }
  repeat destruct H as [<-|H]; try destruct H; try reflexivity;
    match goal with |- read_digits _ _ (lit ?x) = _ => let v := eval vm_compute in (lit x) in change (lit x) with v end;
    cbn [read_digits]; first [rewrite (Hd 117%N) by auto | rewrite (Hd 105%N) by auto]; reflexivity.
Qed.
Definition read_literal (s : str) : N :=
  match strip_prefix (lit "0x") s with
  | Some h => read_digits 16 0 h
  | None =>
      match strip_prefix (lit "0o") s with
      | Some h => read_digits 8 0 h
      | None => match strip_prefix (lit "0b") s with Some h => read_digits 2 0 h | None => read_digits 10 0 s end
      end
  end.
Lemma dec_no_prefix s suf n p c : radix_digits 10 s n -> In suf int_suffixes ->
  p = lit "0" ++ [c] -> (c = 120 \/ c = 111 \/ c = 98)%N -> strip_prefix p (s ++ suf) = None.
Proof.
  intros Hs Hsuf -> Hc. destruct (strip_prefix _ _) as [h|] eqn:E; [|reflexivity].
  apply strip_prefix_some in E. exfalso.
  pose proof (radix_digits_nonempty _ _ _ Hs) as Hne.
  destruct s as [|a s]; [contradiction|]. simpl in E. injection E as Ea E.
  destruct s as [|b s].
  - unfold int_suffixes in Hsuf. simpl in E.
    repeat destruct Hsuf as [<-|Hsuf]; try destruct Hsuf; simpl in E; try discriminate E; injection E as E _; lia.
  - simpl in E. injection E as Eb _. subst b.
    assert (Hall : forall x, In x (a :: c :: s) -> x = c_underscore \/ (48 <= x <= 57)%N).
    { revert Hs. generalize (a :: c :: s) as l. clear. intros l H.
      induction H as [c d Hd|s n c d Hs IH Hd|s n Hs IH|s n Hs IH Hr]; intros x Hx.
      - destruct Hx as [<-|[]]. unfold digit_char in Hd. right; lia.
      - apply in_app_iff in Hx. destruct Hx as [Hx|[<-|[]]]; [apply IH, Hx|]. unfold digit_char in Hd. right; lia.
      - apply in_app_iff in Hx. destruct Hx as [Hx|[<-|[]]]; [apply IH, Hx|]. left; reflexivity.
      - exfalso; apply Hr; reflexivity. }
    destruct (Hall c) as [H|H]; [right; left; reflexivity| |]; unfold c_underscore in H; lia.
Qed.
Lemma denotes_read s n : denotes s n -> read_literal s = n.
Proof.
  intros H. destruct H as [s suf n Hs Hsuf|s suf n Hs Hsuf|s suf n Hs Hsuf|s suf n Hs Hsuf]; unfold read_literal.
  - rewrite (dec_no_prefix _ _ _ (lit "0x") 120%N Hs Hsuf), (dec_no_prefix _ _ _ (lit "0o") 111%N Hs Hsuf),
      (dec_no_prefix _ _ _ (lit "0b") 98%N Hs Hsuf); auto.
    rewrite (radix_digits_chars 10 _ _ ltac:(lia) Hs), read_suffix by (lia || exact Hsuf). lia.
  - replace (strip_prefix (lit "0x") (lit "0x" ++ s ++ suf)) with (Some (s ++ suf)) by reflexivity.
    rewrite (radix_digits_chars 16 _ _ ltac:(lia) Hs), read_suffix by (lia || exact Hsuf). lia.
  - replace (strip_prefix (lit "0x") (lit "0o" ++ s ++ suf)) with (@None str) by reflexivity.
    replace (strip_prefix (lit "0o") (lit "0o" ++ s ++ suf)) with (Some (s ++ suf)) by reflexivity.
    rewrite (radix_digits_chars 8 _ _ ltac:(lia) Hs), read_suffix by (lia || exact Hsuf). lia.
  - replace (strip_prefix (lit "0x") (lit "0b" ++ s ++ suf)) with (@None str) by reflexivity.
    replace (strip_prefix (lit "0o") (lit "0b" ++ s ++ suf)) with (@None str) by reflexivity.
    replace (strip_prefix (lit "0b") (lit "0b" ++ s ++ suf)) with (Some (s ++ suf)) by reflexivity.
    rewrite (radix_digits_chars 2 _ _ ltac:(lia) Hs), read_suffix by (lia || exact Hsuf). lia.
Qed.

(** ** C63: string literals *)
Lemma string_of_plain s : plain_string s -> string_of_text (lit """" ++ s ++ lit """") = s.
Proof.
  intros [Hq _]. unfold string_of_text.
  assert (E : skip_while is_quote (lit """" ++ s ++ lit """") = skip_while is_quote (s ++ lit """")) by reflexivity.
  rewrite E. clear E.
  assert (Hskip : s <> [] -> skip_while is_quote (s ++ lit """") = s ++ lit """").
  { destruct s as [|c s]; [contradiction|]. intros _. simpl. unfold is_quote at 1.
    destruct (N.eqb c c_quote) eqn:E; [|reflexivity]. apply N.eqb_eq in E. exfalso; apply Hq; left; exact E. }
  destruct s as [|c s]; [reflexivity|]. rewrite Hskip by discriminate.
  revert Hq. generalize (c :: s) as l. clear. induction l as [|c l IH]; intros Hq; simpl; [reflexivity|].
  unfold is_quote at 1. destruct (N.eqb c c_quote) eqn:E; simpl.
  - apply N.eqb_eq in E. exfalso; apply Hq; left; exact E.
  - f_equal. apply IH. intros H; apply Hq; right; exact H.
Qed.
