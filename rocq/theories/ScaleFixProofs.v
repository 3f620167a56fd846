From Coq Require Import Lia.
From Verif Require Import Base BaseFacts Unicode PositionModel PositionProofs TranslateModel SyntaxModel AttrModel AttrSpec AttrProofs EditModel EditSpec VersionModel
  UtilModel ArgEditModel ArgEditSpec ArgEditProofs FlattenModel MigrateModel MigrateSpec MigrateProofs ScaleFixModel ScaleFixSpec.

(** ** Names *)
Lemma lists_names_exists s : exists ns, lists_names s ns.
Proof.
  exists (filter nonempty_str (map squeeze (split_char c_comma s))), (split_char c_comma s). split; [apply split_char_nonempty|]. split; [|split; [|reflexivity]].
  - induction s as [|c s IH]; [reflexivity|]. cbn [split_char]. destruct (N.eqb_spec c c_comma) as [->|Hc].
    + pose proof (split_char_nonempty c_comma s) as Hn. destruct (split_char c_comma s) as [|p ps]; [contradiction|].
      change (comma_list ([] :: p :: ps)) with (lit "," ++ comma_list (p :: ps)). rewrite <- IH. reflexivity.
    + pose proof (split_char_nonempty c_comma s) as Hn. destruct (split_char c_comma s) as [|p ps]; [contradiction|].
      destruct ps as [|q ps]; cbn [comma_list] in *; rewrite IH; reflexivity.
  - intros p Hp. apply (split_char_free _ _ _ Hp).
Qed.
Lemma names_found named s ns k : names_by_text named -> lists_names s ns ->
  existsb (fun n => named n k) (meta_names s) = true <-> exists n, In n ns /\ named n k = true.
Proof.
  intros [H1 H2] Hl. set (scale := fun n => if named n k then Some k else None).
  assert (Hb : by_name scale) by (split; unfold scale; [intros x; rewrite <- H1; reflexivity|rewrite H2; reflexivity]).
  destruct (names_pieces scale s ns Hb Hl) as (E & _). cbv zeta in E. unfold unspaced in E. fold (meta_names s) in E.
  assert (Hf : forall l, (exists n, In n l /\ named n k = true) <-> filter_map scale l <> []).
  { intros l. split.
    - intros (n & Hn & En) C. assert (Hi : In k (filter_map scale l)) by (apply filter_map_In; exists n; split; [exact Hn|unfold scale; rewrite En; reflexivity]).
      rewrite C in Hi. exact Hi.
    - intros H. destruct (filter_map scale l) as [|y ys] eqn:Ey; [contradiction|]. assert (Hi : In y (filter_map scale l)) by (rewrite Ey; left; reflexivity).
      apply filter_map_In in Hi as (n & Hn & En). exists n. split; [exact Hn|]. unfold scale in En. destruct (named n k); [reflexivity|discriminate]. }
  rewrite existsb_exists. rewrite (Hf (meta_names s)), (Hf ns), E. reflexivity.
Qed.

(** ** [derive] in [cfg_attr] *)
Lemma derive_children_iff l : Forall balanced l -> forall o prev d, In d (map snd (derive_children prev (place o l))) <->
  exists cs, d = Node TOKEN_TREE cs /\
    ((exists a k bl b, l = a ++ Tok k (lit "derive") :: bl ++ d :: b /\ is_trivia k = false /\ blank bl)
     \/ (exists t bl b, prev = Some t /\ snd (snd t) = lit "derive" /\ l = bl ++ d :: b /\ blank bl)).
Proof.
  intros Hb. induction Hb as [|e l He Hb IH]; intros o prev d; cbn [place derive_children map].
  - split; [intros []|]. intros (cs & -> & [(a & k & bl & b & E & _)|(t & bl & b & _ & _ & E & _)]); [destruct a; discriminate|destruct bl; discriminate].
  - (* what the tail gives *)
    assert (Hgo : In d (map snd (derive_children (oor (last_solid (o, e)) prev) (place (o + len_of e) l))) <->
      exists cs, d = Node TOKEN_TREE cs /\
        ((exists a k bl b, e :: l = a ++ Tok k (lit "derive") :: bl ++ d :: b /\ is_trivia k = false /\ blank bl)
         \/ (exists t bl b, prev = Some t /\ snd (snd t) = lit "derive" /\ e :: l = (e :: bl) ++ d :: b /\ blank (e :: bl)))).
    { rewrite IH. split.
      - intros (cs & Ed & H). exists cs. split; [exact Ed|]. destruct H as [(a & k & bl & b & -> & Hk & Hbl)|(t & bl & b & Et & Hd & -> & Hbl)].
        + left. exists (e :: a), k, bl, b. auto.
        + destruct He as [k x H1 H2 H3 H4|op cs' cl Hf Hdl].
          * destruct (is_trivia k) eqn:Ek.
            -- rewrite solid_blank in Et by exact Ek. cbn [oor] in Et. right. exists t, bl, b. repeat (split; [assumption || reflexivity|]).
               apply Forall_cons; [|exact Hbl]. exists k, x. auto.
            -- rewrite solid_tok in Et by exact Ek. injection Et as <-. cbn in Hd. subst x. left. exists [], k, bl, b. auto.
          * destruct (solid_tree o op cs' cl Hdl) as (q & k & x & E & Hx). rewrite E in Et. injection Et as <-. cbn in Hd. contradiction.
      - intros (cs & Ed & H). exists cs. split; [exact Ed|]. destruct H as [(a & k & bl & b & E & Hk & Hbl)|(t & bl & b & Et & Hd & E & Hbl)].
        + destruct a as [|e' a]; cbn [app] in E; injection E as -> E.
          * right. rewrite solid_tok by exact Hk. exists (o, (k, lit "derive")), bl, b. auto.
          * left. exists a, k, bl, b. auto.
        + right. cbn [app] in E. injection E as E. inversion Hbl as [|? ? (k & x & -> & Hk & _) Hbl']; subst.
          rewrite solid_blank by exact Hk. exists t, bl, b. auto. }
    assert (Hskip : forall (Hno : forall cs t, e = Node TOKEN_TREE cs -> prev = Some t -> snd (snd t) <> lit "derive"),
      In d (map snd (derive_children (oor (last_solid (o, e)) prev) (place (o + len_of e) l))) <->
      exists cs, d = Node TOKEN_TREE cs /\
        ((exists a k bl b, e :: l = a ++ Tok k (lit "derive") :: bl ++ d :: b /\ is_trivia k = false /\ blank bl)
         \/ (exists t bl b, prev = Some t /\ snd (snd t) = lit "derive" /\ e :: l = bl ++ d :: b /\ blank bl))).
    { intros Hno. rewrite Hgo. split; intros (cs & Ed & H); exists cs; (split; [exact Ed|]); (destruct H as [H|(t & bl & b & Et & Hd & E & Hbl)]; [left; exact H|]).
      - right. exists t, (e :: bl), b. auto.
      - destruct bl as [|e' bl]; cbn [app] in E; injection E as E1 E2.
        + exfalso. rewrite Ed in E1. exact (Hno cs t E1 Et Hd).
        + right. subst e'. exists t, bl, b. subst l. auto. }
    destruct e as [k t|k cs]; [apply Hskip; intros; discriminate|].
    destruct k; try (apply Hskip; intros; discriminate).
    destruct prev as [t|]; [|apply Hskip; intros; discriminate].
    destruct (str_eqb (snd (snd t)) (lit "derive")) eqn:Et; cbn [snd map].
    + apply str_eqb_eq in Et. cbn [In]. rewrite Hgo. split.
      * intros [<-|(cs' & Ed & H)].
        -- exists cs. split; [reflexivity|]. right. exists t, [], l. repeat (split; [assumption || reflexivity|]). constructor.
        -- exists cs'. split; [exact Ed|]. destruct H as [H|(t' & bl & b & E1 & E2 & E3 & E4)]; [left; exact H|]. exfalso.
           inversion E4 as [|? ? (? & ? & C & _) _]; discriminate.
      * intros (cs' & Ed & [H|(t' & bl & b & E1 & E2 & E3 & E4)]); [right; exists cs'; auto|].
        destruct bl as [|e' bl]; cbn [app] in E3; injection E3 as E3 E5; subst; [left; exact E3|]. exfalso. inversion E4 as [|? ? (? & ? & C & _) _]; discriminate.
    + apply Hskip. intros cs' t' _ E C. injection E as <-. rewrite C in Et. discriminate.
Qed.
Lemma find_only {A} (p : A -> bool) l x : at_most_one p l -> In x l -> p x = true -> find p l = Some x.
Proof.
  intros H Hin Hp. induction l as [|y l IH]; [destruct Hin|]. unfold at_most_one in H. cbn [filter find] in *. destruct (p y) eqn:E.
  - destruct Hin as [->|Hin]; [reflexivity|]. cbn [length] in H. assert (Hx : In x (filter p l)) by (apply filter_In; auto).
    destruct (filter p l); [destruct Hx|cbn [length] in H; lia].
  - destruct Hin as [->|Hin]; [congruence|]. apply IH; assumption.
Qed.
Lemma find_map_only {A B} (f : A -> option B) (p : A -> bool) l x y : at_most_one p l -> (forall z, f z <> None -> p z = true) ->
  In x l -> f x = Some y -> find_map f l = Some y.
Proof.
  intros H Hf Hin Hp. induction l as [|z l IH]; [destruct Hin|]. unfold at_most_one in H. cbn [filter find_map] in *. destruct (f z) as [w|] eqn:E.
  - destruct Hin as [->|Hin]; [congruence|]. rewrite (Hf z) in H by congruence. cbn [length] in H.
    assert (Hx : In x (filter p l)) by (apply filter_In; split; [exact Hin|apply Hf; congruence]).
    destruct (filter p l); [destruct Hx|cbn [length] in H; lia].
  - destruct Hin as [->|Hin]; [congruence|]. apply IH; [|exact Hin]. destruct (p z); [cbn [length] in H; unfold at_most_one; lia|exact H].
Qed.
Lemma find_map_in {A B} (f : A -> option B) l y : find_map f l = Some y -> exists x, In x l /\ f x = Some y.
Proof.
  induction l as [|z l IH]; [discriminate|]. cbn [find_map]. destruct (f z) as [w|] eqn:E.
  - intros C. injection C as <-. exists z. split; [left; reflexivity|exact E].
  - intros C. destruct (IH C) as (x & Hx & Ex). exists x. split; [right; exact Hx|exact Ex].
Qed.
Lemma path_is_iff s x : attr_path_is s x = true <-> ia_path x = Some s.
Proof.
  unfold attr_path_is. destruct (ia_path x) as [p|]; [|split; discriminate]. rewrite str_eqb_eq. split; [intros ->; reflexivity|intros C; injection C as ->; reflexivity].
Qed.

(** ** The derived names *)
Lemma derive_children_last k t q l : forall prev, derive_children prev (l ++ [(q, Tok k t)]) = derive_children prev l.
Proof.
  induction l as [|e l IH]; intros prev; [reflexivity|]. cbn [app derive_children]. rewrite IH. reflexivity.
Qed.
Lemma cfg_children o body d : Forall balanced body ->
  In d (map snd (derive_children None (children_at (o, paren_tree body)))) <->
  exists cs l k bl r, d = Node TOKEN_TREE cs /\ body = l ++ Tok k (lit "derive") :: bl ++ d :: r /\ is_trivia k = false /\ blank bl.
Proof.
  intros Hb. rewrite children_paren. cbn [derive_children snd]. rewrite derive_children_last.
  rewrite derive_children_iff by exact Hb. split.
  - intros (cs & Ed & [(a & k & bl & b & E & Hk & Hbl)|(t & bl & b & Et & Hd & E & _)]).
    + exists cs, a, k, bl, b. auto.
    + change (last_solid (o, Tok L_PAREN (lit "("))) with (Some (o, (L_PAREN, lit "("))) in Et. injection Et as <-. discriminate.
  - intros (cs & l & k & bl & r & Ed & E & Hk & Hbl). exists cs. split; [exact Ed|]. left. exists l, k, bl, r. auto.
Qed.
Lemma sub_balanced body l x r : Forall balanced body -> body = l ++ x :: r -> balanced x.
Proof. intros H ->. rewrite Forall_app in H. destruct H as [_ H]. inversion H; assumption. Qed.
Lemma paren_inner b : balanced (paren_tree b) -> Forall balanced b.
Proof.
  intros H. unfold paren_tree in H. inversion H. subst. match goal with E : _ ++ [_] = _ ++ [_] |- _ => apply app_inj_tail in E as [E _]; subst end. assumption.
Qed.
Lemma meta_balanced o body : Forall balanced body -> meta_string (o, paren_tree body) = texts_of body.
Proof. intros H. apply meta_paren; [apply balanced_no_parens; exact H|intros e He; apply (balanced_pos body H e He)]. Qed.

Lemma list_balanced a x body : plain_item a -> In x (ad_attrs a) -> derive_list x body -> Forall balanced body.
Proof.
  intros Hp Hx [o b Epath Et|o l k bl b r Epath Et Hk Hbl]; destruct (Hp x Hx _ Et) as (o' & b' & E & Hb & _).
  - injection E as <- E. apply app_inj_tail in E as [-> _]. exact Hb.
  - injection E as <- E. apply app_inj_tail in E as [E _]. subst b'. apply paren_inner.
    apply (sub_balanced _ (l ++ Tok k (lit "derive") :: bl) _ r Hb). rewrite <- !app_assoc. reflexivity.
Qed.

Definition cfg_tree (x : item_attr) : option lelem := if attr_path_is (lit "cfg_attr") x then ia_tree x else None.

Lemma derived_sound a k : plain_item a -> names_by_text (ad_named a) ->
  existsb (fun n => ad_named a n k) (derived_names a) = true -> exists n, derives_name a n /\ ad_named a n k = true.
Proof.
  intros Hp Hn H. unfold derived_names in H. rewrite existsb_app, orb_true_iff in H. fold cfg_tree in H. destruct H as [H|H].
  - unfold derive_meta_of in H. destruct (derive_attr_of a) as [x|] eqn:Ex; [|discriminate]. cbn [obind] in H.
    destruct (ia_tree x) as [t|] eqn:Et; [|discriminate]. cbn [option_map] in H. unfold derive_attr_of in Ex. apply find_some in Ex as [Hx Px].
    destruct (Hp x Hx t Et) as (o & body & -> & Hb & _). rewrite meta_balanced in H by exact Hb.
    destruct (lists_names_exists (texts_of body)) as (ns & Hns). apply (names_found _ _ _ _ Hn Hns) in H as (n & Hin & En).
    exists n. split; [|exact En]. exists x, body, ns. repeat (split; [assumption|]). split; [|split; assumption]. apply (standalone x o body); [apply path_is_iff; exact Px|exact Et].
  - destruct (find_map cfg_tree (ad_attrs a)) as [t|] eqn:Em; [|discriminate]. apply find_map_in in Em as (x & Hx & Ex). unfold cfg_tree in Ex.
    destruct (attr_path_is (lit "cfg_attr") x) eqn:Px; [|discriminate]. destruct (Hp x Hx t Ex) as (o & body & -> & Hb & Hpar).
    apply existsb_exists in H as (m & Hm & En). apply in_flat_map in Hm as (d & Hd & Hm).
    assert (Hd' : In (snd d) (map snd (derive_children None (children_at (o, paren_tree body))))) by (apply in_map; exact Hd).
    apply cfg_children in Hd' as (cs & l & kk & bl & r & Ed & Eb & Hk & Hbl); [|exact Hb].
    destruct (Hpar l kk bl cs r) as (b & Ep); [rewrite <- Ed; exact Eb|exact Hbl|]. rewrite Ep in Ed.
    assert (Hbb : Forall balanced b).
    { apply paren_inner. rewrite <- Ed. apply (sub_balanced _ (l ++ Tok kk (lit "derive") :: bl) _ r Hb). rewrite Eb, <- !app_assoc. reflexivity. }
    destruct d as [q d]. cbn [snd] in Ed, Eb. subst d. rewrite meta_balanced in Hm by exact Hbb.
    destruct (lists_names_exists (texts_of b)) as (ns & Hns).
    assert (He : existsb (fun n => ad_named a n k) (meta_names (texts_of b)) = true) by (apply existsb_exists; exists m; auto).
    apply (names_found _ _ _ _ Hn Hns) in He as (n & Hin & En'). exists n. split; [|exact En'].
    exists x, b, ns. repeat (split; [assumption|]). split; [|split; assumption]. apply (conditional x o l kk bl b r); [apply path_is_iff; exact Px| |exact Hk|exact Hbl].
    rewrite Ex, Eb. reflexivity.
Qed.
Lemma derived_complete a k n : plain_item a -> names_by_text (ad_named a) ->
  at_most_one (attr_path_is (lit "derive")) (ad_attrs a) -> at_most_one (attr_path_is (lit "cfg_attr")) (ad_attrs a) ->
  derives_name a n -> ad_named a n k = true -> existsb (fun n => ad_named a n k) (derived_names a) = true.
Proof.
  intros Hp Hn H1 H2 (x & body & ns & Hx & Hd & Hns & Hin) En. pose proof (list_balanced a x body Hp Hx Hd) as Hb.
  assert (Hf : existsb (fun n => ad_named a n k) (meta_names (texts_of body)) = true) by (apply (names_found _ _ _ _ Hn Hns); exists n; auto).
  unfold derived_names. rewrite existsb_app, orb_true_iff. fold cfg_tree. destruct Hd as [o b Epath Et|o l kk bl b r Epath Et Hk Hbl].
  - left. unfold derive_meta_of, derive_attr_of. rewrite (find_only _ _ x H1 Hx) by (apply path_is_iff; exact Epath). cbn [obind]. rewrite Et. cbn [option_map].
    rewrite meta_balanced by exact Hb. exact Hf.
  - right. set (t := (o, paren_tree (l ++ Tok kk (lit "derive") :: bl ++ paren_tree b :: r))) in *.
    rewrite (find_map_only cfg_tree (attr_path_is (lit "cfg_attr")) _ x t H2); [|intros z Hz; unfold cfg_tree in Hz; destruct (attr_path_is _ z); [reflexivity|contradiction]|exact Hx|].
    2: { unfold cfg_tree. rewrite (proj2 (path_is_iff _ x) Epath). exact Et. }
    destruct (Hp x Hx _ Et) as (o' & b' & E & Hb' & _). unfold t in E. injection E as <- E. apply app_inj_tail in E as [E _]. subst b'.
    assert (Hd : In (paren_tree b) (map snd (derive_children None (children_at t)))).
    { apply cfg_children; [exact Hb'|]. eexists _, l, kk, bl, r. split; [reflexivity|]. auto. }
    apply in_map_iff in Hd as ([q d] & Ed & Hd). cbn [snd] in Ed. subst d. apply existsb_exists in Hf as (m & Hm & Em). apply existsb_exists. exists m. split; [|exact Em].
    apply in_flat_map. exists (q, paren_tree b). split; [exact Hd|]. rewrite meta_balanced by exact Hb. exact Hm.
Qed.
Lemma scale_derive_arg v a k :
  (match scale_derive_attr_of v a with Some x => existsb (fun arg => arg_kind_eqb (ia_kind arg) k) (at_args x) | None => false end) = true ->
  v = V5 /\ exists x arg, In x (ad_ink a) /\ at_kind x = AkMacro MScaleDerive /\ In arg (at_args x) /\ ia_kind arg = k.
Proof.
  unfold scale_derive_attr_of. destruct v; [discriminate|]. destruct (find _ (ad_ink a)) as [x|] eqn:Ex; [|discriminate]. intros H. split; [reflexivity|].
  apply find_some in Ex as [Hx Px]. apply existsb_exists in H as (arg & Ha & Ek). exists x, arg. split; [exact Hx|]. split; [apply attr_kind_eqb_eq; exact Px|]. split; [exact Ha|].
  apply internal_arg_kind_dec_bl. exact Ek.
Qed.

(** ** Lists of names *)
Lemma comma_list_app a b : a <> [] -> b <> [] -> comma_list (a ++ b) = comma_list a ++ lit "," ++ comma_list b.
Proof.
  intros Ha Hb. induction a as [|p a IH]; [contradiction|]. destruct a as [|q a].
  - destruct b as [|r b]; [contradiction|]. reflexivity.
  - change ((p :: q :: a) ++ b) with (p :: q :: (a ++ b)). change (comma_list (p :: q :: a ++ b)) with (p ++ lit "," ++ comma_list ((q :: a) ++ b)).
    change (comma_list (p :: q :: a)) with (p ++ lit "," ++ comma_list (q :: a)). rewrite IH by discriminate. rewrite <- !app_assoc. reflexivity.
Qed.
Lemma well_listed_full qs : qs <> [] -> (forall p, In p qs -> ~ In 44%N p) -> (forall p, In p qs -> squeeze p <> []) ->
  well_listed (comma_list qs) (map squeeze qs).
Proof.
  intros Hn Hc Hs. destruct (exists_last Hn) as (ps & x & ->). exists ps, x. split; [reflexivity|]. split; [exact Hc|]. split.
  - intros p Hp. apply Hs. apply in_or_app. left. exact Hp.
  - rewrite map_app. f_equal. cbn [map]. destruct (squeeze x) eqn:E; [|reflexivity]. exfalso. apply (Hs x); [apply in_or_app; right; left; reflexivity|exact E].
Qed.
Lemma lists_names_fun s ns ns' : lists_names s ns -> lists_names s ns' -> ns = ns'.
Proof.
  intros (ps & Hn & E & Hc & ->) (ps' & Hn' & E' & Hc' & ->). assert (ps = ps') as ->; [|reflexivity].
  rewrite <- (split_comma_list ps Hn Hc), <- (split_comma_list ps' Hn' Hc'). congruence.
Qed.
Lemma filter_all {A} (p : A -> bool) l : (forall x, In x l -> p x = true) -> filter p l = l.
Proof. intros H. induction l as [|x l IH]; [reflexivity|]. cbn [filter]. rewrite (H x (or_introl eq_refl)). f_equal. apply IH. intros y Hy. apply H. right. exact Hy. Qed.
Lemma well_listed_names s ns : well_listed s ns -> lists_names s ns.
Proof.
  intros (ps & x & E & Hc & Hs & ->). exists (ps ++ [x]). split; [destruct ps; discriminate|]. split; [exact E|]. split; [exact Hc|].
  rewrite map_app, filter_app. f_equal; [|cbn; destruct (squeeze x); reflexivity].
  symmetry. apply filter_all. intros n Hn. apply in_map_iff in Hn as (p & <- & Hp). specialize (Hs p Hp). destruct (squeeze p); [contradiction|reflexivity].
Qed.

(** ** Adding names to a list *)
Definition spaced (x : str) : str := lit " " ++ x.
Lemma join_comma x xs : join (lit ", ") (x :: xs) = comma_list (x :: map spaced xs).
Proof.
  revert x. induction xs as [|y xs IH]; intros x; [reflexivity|]. change (join (lit ", ") (x :: y :: xs)) with (x ++ lit ", " ++ join (lit ", ") (y :: xs)). rewrite IH.
  change (map spaced (y :: xs)) with (spaced y :: map spaced xs). change (comma_list (x :: spaced y :: map spaced xs)) with (x ++ lit "," ++ comma_list (spaced y :: map spaced xs)).
  f_equal. destruct xs as [|z xs]; [reflexivity|]. change (map spaced (z :: xs)) with (spaced z :: map spaced xs).
  change (comma_list (y :: spaced z :: map spaced xs)) with (y ++ lit "," ++ comma_list (spaced z :: map spaced xs)).
  change (comma_list (spaced y :: spaced z :: map spaced xs)) with (spaced y ++ lit "," ++ comma_list (spaced z :: map spaced xs)). reflexivity.
Qed.
Lemma squeeze_app a b : squeeze (a ++ b) = squeeze a ++ squeeze b.
Proof. apply filter_app. Qed.
Lemma trait_squeeze k : squeeze (trait_path k) = trait_path k.
Proof. destruct k; reflexivity. Qed.
Lemma trait_comma k : ~ In 44%N (trait_path k).
Proof. destruct k; cbv; intuition discriminate. Qed.
Lemma trait_nonempty k : trait_path k <> [].
Proof. destruct k; discriminate. Qed.

Lemma squeeze_empty_iff s : squeeze s = [] <-> forall c, In c s -> white c = true.
Proof.
  induction s as [|c s IH]; [split; [intros _ c []|reflexivity]|]. unfold squeeze in *. cbn [filter]. destruct (white c) eqn:E; cbn [negb].
  - rewrite IH. split; [intros H d [<-|Hd]; [exact E|apply H; exact Hd]|intros H d Hd; apply H; right; exact Hd].
  - split; [discriminate|]. intros H. specialize (H c (or_introl eq_refl)). congruence.
Qed.
Lemma split_last_solid s : squeeze s <> [] -> exists a c w, s = a ++ c :: w /\ white c = false /\ forall d, In d w -> white d = true.
Proof.
  induction s as [|x s IH]; intros H; [contradiction|]. destruct (squeeze s) as [|y ys] eqn:Es.
  - exists [], x, s. split; [reflexivity|]. split; [|apply squeeze_empty_iff; exact Es]. unfold squeeze in H, Es. cbn [filter] in H. destruct (white x); [cbn [negb] in H; rewrite Es in H; contradiction|reflexivity].
  - destruct IH as (a & c & w & -> & Hc & Hw); [discriminate|]. exists (x :: a), c, w. auto.
Qed.
Lemma trim_end_spec U a c w : u_whitespace U c = false -> (forall d, In d w -> u_whitespace U d = true) -> trim_end U (a ++ c :: w) = a ++ [c].
Proof.
  intros Hc Hw. unfold trim_end. rewrite rev_app_distr. cbn [rev]. rewrite <- app_assoc. cbn [app].
  assert (H : forall l m, (forall d, In d l -> u_whitespace U d = true) -> trim_start U (l ++ c :: m) = c :: m).
  { induction l as [|x l IH]; intros m Hl; cbn [app trim_start]; [rewrite Hc; reflexivity|]. rewrite (Hl x (or_introl eq_refl)). apply IH. intros d Hd. apply Hl. right. exact Hd. }
  rewrite H by (intros d Hd; apply in_rev in Hd; apply Hw; exact Hd). cbn [rev]. rewrite rev_involutive. reflexivity.
Qed.
Lemma ends_with_comma a c : ends_with (lit ",") (a ++ [c]) = N.eqb 44 c.
Proof. unfold ends_with. rewrite rev_app_distr. cbn [rev app lit]. change (rev (lit ",")) with [44%N]. cbn [starts_with]. apply andb_true_r. Qed.

Lemma extended U m ns ks : well_listed m ns -> ns <> [] -> (forall c, In c m -> u_whitespace U c = white c) -> ks <> [] ->
  well_listed (meta_prefix U m ++ join (lit ", ") (map trait_path ks)) (ns ++ map trait_path ks).
Proof.
  intros (ps & x & Em & Hc & Hs & ->) Hns HU Hks. destruct ks as [|k ks]; [contradiction|]. cbn [map]. rewrite join_comma.
  set (tail := map spaced (map trait_path ks)).
  assert (Htail : forall p, In p tail -> ~ In 44%N p /\ squeeze p <> []).
  { intros p Hp. unfold tail in Hp. rewrite map_map in Hp. apply in_map_iff in Hp as (k' & <- & _). unfold spaced. split.
    - intros Hi. apply in_app_or in Hi as [[C|[]]|Hi]; [discriminate|]. apply (trait_comma k' Hi).
    - rewrite squeeze_app, trait_squeeze. apply (trait_nonempty k'). }
  assert (Esq : map squeeze tail = map trait_path ks).
  { unfold tail. rewrite !map_map. apply map_ext. intros k'. unfold spaced. rewrite squeeze_app, trait_squeeze. reflexivity. }
  assert (Hpc : forall p, In p ps -> ~ In 44%N p) by (intros p Hp; apply Hc; apply in_or_app; left; exact Hp).
  assert (Hxc : ~ In 44%N x) by (apply Hc; apply in_or_app; right; left; reflexivity).
  destruct (squeeze x) as [|y ys] eqn:Ex.
  - rewrite app_nil_r in *. destruct ps as [|p0 ps0]; [contradiction|]. set (ps := p0 :: ps0) in *.
    assert (Em' : m = comma_list ps ++ 44%N :: x) by (rewrite Em, comma_list_app by discriminate; reflexivity).
    assert (Hx : forall d, In d x -> u_whitespace U d = true).
    { intros d Hd. rewrite HU by (rewrite Em'; apply in_or_app; right; right; exact Hd). apply (proj1 (squeeze_empty_iff x) Ex d Hd). }
    unfold meta_prefix. rewrite Em' at 2. rewrite trim_end_spec; [|rewrite HU; [reflexivity|rewrite Em'; apply in_or_app; right; left; reflexivity]|exact Hx].
    rewrite ends_with_comma, app_nil_r. cbn [N.eqb Pos.eqb].
    assert (E : m ++ comma_list (trait_path k :: tail) = comma_list (ps ++ (x ++ trait_path k) :: tail)).
    { rewrite comma_list_app by discriminate. rewrite Em'. rewrite <- app_assoc. cbn [app]. f_equal. change (lit "," ++ ?z) with (44%N :: z). f_equal.
      destruct tail as [|t1 tl1]; [reflexivity|]. change (comma_list (trait_path k :: t1 :: tl1)) with (trait_path k ++ lit "," ++ comma_list (t1 :: tl1)).
      change (comma_list ((x ++ trait_path k) :: t1 :: tl1)) with ((x ++ trait_path k) ++ lit "," ++ comma_list (t1 :: tl1)). rewrite <- app_assoc. reflexivity. }
    rewrite E. assert (Esq' : map squeeze ps ++ trait_path k :: map trait_path ks = map squeeze (ps ++ (x ++ trait_path k) :: tail)).
    { rewrite map_app. cbn [map]. rewrite Esq, squeeze_app, Ex, trait_squeeze. reflexivity. }
    rewrite Esq'. apply well_listed_full; [discriminate| |].
    + intros p Hp. apply in_app_or in Hp as [Hp|[<-|Hp]]; [apply Hpc; exact Hp| |apply Htail; exact Hp]. intros Hi. apply in_app_or in Hi as [Hi|Hi]; [exact (Hxc Hi)|exact (trait_comma k Hi)].
    + intros p Hp. apply in_app_or in Hp as [Hp|[<-|Hp]]; [apply Hs; exact Hp| |apply Htail; exact Hp]. rewrite squeeze_app, Ex, trait_squeeze. apply trait_nonempty.
  - assert (Hx : squeeze x <> []) by congruence. destruct (split_last_solid x Hx) as (a & c & w & Exx & Hcw & Hw).
    assert (Em' : exists b, m = b ++ c :: w).
    { destruct ps as [|p0 ps0]; [exists a; rewrite Em; exact Exx|]. exists (comma_list (p0 :: ps0) ++ lit "," ++ a). rewrite Em, comma_list_app by discriminate. cbn [comma_list]. rewrite Exx, <- !app_assoc. reflexivity. }
    destruct Em' as (b & Em'). assert (Epre : meta_prefix U m = m ++ lit ", ").
    { unfold meta_prefix. rewrite Em' at 2. rewrite trim_end_spec.
      - rewrite ends_with_comma. destruct (N.eqb_spec 44 c) as [<-|]; [|reflexivity]. exfalso. apply Hxc. rewrite Exx. apply in_or_app. right. left. reflexivity.
      - rewrite HU; [exact Hcw|]. rewrite Em'. apply in_or_app. right. left. reflexivity.
      - intros d Hd. rewrite HU; [apply Hw; exact Hd|]. rewrite Em'. apply in_or_app. right. right. exact Hd. }
    rewrite Epre.
    assert (E : (m ++ lit ", ") ++ comma_list (trait_path k :: tail) = comma_list ((ps ++ [x]) ++ spaced (trait_path k) :: tail)).
    { rewrite comma_list_app by (try discriminate; destruct ps; discriminate). rewrite Em, <- app_assoc. f_equal. change (lit ", ") with (lit "," ++ lit " "). rewrite <- app_assoc. f_equal.
      destruct tail as [|t1 tl1]; [reflexivity|]. change (comma_list (trait_path k :: t1 :: tl1)) with (trait_path k ++ lit "," ++ comma_list (t1 :: tl1)).
      change (comma_list (spaced (trait_path k) :: t1 :: tl1)) with (spaced (trait_path k) ++ lit "," ++ comma_list (t1 :: tl1)). reflexivity. }
    rewrite E. assert (Esq' : (map squeeze ps ++ [y :: ys]) ++ trait_path k :: map trait_path ks = map squeeze ((ps ++ [x]) ++ spaced (trait_path k) :: tail)).
    { rewrite !map_app. cbn [map]. rewrite Esq, Ex. unfold spaced. rewrite squeeze_app, trait_squeeze. reflexivity. }
    rewrite Esq'. apply well_listed_full; [destruct ps; discriminate| |].
    + intros p Hp. apply in_app_or in Hp as [Hp|[<-|Hp]]; [apply Hc; exact Hp| |apply Htail; exact Hp]. unfold spaced. intros Hi. apply in_app_or in Hi as [[C|[]]|Hi]; [discriminate|exact (trait_comma k Hi)].
    + intros p Hp. apply in_app_or in Hp as [Hp|[<-|Hp]]; [|unfold spaced; rewrite squeeze_app, trait_squeeze; apply (trait_nonempty k)|apply Htail; exact Hp].
      apply in_app_or in Hp as [Hp|[<-|[]]]; [apply Hs; exact Hp|exact Hx].
Qed.
Lemma fresh_list ks : ks <> [] -> well_listed (join (lit ", ") (map trait_path ks)) (map trait_path ks).
Proof.
  intros Hk. destruct ks as [|k ks]; [contradiction|]. cbn [map]. rewrite join_comma.
  replace (trait_path k :: map trait_path ks) with (map squeeze (trait_path k :: map spaced (map trait_path ks))).
  2: { cbn [map]. rewrite trait_squeeze. f_equal. rewrite !map_map. apply map_ext. intros k'. unfold spaced. rewrite squeeze_app, trait_squeeze. reflexivity. }
  apply well_listed_full; [discriminate| |]; intros p [<-|Hp]; try apply trait_comma; try (rewrite trait_squeeze; apply trait_nonempty);
    rewrite map_map in Hp; apply in_map_iff in Hp as (k' & <- & _); unfold spaced.
  - intros Hi. apply in_app_or in Hi as [[C|[]]|Hi]; [discriminate|exact (trait_comma k' Hi)].
  - rewrite squeeze_app, trait_squeeze. apply (trait_nonempty k').
Qed.

(** ** Snippets *)
Lemma expands_app s t s' t' i j k : expands_in i j s t -> expands_in j k s' t' -> expands_in i k (s ++ s') (t ++ t').
Proof.
  intros H H'. induction H as [i|i j c s t Hc H IH|i j x s t Hx H IH]; [exact H'| |].
  - cbn [app]. apply expands_char; [exact Hc | apply IH, H'].
  - rewrite <- !app_assoc. pose proof (expands_hole i k x (s ++ s') (t ++ t') Hx (IH H')) as E. rewrite <- ?app_assoc in E. exact E.
Qed.
Lemma expands_plain s i : ~ In 36%N s -> expands_in i i s s.
Proof. induction s as [|c s IH]; intros H; [constructor|]. apply expands_char; [intros ->; apply H; left; reflexivity|]. apply IH. intros Hi. apply H. right. exact Hi. Qed.
Lemma expands_one i x : ~ In 125%N x -> expands_in i (i + 1) (lit "${" ++ dec i ++ lit ":" ++ x ++ lit "}") x.
Proof. intros H. pose proof (expands_hole i (i + 1) x [] [] H (expands_nil _)) as E. rewrite !app_nil_r in E. exact E. Qed.
Lemma expands_joined sep xs : ~ In 36%N sep -> (forall x, In x xs -> ~ In 125%N x) -> forall i, exists j, expands_in i j (join sep (numbered i xs)) (join sep xs).
Proof.
  intros Hsep. induction xs as [|x xs IH]; intros Hx i; [exists i; constructor|]. destruct xs as [|y xs].
  - exists (i + 1)%N. cbn [numbered join]. apply expands_one. apply Hx. left. reflexivity.
  - cbn [numbered]. change (join sep (x :: y :: xs)) with (x ++ sep ++ join sep (y :: xs)).
    set (h := lit "${" ++ dec i ++ lit ":" ++ x ++ lit "}").
    change (join sep (h :: (lit "${" ++ dec (i + 1) ++ lit ":" ++ y ++ lit "}") :: numbered (i + 1 + 1) xs))
      with (h ++ sep ++ join sep (numbered (i + 1) (y :: xs))).
    destruct (IH (fun z Hz => Hx z (or_intror Hz)) (i + 1)%N) as (j & Hj). exists j.
    eapply expands_app; [apply expands_one; apply Hx; left; reflexivity|]. eapply expands_app; [apply expands_plain; exact Hsep|]. exact Hj.
Qed.
