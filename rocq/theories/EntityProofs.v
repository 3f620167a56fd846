(** Proofs about added entities. *)
From Coq Require Import Lia.
From Verif Require Import Base BaseFacts Unicode VersionModel PositionModel PositionProofs TranslateModel SyntaxModel CommandModel AttrModel AttrSpec AttrProofs
  EditModel EditSpec EditProofs UtilModel UtilSpec UtilProofs ArgEditModel ArgEditSpec ArgEditProofs RuleModel RuleSpec RuleProofs EntityModel EntitySpec.

(** ** Snippets *)
Lemma fills_app s t s' t' : fills s t -> (forall c r, s' = c :: r -> ~ (48 <= c <= 57)%N) -> fills s' t' -> fills (s ++ s') (t ++ t').
Proof.
  intros H Hd H'. induction H as [|c s t Hc H IH|i x s t Hx H IH|i s t Hs H IH].
  - exact H'.
  - cbn [app]. apply fills_char; assumption.
  - rewrite <- !app_assoc. pose proof (fills_hole i x (s ++ s') (t ++ t') Hx IH) as E. rewrite <- ?app_assoc in E. exact E.
  - rewrite <- !app_assoc. apply fills_stop; [|exact IH]. intros c r E. destruct s as [|d s]; [exact (Hd c r E)|]. cbn [app] in E. injection E as <- _. apply (Hs d s eq_refl).
Qed.
Lemma fills_before s t s' : ~ In 36%N s -> fills s' t -> fills (s ++ s') (s ++ t).
Proof. induction s as [|c s IH]; intros H H'; [exact H'|]. cbn [app]. apply fills_char; [intros ->; apply H; left; reflexivity|]. apply IH; [intros C; apply H; right; exact C | exact H']. Qed.
Lemma fills_plain s : ~ In 36%N s -> fills s s.
Proof. intros H. rewrite <- (app_nil_r s). apply fills_before; [exact H | constructor]. Qed.

(** Lines as lists of parts: text, a variable, placeholders with either, and a tab stop. *)
Inductive part := PT (s : str) | PV (v : nat) | PHT (i : N) (s : str) | PHV (i : N) (v : nat) | PStop (i : N).
Section Parts.
  Variable env : nat -> str.
  Definition hole (i : N) (x : str) : str := lit "${" ++ dec i ++ lit ":" ++ x ++ lit "}".
  Definition show (p : part) : str :=
    match p with PT s => s | PV v => env v | PHT i s => hole i s | PHV i v => hole i (env v) | PStop i => lit "$" ++ dec i end.
  Definition fill (p : part) : str :=
    match p with PT s => s | PV v => env v | PHT _ s => s | PHV _ v => env v | PStop _ => [] end.
  Fixpoint glue (f : part -> str) (l : list part) : str :=
    match l with [] => [] | [p] => f p | p :: l' => f p ++ glue f l' end.
  Lemma glue_flat f l : glue f l = flat_map f l.
  Proof. induction l as [|p [|q l] IH]; [reflexivity | cbn [glue flat_map]; rewrite app_nil_r; reflexivity|]. cbn [glue flat_map] in *. rewrite IH. reflexivity. Qed.
  (** A tab stop ends its line; texts have no dollar sign, texts in placeholders no brace. *)
  Definition no (c : char) (s : str) : bool := negb (mem_char c s).
  Fixpoint parts_ok (l : list part) : bool :=
    match l with
    | [] => true
    | PT s :: l' => no 36%N s && parts_ok l'
    | PV _ :: l' => parts_ok l'
    | PHT _ s :: l' => no 125%N s && parts_ok l'
    | PHV _ _ :: l' => parts_ok l'
    | PStop _ :: l' => match l' with [] => true | _ => false end
    end.
  Lemma no_In c s : no c s = true -> ~ In c s.
  Proof. unfold no. intros H C. apply mem_char_In in C. rewrite C in H. discriminate. Qed.
  Hypothesis Henv : forall v, clean (env v).
  Lemma fills_parts l : parts_ok l = true -> fills (flat_map show l) (flat_map fill l).
  Proof.
    induction l as [|p l IH]; intros H; [constructor|]. cbn [flat_map]. destruct p as [s|v|i s|i v|i]; cbn [parts_ok] in H.
    - apply andb_prop in H as [H1 H2]. apply fills_before; [apply no_In, H1 | apply IH, H2].
    - cbn [show fill]. apply fills_before; [|apply IH, H]. intros C. apply (Henv v) in C. destruct C as (_ & _ & _ & C). apply C. reflexivity.
    - apply andb_prop in H as [H1 H2]. cbn [show fill]. unfold hole. pose proof (fills_hole i s _ _ (no_In _ _ H1) (IH H2)) as E. rewrite <- !app_assoc. exact E.
    - cbn [show fill]. unfold hole. assert (Hn : ~ In 125%N (env v)) by (intros C; apply (Henv v) in C; destruct C as (_ & _ & C & _); apply C; reflexivity).
      pose proof (fills_hole i (env v) _ _ Hn (IH H)) as E. rewrite <- !app_assoc. exact E.
    - destruct l; [|discriminate]. cbn [show fill flat_map]. rewrite app_nil_r. pose proof (fills_stop i [] [] ltac:(intros c r E; discriminate) fills_nil) as E.
      rewrite !app_nil_r in E. exact E.
  Qed.
  (** Line breaks *)
  Definition closed (p : part) : str := match p with PT s | PHT _ s => s | _ => [] end.
  Definition line_ok (l : list part) : bool := forallb (fun p => no c_nl (closed p) && no c_cr (closed p)) l.
  Lemma dec_range n c : In c (dec n) -> (48 <= c <= 57)%N.
  Proof. unfold dec. induction (N.to_uint n); cbn [uint_str]; intros H; [contradiction|..]; destruct H as [<-|H]; auto; lia. Qed.
  Lemma show_line c l : c = c_nl \/ c = c_cr -> line_ok l = true -> ~ In c (flat_map show l).
  Proof.
    intros Hc H C. apply in_flat_map in C as (p & Hp & C). unfold line_ok in H. rewrite forallb_forall in H. specialize (H p Hp).
    apply andb_prop in H as [H1 H2]. apply no_In in H1. apply no_In in H2.
    assert (Hd : forall i, ~ In c (dec i)) by (intros i D; apply dec_range in D; destruct Hc as [-> | ->]; unfold c_nl, c_cr in D; lia).
    assert (Hl : forall a, no c_nl a && no c_cr a = true -> ~ In c a).
    { intros a Ha. apply andb_prop in Ha as [Ha Hb]. destruct Hc as [-> | ->]; apply no_In; assumption. }
    assert (Hv : forall v, ~ In c (env v)) by (intros v D; apply (Henv v) in D; destruct D as (D1 & D2 & _), Hc; contradiction).
    assert (Hs : ~ In c (closed p)) by (destruct Hc as [-> | ->]; assumption).
    destruct p as [s|v|i s|i v|i]; cbn [show closed] in *; unfold hole in C; rewrite ?in_app_iff in C.
    - exact (Hs C).
    - exact (Hv v C).
    - destruct C as [C|[C|[C|[C|C]]]]; [revert C; apply Hl; reflexivity | exact (Hd _ C) | revert C; apply Hl; reflexivity | exact (Hs C) | revert C; apply Hl; reflexivity].
    - destruct C as [C|[C|[C|[C|C]]]]; [revert C; apply Hl; reflexivity | exact (Hd _ C) | revert C; apply Hl; reflexivity | exact (Hv _ C) | revert C; apply Hl; reflexivity].
    - destruct C as [C|C]; [revert C; apply Hl; reflexivity | exact (Hd _ C)].
  Qed.
  Definition solid_part (p : part) : bool := match p with PT [] | PV _ => false | _ => true end.
  Definition text_ok (L : list (list part)) : bool :=
    forallb line_ok L && match last_opt L with Some l => existsb solid_part l | None => false end.
  Definition shown (L : list (list part)) : list str := map (flat_map show) L.
  Lemma shown_tidy L : text_ok L = true -> tidy (unlines (shown L)) (shown L).
  Proof.
    intros H. apply andb_prop in H as [H1 H2]. rewrite forallb_forall in H1. destruct (last_opt L) as [l|] eqn:E; [|discriminate].
    apply last_opt_some in E as (L' & ->). unfold shown.
    assert (Hl : forall x, In x (map (flat_map show) (L' ++ [l])) -> forall c, c = c_nl \/ c = c_cr -> ~ In c x).
    { intros x Hx c Hc. apply in_map_iff in Hx as (y & <- & Hy). apply show_line; [exact Hc | apply H1, Hy]. }
    split; [split; [reflexivity|]; split|split].
    - rewrite map_app. destruct (map _ L'); discriminate.
    - intros x Hx. apply (Hl x Hx). left. reflexivity.
    - intros C. apply In_unlines in C as [C|(x & Hx & C)]; [discriminate|]. exact (Hl x Hx _ (or_intror eq_refl) C).
    - rewrite map_app. eexists _, _. split; [reflexivity|]. apply existsb_exists in H2 as (p & Hp & Hs). intros C.
      assert (Hn : show p = []). { destruct (show p) as [|c r] eqn:Es; [reflexivity|]. exfalso.
        assert (Hi : In c (flat_map show l)) by (apply in_flat_map; exists p; split; [exact Hp | rewrite Es; left; reflexivity]). rewrite C in Hi. destruct Hi. }
      destruct p as [[|c s]|v|i s|i v|i]; try discriminate.
  Qed.
  Lemma indent_shown L i : text_ok L = true -> apply_indenting (unlines (shown L)) i = code i (shown L).
  Proof.
    intros H. pose proof (shown_tidy L H) as Ht. unfold code, apply_indenting. destruct i as [|c i].
    - f_equal. rewrite <- (map_id (shown L)) at 1. apply map_ext. intros [|c l]; reflexivity.
    - rewrite (map_lines_tidy _ _ _ Ht). reflexivity.
  Qed.

  (** What is visible of the parts: characters, and variables *)
  Definition marks_of (f : part -> str + nat) (l : list part) : list (char + nat) :=
    flat_map (fun p => match f p with inl s => map inl (filter (fun c => negb (ascii_white c)) s) | inr v => [inr v] end) l.
  Definition fill_mark (p : part) : str + nat :=
    match p with PT s => inl s | PV v => inr v | PHT _ s => inl s | PHV _ v => inr v | PStop _ => inl [] end.
  Definition ascii_part (p : part) : bool := forallb (fun c => (c <? 128)%N) (closed p).
  Lemma visible_app U a b : visible U (a ++ b) = visible U a ++ visible U b.
  Proof. apply filter_app. Qed.
  Lemma visible_ascii U s : unicode_ok U -> forallb (fun c => (c <? 128)%N) s = true -> visible U s = filter (fun c => negb (ascii_white c)) s.
  Proof.
    intros HU H. unfold visible. rewrite forallb_forall in H. apply filter_ext_in. intros c Hc. specialize (H c Hc). apply N.ltb_lt in H. rewrite (uo_whitespace U HU c H). reflexivity.
  Qed.
  Lemma visible_parts U l : unicode_ok U -> forallb ascii_part l = true ->
    visible U (flat_map fill l) = flat_map (fun m => match m with inl c => [c] | inr v => visible U (env v) end) (marks_of fill_mark l).
  Proof.
    intros HU. induction l as [|p l IH]; intros H; [reflexivity|]. cbn [forallb] in H. apply andb_prop in H as [Hp H].
    unfold marks_of. cbn [flat_map]. rewrite visible_app, (IH H), flat_map_app. f_equal.
    assert (E : forall s : str, flat_map (fun m => match m with inl c => [c] | inr v => visible U (env v) end) (map inl s) = s).
    { intros s. induction s as [|c s IHs]; [reflexivity|]. cbn [map flat_map app]. rewrite IHs. reflexivity. }
    destruct p as [s|v|i s|i v|i]; cbn [fill fill_mark]; unfold ascii_part in Hp; cbn [closed] in Hp.
    - rewrite E. apply visible_ascii; assumption.
    - cbn [flat_map]. rewrite app_nil_r. reflexivity.
    - rewrite E. apply visible_ascii; assumption.
    - cbn [flat_map]. rewrite app_nil_r. reflexivity.
    - reflexivity.
  Qed.
  Lemma visible_all_white U i : all_white U i -> visible U i = [].
  Proof. induction i as [|c i IH]; intros H; [reflexivity|]. unfold visible. cbn [filter]. rewrite (H c (or_introl eq_refl)). cbn [negb]. apply IH. intros d Hd. apply H. right. exact Hd. Qed.
  Lemma visible_unlines U ls : unicode_ok U -> visible U (unlines ls) = visible U (concat ls).
  Proof.
    intros HU. induction ls as [|l [|m ls] IH]; [reflexivity | cbn [unlines concat]; rewrite app_nil_r; reflexivity|].
    cbn [unlines concat] in *. rewrite !visible_app, IH, (visible_ascii U [c_nl] HU eq_refl). rewrite !visible_app. reflexivity.
  Qed.
  Lemma visible_code U i ls : unicode_ok U -> all_white U i -> visible U (code i ls) = visible U (concat ls).
  Proof.
    intros HU Hi. unfold code. rewrite visible_unlines by exact HU. induction ls as [|l ls IH]; [reflexivity|]. cbn [map concat]. rewrite !visible_app, IH. f_equal.
    destruct l as [|c l]; [reflexivity|]. unfold indent_line. rewrite visible_app, (visible_all_white U i Hi). reflexivity.
  Qed.
  (** Filling an indented snippet *)
  Definition filled (L : list (list part)) : list str := map (flat_map fill) L.
  Lemma fills_code U i L : unicode_ok U -> all_white U i -> ~ In 36%N i -> forallb parts_ok L = true ->
    exists t, fills (code i (shown L)) t /\ visible U t = visible U (concat (filled L)).
  Proof.
    intros HU Hi Hd. unfold code, shown, filled. induction L as [|l [|m L] IH]; intros H.
    - exists []. split; [constructor | reflexivity].
    - cbn [map unlines concat]. rewrite app_nil_r. cbn [forallb] in H. apply andb_prop in H as [H _]. pose proof (fills_parts l H) as E.
      unfold indent_line. destruct (flat_map show l) as [|c s] eqn:Es.
      + exists (flat_map fill l). split; [exact E | reflexivity].
      + exists (i ++ flat_map fill l). split; [apply fills_before; [exact Hd | exact E]|]. rewrite visible_app, (visible_all_white U i Hi). reflexivity.
    - cbn [forallb] in H. apply andb_prop in H as [H1 H2]. destruct (IH H2) as (t & Ht & Ev). pose proof (fills_parts l H1) as E.
      cbn [map] in Ht. cbn [map unlines concat]. rewrite visible_app.
      assert (Hn : fills ([c_nl] ++ unlines (indent_line i (flat_map show m) :: map (indent_line i) (map (flat_map show) L))) ([c_nl] ++ t))
        by (apply fills_before; [intros [C|[]]; discriminate | exact Ht]).
      assert (Hv : visible U ([c_nl] ++ t) = visible U (concat (map (flat_map fill) (m :: L)))) by (rewrite visible_app, (visible_ascii U [c_nl] HU eq_refl), Ev; reflexivity).
      assert (Hq : forall c r, [c_nl] ++ unlines (indent_line i (flat_map show m) :: map (indent_line i) (map (flat_map show) L)) = c :: r -> ~ (48 <= c <= 57)%N)
        by (cbn [app]; intros c r Eq; injection Eq as <- _; unfold c_nl; lia).
      unfold indent_line at 1. destruct (flat_map show l) as [|c s] eqn:Es.
      + exists (flat_map fill l ++ [c_nl] ++ t). split; [apply fills_app; [exact E | exact Hq | exact Hn]|]. rewrite visible_app, Hv. reflexivity.
      + exists ((i ++ flat_map fill l) ++ [c_nl] ++ t). split.
        * apply fills_app; [apply fills_before; [exact Hd | exact E] | exact Hq | exact Hn].
        * rewrite visible_app, Hv, visible_app, (visible_all_white U i Hi). reflexivity.
  Qed.
  Lemma concat_filled L : concat (filled L) = flat_map fill (concat L).
  Proof. unfold filled. induction L as [|l L IH]; [reflexivity|]. cbn [map concat]. rewrite flat_map_app, IH. reflexivity. Qed.
End Parts.

(** ** The texts of the entities *)
Definition plain_parts (e : entity) : list (list part) :=
  match e with
  | NStorage => [[PT (lit "#[ink(storage)]")]; [PT (lit "pub struct "); PV 0; PT (lit " {}")]]
  | NEvent => [[PT (lit "#[ink(event)]")]; [PT (lit "pub struct "); PV 0; PT (lit " {}")]]
  | NEvent2 => [[PT (lit "#[ink::event]")]; [PT (lit "pub struct "); PV 0; PT (lit " {}")]]
  | NTopic => [[PT (lit "#[ink(topic)]")]; [PV 0; PT (lit ": bool,")]]
  | NConstructor => [[PT (lit "#[ink(constructor)]")]; [PT (lit "pub fn "); PV 0; PT (lit "() -> Self {")]; [PT (lit "    todo!()")]; [PT (lit "}")]]
  | NMessage => [[PT (lit "#[ink(message)]")]; [PT (lit "pub fn "); PV 0; PT (lit "(&self) {")]; [PT (lit "    todo!()")]; [PT (lit "}")]]
  | NSelectorMessage s =>
      [[PT (lit "#[ink(message, selector = "); PV 1; PT (lit ")]")]; [PT (lit "pub fn "); PV 0; PT (lit "(&self) {")]; [PT (lit "    todo!()")]; [PT (lit "}")]]
  | NTraitMessage => [[PT (lit "#[ink(message)]")]; [PT (lit "fn "); PV 0; PT (lit "(&self);")]]
  | NErrorCode => [[PT (lit "type ErrorCode = ();")]]
  | NExtension _ => [[PT (lit "#[ink(extension = "); PV 1; PT (lit ")]")]; [PT (lit "fn "); PV 0; PT (lit "();")]]
  | NFunction _ => [[PT (lit "#[ink(function = "); PV 1; PT (lit ")]")]; [PT (lit "fn "); PV 0; PT (lit "();")]]
  | NTest => [[PT (lit "#[ink::test]")]; [PT (lit "fn "); PV 0; PT (lit "() {")]; [PT (lit "    todo!()")]; [PT (lit "}")]]
  | NE2eTest V4 =>
      [[PT (lit "#[ink_e2e::test]")];
       [PT (lit "async fn "); PV 0; PT (lit "(mut client: ink_e2e::Client<C, E>) -> std::result::Result<(), Box<dyn std::error::Error>> {")];
       [PT (lit "    todo!();")]; []; [PT (lit "    Ok(())")]; [PT (lit "}")]]
  | NE2eTest V5 =>
      [[PT (lit "#[ink_e2e::test]")];
       [PT (lit "async fn "); PV 0; PT (lit "<Client: E2EBackend>(mut client: Client) -> std::result::Result<(), Box<dyn std::error::Error>> {")];
       [PT (lit "    todo!();")]; []; [PT (lit "    Ok(())")]; [PT (lit "}")]]
  end.
Definition snippet_parts (e : entity) : list (list part) :=
  match e with
  | NStorage => [[PT (lit "#[ink(storage)]")]; [PT (lit "pub struct "); PHV 1 0; PT (lit " {")]; [PT (lit "    "); PStop 2]; [PT (lit "}")]]
  | NEvent => [[PT (lit "#[ink(event)]")]; [PT (lit "pub struct "); PHV 1 0; PT (lit " {")]; [PT (lit "    "); PStop 2]; [PT (lit "}")]]
  | NEvent2 => [[PT (lit "#[ink::event]")]; [PT (lit "pub struct "); PHV 1 0; PT (lit " {")]; [PT (lit "    "); PStop 2]; [PT (lit "}")]]
  | NTopic => [[PT (lit "#[ink(topic)]")]; [PHV 1 0; PT (lit ": "); PHT 2 (lit "bool"); PT (lit ",")]]
  | NConstructor =>
      [[PT (lit "#[ink(constructor)]")]; [PT (lit "pub fn "); PHV 1 0; PT (lit "() -> "); PHT 2 (lit "Self"); PT (lit " {")];
       [PT (lit "    "); PHT 3 (lit "todo!()")]; [PT (lit "}")]]
  | NMessage =>
      [[PT (lit "#[ink(message)]")]; [PT (lit "pub fn "); PHV 1 0; PT (lit "(&"); PHT 2 (lit "self"); PT (lit ") {")];
       [PT (lit "    "); PHT 3 (lit "todo!()")]; [PT (lit "}")]]
  | NSelectorMessage s =>
      [[PT (lit "#[ink(message, selector = "); PV 1; PT (lit ")]")]; [PT (lit "pub fn "); PHV 1 0; PT (lit "(&"); PHT 2 (lit "self"); PT (lit ") {")];
       [PT (lit "    "); PHT 3 (lit "todo!()")]; [PT (lit "}")]]
  | NTraitMessage => [[PT (lit "#[ink(message)]")]; [PT (lit "fn "); PHV 1 0; PT (lit "(&"); PHT 2 (lit "self"); PT (lit ");")]]
  | NErrorCode => [[PT (lit "type ErrorCode = "); PHT 1 (lit "()"); PT (lit ";")]]
  | NExtension _ => [[PT (lit "#[ink(extension = "); PHV 1 1; PT (lit ")]")]; [PT (lit "fn "); PHV 2 0; PT (lit "();")]]
  | NFunction _ => [[PT (lit "#[ink(function = "); PHV 1 1; PT (lit ")]")]; [PT (lit "fn "); PHV 2 0; PT (lit "();")]]
  | NTest => [[PT (lit "#[ink::test]")]; [PT (lit "fn "); PHV 1 0; PT (lit "() {")]; [PT (lit "    "); PHT 2 (lit "todo!()")]; [PT (lit "}")]]
  | NE2eTest V4 =>
      [[PT (lit "#[ink_e2e::test]")];
       [PT (lit "async fn "); PHV 1 0; PT (lit "("); PHT 2 (lit "mut client: ink_e2e::Client<C, E>"); PT (lit ") -> ");
        PHT 3 (lit "std::result::Result<(), Box<dyn std::error::Error>>"); PT (lit " {")];
       [PT (lit "    "); PHT 4 (lit "todo!();")]; []; [PT (lit "    Ok(())")]; [PT (lit "}")]]
  | NE2eTest V5 =>
      [[PT (lit "#[ink_e2e::test]")];
       [PT (lit "async fn "); PHV 1 0; PT (lit "<"); PHT 2 (lit "Client: E2EBackend"); PT (lit ">("); PHT 3 (lit "mut client: Client"); PT (lit ") -> ");
        PHT 4 (lit "std::result::Result<(), Box<dyn std::error::Error>>"); PT (lit " {")];
       [PT (lit "    "); PHT 5 (lit "todo!();")]; []; [PT (lit "    Ok(())")]; [PT (lit "}")]]
  end.
Definition second (e : entity) : str := match e with NSelectorMessage s => s | NExtension id | NFunction id => dec id | _ => [] end.
Definition env_of (e : entity) (name : str) (v : nat) : str := match v with 0 => name | 1 => second e | _ => [] end.
Definition sum_eqb (a b : char + nat) : bool :=
  match a, b with inl x, inl y => N.eqb x y | inr x, inr y => Nat.eqb x y | _, _ => false end.
Fixpoint marks_eqb (a b : list (char + nat)) : bool :=
  match a, b with [], [] => true | x :: a', y :: b' => sum_eqb x y && marks_eqb a' b' | _, _ => false end.
Lemma marks_eqb_eq a b : marks_eqb a b = true -> a = b.
Proof.
  revert b. induction a as [|x a IH]; intros [|y b] H; try discriminate; [reflexivity|]. cbn [marks_eqb] in H. apply andb_prop in H as [H1 H2].
  rewrite (IH b H2). f_equal. destruct x as [x|x], y as [y|y]; try discriminate; cbn [sum_eqb] in H1; [apply N.eqb_eq in H1 | apply Nat.eqb_eq in H1]; subst; reflexivity.
Qed.
Definition agrees (P S : list (list part)) : bool :=
  text_ok P && text_ok S && forallb parts_ok S && forallb ascii_part (concat P) && forallb ascii_part (concat S)
  && forallb (fun p => match p with PT _ | PV _ => true | _ => false end) (concat P)
  && marks_eqb (marks_of fill_mark (concat P)) (marks_of fill_mark (concat S)).
Lemma entities_agree e : agrees (plain_parts e) (snippet_parts e) = true.
Proof. destruct e as [| | | | | |s| | |n|n| |[]]; vm_compute; reflexivity. Qed.
Lemma lines_parts e name : shown (env_of e name) (plain_parts e) = lines_of e name.
Proof. destruct e as [| | | | | |s| | |n|n| |[]]; cbn [plain_parts lines_of shown map flat_map show env_of second]; rewrite ?app_nil_r; reflexivity. Qed.
Lemma shown_filled env P : forallb (fun p => match p with PT _ | PV _ => true | _ => false end) (concat P) = true -> filled env P = shown env P.
Proof.
  intros H. unfold filled, shown. apply map_ext_in. intros l Hl. rewrite forallb_forall in H. assert (Hp : forall p, In p l -> match p with PT _ | PV _ => true | _ => false end = true).
  { intros p Hp. apply H. apply in_concat. exists l. split; assumption. }
  clear H Hl. induction l as [|p l IH]; [reflexivity|]. cbn [flat_map]. rewrite IH by (intros q Hq; apply Hp; right; exact Hq). f_equal. specialize (Hp p (or_introl eq_refl)). destruct p; try discriminate; reflexivity.
Qed.
Lemma fills_around s t before after : ~ In 36%N before -> ~ In 36%N after -> (forall c r, after = c :: r -> ~ (48 <= c <= 57)%N) -> fills s t ->
  fills (before ++ s ++ after) (before ++ t ++ after).
Proof. intros Hb Ha Hd H. apply fills_before; [exact Hb|]. apply fills_app; [exact H | exact Hd | apply fills_plain, Ha]. Qed.
Definition margin (s : str) : Prop := ~ In 36%N s /\ forall c r, s = c :: r -> ~ (48 <= c <= 57)%N.
Lemma wrote_parts U env P S i before after r : unicode_ok U -> (forall v, clean (env v)) -> all_white U i -> ~ In 36%N before -> margin after ->
  agrees P S = true ->
  wrote U before i after (shown env P)
    (edit_replace_snippet (before ++ apply_indenting (unlines (shown env P)) i ++ after) r (Some (before ++ apply_indenting (unlines (shown env S)) i ++ after))).
Proof.
  intros HU Henv Hw Hb [Ha Hd] A.
  assert (Hi : ~ In 36%N i) by (intros C; apply Hw in C; rewrite (uo_whitespace U HU) in C by reflexivity; discriminate).
  unfold agrees in A. apply andb_prop in A as [A Hm]. apply andb_prop in A as [A Hp].
  apply andb_prop in A as [A HaS]. apply andb_prop in A as [A HaP]. apply andb_prop in A as [A Hok]. apply andb_prop in A as [HtP HtS].
  rewrite (indent_shown _ Henv _ i HtP), (indent_shown _ Henv _ i HtS).
  split; cbn [te_text te_snippet edit_replace_snippet]; [reflexivity|].
  destruct (fills_code _ Henv U i S HU Hw Hi Hok) as (t & Ht & Ev).
  exists (before ++ code i (shown env S) ++ after), (before ++ t ++ after).
  split; [reflexivity|]. split; [apply fills_around; assumption|].
  rewrite !visible_app, Ev, (visible_code U i _ HU Hw), <- (shown_filled _ _ Hp), !concat_filled, !visible_parts by assumption.
  apply marks_eqb_eq in Hm. rewrite Hm. reflexivity.
Qed.
Lemma writes_generic U e name i before after r T S : unicode_ok U -> clean name -> clean (second e) -> all_white U i -> ~ In 36%N before -> margin after ->
  T = unlines (shown (env_of e name) (plain_parts e)) -> S = unlines (shown (env_of e name) (snippet_parts e)) ->
  writes U before i after e name (edit_replace_snippet (before ++ apply_indenting T i ++ after) r (Some (before ++ apply_indenting S i ++ after))).
Proof.
  intros HU Hn Hs Hw Hb Ha -> ->. unfold writes. rewrite <- lines_parts. apply wrote_parts; try assumption; [|apply entities_agree].
  intros [|[|v]]; [exact Hn | exact Hs | intros c []].
Qed.
Definition templates (preferred plain snippet : str) (e : entity) : Prop := forall name,
  str_replace preferred name plain = unlines (shown (env_of e name) (plain_parts e))
  /\ str_replace preferred name snippet = unlines (shown (env_of e name) (snippet_parts e)).
Ltac texts := cbn [shown map snippet_parts plain_parts flat_map show env_of second unlines]; unfold hole; rewrite <- ?app_assoc; vm_compute; reflexivity.
Lemma storage_texts : templates (lit "Storage") STORAGE_PLAIN STORAGE_SNIPPET NStorage.
Proof. intros name. split; texts. Qed.
Lemma event_texts : templates (lit "Event") EVENT_PLAIN EVENT_SNIPPET NEvent.
Proof. intros name. split; texts. Qed.
Lemma event2_texts : templates (lit "Event") EVENT_PLAIN_V2 EVENT_SNIPPET_V2 NEvent2.
Proof. intros name. split; texts. Qed.
Lemma topic_texts : templates (lit "my_topic") TOPIC_PLAIN TOPIC_SNIPPET NTopic.
Proof. intros name. split; texts. Qed.
Lemma constructor_texts : templates (lit "new") CONSTRUCTOR_PLAIN CONSTRUCTOR_SNIPPET NConstructor.
Proof. intros name. split; texts. Qed.
Lemma message_texts : templates (lit "my_message") MESSAGE_PLAIN MESSAGE_SNIPPET NMessage.
Proof. intros name. split; texts. Qed.
Lemma trait_message_texts : templates (lit "my_message") TRAIT_MESSAGE_PLAIN TRAIT_MESSAGE_SNIPPET NTraitMessage.
Proof. intros name. split; texts. Qed.
Lemma error_code_texts name : ERROR_CODE_PLAIN = unlines (shown (env_of NErrorCode name) (plain_parts NErrorCode))
  /\ ERROR_CODE_SNIPPET = unlines (shown (env_of NErrorCode name) (snippet_parts NErrorCode)).
Proof. split; texts. Qed.
Lemma test_texts : templates (lit "it_works") INK_TEST_PLAIN INK_TEST_SNIPPET NTest.
Proof. intros name. split; texts. Qed.
Lemma e2e_texts v : templates (lit "it_works") (match v with V4 => INK_E2E_TEST_PLAIN | V5 => INK_E2E_TEST_PLAIN_V5 end)
  (match v with V4 => INK_E2E_TEST_SNIPPET | V5 => INK_E2E_TEST_SNIPPET_V5 end) (NE2eTest v).
Proof. intros name. destruct v; split; texts. Qed.

(** ** Names and indentation *)
Lemma candidate_chars p k c : In c (candidate p k) -> In c p \/ (48 <= c <= 57)%N.
Proof. destruct k as [|k]; cbn [candidate]; [left; exact H|]. intros H. apply in_app_or in H as [H|H]; [left; exact H | right; exact (dec_range _ _ H)]. Qed.
Definition cleanb (s : str) : bool := no c_nl s && no c_cr s && no 125%N s && no 36%N s.
Lemma cleanb_ok s : cleanb s = true -> clean s.
Proof.
  intros H c Hc. unfold cleanb in H. apply andb_prop in H as [H H4]. apply andb_prop in H as [H H3]. apply andb_prop in H as [H1 H2].
  apply no_In in H1, H2, H3, H4. repeat split; intros ->; contradiction.
Qed.
Lemma candidate_clean p k : clean p -> clean (candidate p k).
Proof. intros H c Hc. apply candidate_chars in Hc as [Hc|Hc]; [exact (H c Hc)|]. unfold c_nl, c_cr. repeat split; intros ->; lia. Qed.
Lemma dec_clean n : clean (dec n).
Proof. intros c Hc. apply dec_range in Hc. unfold c_nl, c_cr. repeat split; intros ->; lia. Qed.
Lemma unique_chosen p names (taken : str -> Prop) : (forall x, In x names <-> taken x) -> chosen p taken (suggest_unique_name p names).
Proof.
  intros H. pose proof (suggest_unique_name_spec p names) as E. cbv zeta in E. destruct E as [(k & Hk & E & Hn & Hj)|(E & Hj)]; [left|right].
  - exists k. split; [exact Hk|]. split; [exact E|]. split; [rewrite <- H; exact Hn|]. intros j L. apply H, Hj, L.
  - split; [exact E|]. intros k Hk. apply H, Hj, Hk.
Qed.
Lemma unique_candidate p names : exists k, suggest_unique_name p names = candidate p k.
Proof. pose proof (suggest_unique_name_spec p names) as E. cbv zeta in E. destruct E as [(k & _ & E & _)|(E & _)]; [exists k | exists 0]; exact E. Qed.
Lemma unique_clean p names : cleanb p = true -> clean (suggest_unique_name p names).
Proof. intros H. destruct (unique_candidate p names) as (k & ->). apply candidate_clean, cleanb_ok, H. Qed.
Lemma take_while_all p s : (forall c, In c s -> p c = true) -> take_while_ch p s = s.
Proof. induction s as [|c s IH]; intros H; [reflexivity|]. cbn [take_while_ch]. rewrite (H c (or_introl eq_refl)), IH; [reflexivity|]. intros d Hd. apply H. right. exact Hd. Qed.
Lemma ends_exists w : exists own, ends_with_indent w own.
Proof.
  induction w as [|c w (own & Hn & H)]; [exists []; split; [intros [] | left; reflexivity]|].
  destruct H as [->|(pre & ->)].
  - destruct (N.eq_dec c c_nl) as [->|Hc]; [exists own; split; [exact Hn | right; exists []; reflexivity]|].
    exists (c :: own). split; [intros [C|C]; [congruence | contradiction] | left; reflexivity].
  - exists own. split; [exact Hn | right; exists (c :: pre); reflexivity].
Qed.
Lemma ends_unique w a b : ends_with_indent w a -> ends_with_indent w b -> a = b.
Proof.
  intros [Ha H1] [Hb H2].
  assert (E : forall own, ~ In c_nl own -> w = own \/ (exists pre, w = pre ++ c_nl :: own) -> take_while_ch (fun c => negb (N.eqb c c_nl)) (rev w) = rev own).
  { intros own Hn H. assert (Hp : forall c, In c (rev own) -> negb (N.eqb c c_nl) = true).
    { intros c Hc. apply in_rev in Hc. destruct (N.eqb_spec c c_nl) as [->|]; [contradiction | reflexivity]. }
    destruct H as [->|(pre & ->)]; [apply take_while_all, Hp|]. rewrite rev_app_distr. cbn [rev]. rewrite <- app_assoc. cbn [app].
    revert Hp. induction (rev own) as [|c r IH]; intros Hp; cbn [app take_while_ch]; [rewrite N.eqb_refl; reflexivity|].
    rewrite (Hp c (or_introl eq_refl)), IH; [reflexivity|]. intros d Hd. apply Hp. right. exact Hd. }
  rewrite <- (rev_involutive a), <- (rev_involutive b), <- (E a Ha H1), <- (E b Hb H2). reflexivity.
Qed.
Lemma indent_of U prev : blank_prev U prev -> body_indent prev (item_children_indenting U prev).
Proof.
  intros Hp. unfold item_children_indenting, item_indenting. destruct prev as [e|]; [|right; split; [discriminate | reflexivity]].
  destruct (skind_eqb (kind_of e) WHITESPACE) eqn:Ek.
  - apply skind_eqb_eq in Ek. rewrite Ek. destruct (ends_exists (text_of e)) as (own & He).
    rewrite (end_indenting_rev U _ own (Hp e eq_refl Ek) He). destruct own as [|c own].
    + right. split; [|reflexivity]. intros e' own' [= <-] _ He'. exact (ends_unique _ _ _ He' He).
    + left. exists e, (c :: own). split; [reflexivity|]. split; [exact Ek|]. split; [exact He|]. split; [discriminate|].
      destruct (rev (c :: own)) as [|d r] eqn:E; [|reflexivity]. apply (f_equal (@rev char)) in E. rewrite rev_involutive in E. discriminate.
  - right. split; [intros e' own [= <-] C; rewrite C, skind_eqb_refl in Ek; discriminate|]. destruct (kind_of e); try reflexivity. rewrite skind_eqb_refl in Ek. discriminate.
Qed.
Lemma white_no36 U i : unicode_ok U -> all_white U i -> ~ In 36%N i.
Proof. intros HU H C. apply H in C. rewrite (uo_whitespace U HU) in C by reflexivity. discriminate. Qed.
Lemma children_white U i : unicode_ok U -> all_white U (children_indent U i).
Proof. intros HU. apply item_children_indenting_white, HU. Qed.

(** ** Places *)
Lemma last_which p o l : match last_opt (filter (fun c : lelem => p (snd c)) (place o l)) with
  | Some it => exists a b, l = a ++ snd it :: b /\ p (snd it) = true /\ nothing p b /\ fst it = o + lens a
  | None => nothing p l
  end.
Proof.
  revert o. induction l as [|e l IH]; intros o; [intros x []|]. cbn [place filter snd]. specialize (IH (o + len_of e)).
  destruct (filter _ (place (o + len_of e) l)) as [|y ys] eqn:E.
  - cbn [last_opt] in IH. destruct (p e) eqn:Ep.
    + cbn [last_opt]. exists [], l. cbn [snd fst]. rewrite lens_nil. split; [reflexivity|]. split; [exact Ep|]. split; [exact IH | lia].
    + cbn [last_opt]. intros x [<-|Hx]; [exact Ep | exact (IH x Hx)].
  - match goal with |- context [last_opt ?x] => replace (last_opt x) with (last_opt (y :: ys)) by (destruct (p e); reflexivity) end.
    destruct (last_opt (y :: ys)) as [it|] eqn:Ei.
    + destruct IH as (a & b & -> & Hp & Hn & Ho). exists (e :: a), b. rewrite lens_cons. split; [reflexivity|]. split; [exact Hp|]. split; [exact Hn | lia].
    + exfalso. clear -Ei. revert y Ei. induction ys as [|z ys IH]; intros y Ei; [discriminate|]. exact (IH z Ei).
Qed.
Lemma first_which p o l : match filter (fun c : lelem => p (snd c)) (place o l) with
  | it :: _ => exists a b, l = a ++ snd it :: b /\ p (snd it) = true /\ nothing p a /\ fst it = o + lens a
  | [] => nothing p l
  end.
Proof.
  revert o. induction l as [|e l IH]; intros o; [intros x []|]. cbn [place filter snd]. specialize (IH (o + len_of e)). destruct (p e) eqn:Ep.
  - exists [], l. cbn [snd fst]. rewrite lens_nil. split; [reflexivity|]. split; [exact Ep|]. split; [intros x [] | lia].
  - destruct (filter _ (place (o + len_of e) l)) as [|y ys].
    + intros x [<-|Hx]; [exact Ep | exact (IH x Hx)].
    + destruct IH as (a & b & -> & Hp & Hn & Ho). exists (e :: a), b. rewrite lens_cons. split; [reflexivity|]. split; [exact Hp|].
      split; [intros x [<-|Hx]; [exact Ep | exact (Hn x Hx)] | lia].
Qed.
Lemma filter_two {A} (p q : A -> bool) l : filter q (filter p l) = filter (fun x => p x && q x) l.
Proof. induction l as [|x l IH]; [reflexivity|]. cbn [filter]. destruct (p x); cbn [filter andb]; [destruct (q x); rewrite IH; reflexivity | exact IH]. Qed.
Lemma nothing_app p a b : nothing p (a ++ b) <-> nothing p a /\ nothing p b.
Proof.
  split; [intros H; split; intros x Hx; apply H, in_or_app; [left | right]; exact Hx|]. intros [Ha Hb] x Hx. apply in_app_or in Hx as [Hx|Hx]; [exact (Ha x Hx) | exact (Hb x Hx)].
Qed.
Lemma braced_filter p o l : p lbrace = false -> p rbrace = false ->
  filter (fun c : lelem => p (snd c)) (place o (lbrace :: l ++ [rbrace])) = filter (fun c => p (snd c)) (place (o + 1) l).
Proof.
  intros H1 H2. cbn [place filter snd]. rewrite H1. change (len_of lbrace) with 1. rewrite place_app, filter_app. cbn [place filter snd]. rewrite H2, app_nil_r. reflexivity.
Qed.
Lemma lend_eq it : lend it = fst it + lens [snd it].
Proof. unfold lend. rewrite lens_cons, lens_nil. lia. Qed.
Lemma an_item_eq e : item_node e = an_item e.
Proof.
  destruct e as [k t|k cs]; [reflexivity|]. unfold item_node, an_item. cbn [is_tok negb andb kind_of]. destruct k; reflexivity.
Qed.
Lemma an_assoc_item_eq e : assoc_node e = an_assoc_item e.
Proof. destruct e as [k t|k cs]; reflexivity. Qed.
Lemma nothing_ext p q l : (forall e, p e = q e) -> nothing p l -> nothing q l.
Proof. intros H Hn x Hx. rewrite <- H. apply Hn, Hx. Qed.
Lemma after_last_ext p q a b : (forall e, p e = q e) -> after_last p a b -> after_last q a b.
Proof. intros H (a' & x & E & Hp & Hn). exists a', x. split; [exact E|]. split; [rewrite <- H; exact Hp | exact (nothing_ext p q b H Hn)]. Qed.
Section Lists.
  Variables (o : nat) (K : skind) (l : list elem).
  Let t : lelem := (o, braced K l).
  (** An offset in the list *)
  Definition at_split (P : list elem -> list elem -> Prop) (n : nat) : Prop := exists a b, l = a ++ b /\ P a b /\ n = o + 1 + lens a.
  Lemma braced_which p : p lbrace = false -> p rbrace = false -> children_which p t = filter (fun c : lelem => p (snd c)) (place (o + 1) l).
  Proof. intros H1 H2. unfold children_which, t, braced. cbn [snd fst]. apply braced_filter; assumption. Qed.
  Lemma braced_items k : items_of k t = filter (fun c : lelem => has_kind k (snd c)) (place (o + 1) l).
  Proof. unfold items_of, list_items. rewrite braced_which by reflexivity. rewrite filter_two. reflexivity. Qed.
  Lemma braced_open : child_token L_CURLY t = Some (o, (L_CURLY, lit "{")).
  Proof. reflexivity. Qed.
  Lemma last_split p it : last_opt (filter (fun c : lelem => p (snd c)) (place (o + 1) l)) = Some it -> at_split (after_last p) (lend it).
  Proof.
    intros E. pose proof (last_which p (o + 1) l) as H. rewrite E in H. destruct H as (a & b & El & Hp & Hn & Ho).
    exists (a ++ [snd it]), b. split; [rewrite <- app_assoc; exact El|]. split; [exists a, (snd it); auto|]. rewrite lend_eq, lens_app, Ho. lia.
  Qed.
  Lemma last_none p : last_opt (filter (fun c : lelem => p (snd c)) (place (o + 1) l)) = None -> nothing p l.
  Proof. intros E. pose proof (last_which p (o + 1) l) as H. rewrite E in H. exact H. Qed.
  Lemma split_or P Q n : at_split P n -> at_split (fun a b => P a b \/ Q a b) n.
  Proof. intros (a & b & H1 & H2 & H3). exists a, b. auto. Qed.
  Lemma split_orr P (Q : list elem -> list elem -> Prop) n : at_split Q n -> at_split (fun a b => P a b \/ Q a b) n.
  Proof. intros (a & b & H1 & H2 & H3). exists a, b. auto. Qed.
  Lemma split_and p (Q : list elem -> list elem -> Prop) n : nothing p l -> at_split Q n -> at_split (fun a b => nothing p (a ++ b) /\ Q a b) n.
  Proof. intros H (a & b & H1 & H2 & H3). exists a, b. rewrite <- H1. auto. Qed.
  Lemma split_start p : nothing p l -> at_split (fun a b => nothing p b /\ a = []) (o + 1).
  Proof. intros H. exists [], l. rewrite lens_nil. split; [reflexivity|]. split; [auto | lia]. Qed.
  Lemma start_split : at_split at_start (item_offset_start t).
  Proof.
    unfold item_offset_start, at_start. rewrite braced_items, braced_open. destruct (last_opt _) as [it|] eqn:E.
    - apply split_or, last_split, E.
    - apply split_orr. apply (split_start (has_kind USE)), last_none, E.
  Qed.
  Lemma end_split : match last_opt (list_items t) with Some it => at_split (after_last item_node) (item_offset_end t)
    | None => at_split (fun a b => nothing item_node b /\ a = []) (item_offset_end t) end.
  Proof.
    unfold item_offset_end, list_items. rewrite braced_which by reflexivity. destruct (last_opt _) as [it|] eqn:E.
    - apply last_split, E.
    - apply last_none in E. assert (Es : item_offset_start t = o + 1).
      { unfold item_offset_start. rewrite braced_items, braced_open. destruct (last_opt _) as [it|] eqn:E2; [|reflexivity].
        pose proof (last_which (has_kind USE) (o + 1) l) as H. rewrite E2 in H. destruct H as (a & b & El & Hp & _).
        unfold has_kind in Hp. rewrite (E (snd it)) in Hp; [discriminate|]. rewrite El. apply in_elt. }
      rewrite Es. apply split_start, E.
  Qed.
  Lemma split_ext (P Q : list elem -> list elem -> Prop) n : (forall a b, P a b -> Q a b) -> at_split P n -> at_split Q n.
  Proof. intros H (a & b & H1 & H2 & H3). exists a, b. auto. Qed.
  Lemma end_split' : at_split at_end (item_offset_end t).
  Proof.
    pose proof end_split as H. destruct (last_opt (list_items t)); [apply split_or | apply split_orr]; revert H; apply split_ext.
    - intros a b. apply after_last_ext, an_item_eq.
    - intros a b (H & ->). split; [exact (nothing_ext _ _ b an_item_eq H) | reflexivity].
  Qed.
  Lemma struct_split : at_split after_structs (item_offset_struct t).
  Proof.
    unfold item_offset_struct, after_structs. rewrite braced_items. destruct (last_opt _) as [it|] eqn:E.
    - apply split_or, last_split, E.
    - apply split_orr, split_and; [apply last_none, E | apply start_split].
  Qed.
  Lemma impl_split : at_split for_impl (item_offset_impl t).
  Proof.
    unfold item_offset_impl, for_impl. rewrite !braced_items. destruct (last_opt (filter (fun c : lelem => has_kind IMPL (snd c)) _)) as [it|] eqn:E; cbn [oor].
    - apply split_or, last_split, E.
    - apply split_orr, split_and; [apply last_none, E|]. destruct (last_opt (filter (fun c : lelem => has_kind STRUCT (snd c)) _)) as [it|] eqn:E2.
      + apply split_or, last_split, E2.
      + apply split_orr, split_and; [apply last_none, E2|]. pose proof (first_which (has_kind MODULE) (o + 1) l) as H.
        destruct (filter (fun c : lelem => has_kind MODULE (snd c)) _) as [|it r].
        * apply split_orr, split_and; [exact H | apply end_split'].
        * apply split_or. destruct H as (a & b & El & Hp & Hn & Ho). exists a, (snd it :: b). split; [exact El|]. split; [exists (snd it), b; auto|].
          unfold lstart. rewrite Ho. lia.
  Qed.
  Lemma assoc_start : assoc_offset_start t = o + 1.
  Proof. reflexivity. Qed.
  Lemma assoc_split : at_split assoc_at_end (assoc_offset_end t).
  Proof.
    unfold assoc_offset_end, assoc_at_end, assoc_items. rewrite braced_which by reflexivity. destruct (last_opt _) as [it|] eqn:E.
    - apply split_or. refine (split_ext (after_last assoc_node) _ _ _ (last_split _ _ E)). intros a b. apply after_last_ext, an_assoc_item_eq.
    - rewrite assoc_start. apply split_orr. apply split_start, (nothing_ext _ _ _ an_assoc_item_eq), last_none, E.
  Qed.
End Lists.
Lemma list_child pre K L head l tail : heads L head -> child_node L (at_place pre (item_with K L head l tail)) = Some (bytes (text pre) + lens head, braced L l).
Proof.
  intros H. unfold at_place, item_with. apply child_node_at. apply forallb_forall. intros e He. destruct e as [k s|k cs]; [reflexivity|].
  unfold node_of. cbn [is_tok negb andb kind_of]. destruct (skind_eqb k L) eqn:E; [|reflexivity]. apply skind_eqb_eq in E. subst k. exfalso. exact (H cs He).
Qed.
Lemma inserts_at pre post K L head a b tail edit : te_range edit = at_offset (bytes (text pre) + lens head + 1 + lens a) -> inserts pre post K L head a b tail edit.
Proof.
  intros E. unfold inserts, item_with. rewrite in_file_text. exists (text pre ++ texts_of head ++ lit "{" ++ texts_of a), [], (texts_of b ++ lit "}" ++ texts_of tail ++ text post).
  rewrite E. unfold at_offset. cbn [fst snd app]. split.
  - rewrite texts_of_app. change (texts_of (braced L (a ++ b) :: tail)) with (text_of (braced L (a ++ b)) ++ texts_of tail). unfold braced. rewrite text_of_node.
    change (texts_of (lbrace :: (a ++ b) ++ [rbrace])) with (lit "{" ++ texts_of ((a ++ b) ++ [rbrace])). rewrite !texts_of_app, <- !app_assoc. reflexivity.
  - rewrite app_nil_r, !bytes_app. change (bytes (lit "{")) with 1. unfold lens. split; [lia|]. split; [lia|]. rewrite <- !app_assoc. reflexivity.
Qed.

(** ** Names of items *)
Lemma node_name_spec q k cs x : node_name (q, Node k cs) = Some x <->
  exists a nm b, cs = a ++ Node NAME nm :: b /\ (forall ns, ~ In (Node NAME ns) a) /\ texts_of nm = x.
Proof.
  unfold node_name, child_node, child_nodes. cbn [snd fst]. pose proof (first_which (node_of NAME) q cs) as H. unfold node_of in H.
  change (fun c : lelem => negb (is_tok (snd c)) && skind_eqb (kind_of (snd c)) NAME) with (fun c : lelem => negb (is_tok (snd c)) && skind_eqb (lkind c) NAME) in H.
  destruct (filter _ _) as [|it r]; cbn [hd_error option_map].
  - split; [discriminate|]. intros (a & nm & b & E & _). specialize (H (Node NAME nm)). rewrite E in H. specialize (H (in_elt _ _ _)). discriminate.
  - destruct H as (a & b & E & Hp & Hn & _). apply andb_prop in Hp as [Ht Hk]. apply skind_eqb_eq in Hk. destruct (snd it) as [kk s|kk nm] eqn:Ei; [discriminate|].
    cbn [kind_of] in Hk. subst kk. rewrite text_of_node. split.
    + intros [= <-]. exists a, nm, b. split; [exact E|]. split; [|reflexivity]. intros ns C. specialize (Hn _ C). discriminate.
    + intros (a' & nm' & b' & E' & Hn' & <-). f_equal. f_equal. rewrite E in E'.
      assert (Ha : forall ns, ~ In (Node NAME ns) a) by (intros ns C; specialize (Hn _ C); discriminate).
      clear - E' Hn' Ha. revert a' E' Hn'. induction a as [|e a IH]; intros [|e' a'] E' Hn'; cbn [app] in E'.
      * injection E' as E' _. exact E'.
      * injection E' as E' _. subst e'. exfalso. exact (Hn' _ (or_introl eq_refl)).
      * injection E' as E' _. subst e. exfalso. exact (Ha _ (or_introl eq_refl)).
      * injection E' as _ E'. apply (IH (fun ns C => Ha ns (or_intror C)) a' E'). intros ns C. exact (Hn' ns (or_intror C)).
Qed.
Lemma names_spec (p : elem -> bool) k o l x : (forall e, p e = true <-> exists cs, e = Node k cs) ->
  In x (filter_map node_name (filter (fun c : lelem => p (snd c)) (place o l))) <-> declares k l x.
Proof.
  intros Hp. rewrite filter_map_In. split.
  - intros ([q e] & Hin & E). apply filter_In in Hin as [Hin He]. apply place_In in Hin. cbn [snd] in *. apply Hp in He as (cs & ->).
    apply node_name_spec in E as (a & nm & b & -> & Hn & Ex). exists a, nm, b. auto.
  - intros (a & nm & b & Hin & Hn & Ex).
    assert (Hq : exists q, In (q, Node k (a ++ Node NAME nm :: b)) (place o l)).
    { clear - Hin. revert o. induction l as [|e l IH]; intros o; [destruct Hin|]. cbn [place]. destruct Hin as [->|Hin]; [exists o; left; reflexivity|].
      destruct (IH Hin (o + len_of e)) as (q & Hq). exists q. right. exact Hq. }
    destruct Hq as (q & Hq). exists (q, Node k (a ++ Node NAME nm :: b)). split.
    + apply filter_In. split; [exact Hq|]. cbn [snd]. apply Hp. eexists. reflexivity.
    + apply node_name_spec. exists a, nm, b. auto.
Qed.
Lemma has_kind_spec k : is_item_kind more_items k = true -> forall e, has_kind k e = true <-> exists cs, e = Node k cs.
Proof.
  intros Hk e. unfold has_kind, item_node. split.
  - intros H. apply andb_prop in H as [H H2]. apply andb_prop in H as [H1 _]. apply skind_eqb_eq in H2. destruct e as [kk s|kk cs]; [discriminate|]. cbn [kind_of] in H2. subst kk. exists cs. reflexivity.
  - intros (cs & ->). cbn [is_tok negb kind_of andb]. rewrite Hk, skind_eqb_refl. reflexivity.
Qed.
Lemma item_names_spec k o K l x : is_item_kind more_items k = true -> In x (item_names k (Some (o, braced K l))) <-> declares k l x.
Proof. intros Hk. unfold item_names. rewrite braced_items. apply names_spec, has_kind_spec, Hk. Qed.
Lemma fn_names_spec pre K head l tail x : heads ASSOC_ITEM_LIST head ->
  In x (fn_names (at_place pre (item_with K ASSOC_ITEM_LIST head l tail))) <-> declares FN l x.
Proof.
  intros H. unfold fn_names, assoc_list. rewrite list_child by exact H. unfold assoc_items. rewrite braced_which by reflexivity. rewrite filter_two.
  apply (names_spec (fun e => assoc_node e && skind_eqb (kind_of e) FN)). intros e. split.
  - intros E. apply andb_prop in E as [E1 E2]. apply skind_eqb_eq in E2. destruct e as [kk s|kk cs]; [discriminate|]. cbn [kind_of] in E2. subst kk. exists cs. reflexivity.
  - intros (cs & ->). reflexivity.
Qed.

(** ** Texts with two replacements *)
Lemma selector_plain s x : str_replace (lit "#[ink(message)]") (lit "#[ink(message, selector = " ++ s ++ lit ")]") (str_replace (lit "handler") x MESSAGE_PLAIN)
  = unlines (shown (env_of (NSelectorMessage s) (lit "my_message")) (plain_parts (NSelectorMessage s))).
Proof.
  assert (E : forall y, str_replace (lit "#[ink(message)]") y (str_replace (lit "handler") x MESSAGE_PLAIN)
    = y ++ [c_nl] ++ unlines (map (flat_map (show (env_of NMessage (lit "my_message")))) (tl (plain_parts NMessage)))) by (intros y; vm_compute; reflexivity).
  rewrite E. cbn [shown map tl plain_parts flat_map show env_of second unlines]. rewrite <- !app_assoc. reflexivity.
Qed.
Lemma selector_snippet s x : str_replace (lit "#[ink(message)]") (lit "#[ink(message, selector = " ++ s ++ lit ")]") (str_replace (lit "handler") x MESSAGE_SNIPPET)
  = unlines (shown (env_of (NSelectorMessage s) (lit "my_message")) (snippet_parts (NSelectorMessage s))).
Proof.
  assert (E : forall y, str_replace (lit "#[ink(message)]") y (str_replace (lit "handler") x MESSAGE_SNIPPET)
    = y ++ [c_nl] ++ unlines (map (flat_map (show (env_of NMessage (lit "my_message")))) (tl (snippet_parts NMessage)))) by (intros y; vm_compute; reflexivity).
  rewrite E. cbn [shown map tl snippet_parts flat_map show env_of second unlines]. rewrite <- !app_assoc. reflexivity.
Qed.
Definition ext_entity (v : version) (id : N) : entity := match v with V4 => NExtension id | V5 => NFunction id end.
Definition ext_name (v : version) : str := match v with V4 => lit "my_extension" | V5 => lit "my_function" end.
Definition ext_plain (v : version) : str := match v with V4 => EXTENSION_FN_PLAIN | V5 => EXTENSION_FN_PLAIN_V5 end.
Definition ext_snippet (v : version) : str := match v with V4 => EXTENSION_FN_SNIPPET | V5 => EXTENSION_FN_SNIPPET_V5 end.
Lemma ext_texts v : templates (ext_name v) (ext_plain v) (ext_snippet v) (ext_entity v 1).
Proof. intros name. destruct v; split; cbn [shown map ext_entity snippet_parts plain_parts flat_map show env_of second unlines]; unfold hole; rewrite <- ?app_assoc; vm_compute; reflexivity. Qed.
Lemma not_occurs c pat s : In c pat -> ~ In c s -> ~ occurs pat s.
Proof. intros H Hn (a & b & ->). apply Hn. apply in_or_app. right. apply in_or_app. left. exact H. Qed.
Lemma ext_ids v id name : ~ In 93%N name ->
  str_replace (lit "1)]") (dec id ++ lit ")]") (str_replace (ext_name v) name (ext_plain v)) = unlines (shown (env_of (ext_entity v id) name) (plain_parts (ext_entity v id)))
  /\ str_replace (lit "1})]") (dec id ++ lit "})]") (str_replace (ext_name v) name (ext_snippet v)) = unlines (shown (env_of (ext_entity v id) name) (snippet_parts (ext_entity v id))).
Proof.
  intros Hn. destruct (ext_texts v name) as [-> ->].
  assert (H : forall pat by_ l1 l2, pat <> [] -> ~ In c_nl pat -> In 93%N pat -> ~ In 93%N l2 -> str_replace pat by_ (unlines [l1; l2]) = str_replace pat by_ l1 ++ [c_nl] ++ l2).
  { intros pat by_ l1 l2 Hp Hc H9 H2. cbn [unlines app]. rewrite str_replace_sep by assumption. rewrite (str_replace_id pat by_ l2 Hp (not_occurs _ _ _ H9 H2)). reflexivity. }
  assert (Hl : forall a b, no 93%N a && no 93%N b = true -> ~ In 93%N (a ++ name ++ b)).
  { intros a b E C. apply andb_prop in E as [E1 E2]. apply in_app_or in C as [C|C]; [exact (no_In _ _ E1 C)|]. apply in_app_or in C as [C|C]; [exact (Hn C) | exact (no_In _ _ E2 C)]. }
  assert (Hm : forall i a b, no 93%N a && no 93%N (lit "}" ++ b) = true -> no 93%N (a ++ lit "${" ++ dec i ++ lit ":") = true -> ~ In 93%N (a ++ hole i name ++ b)).
  { intros i a b E E3. unfold hole. assert (G : ~ In 93%N ((a ++ lit "${" ++ dec i ++ lit ":") ++ name ++ (lit "}" ++ b))) by (apply Hl; rewrite E3; apply andb_prop in E as [_ E]; exact E).
    rewrite <- !app_assoc in *. exact G. }
  assert (E1 : forall y, str_replace (lit "1)]") y (lit "#[ink(extension = " ++ dec 1 ++ lit ")]") = lit "#[ink(extension = " ++ y ++ []) by (intros y; vm_compute; reflexivity).
  assert (E2 : forall y, str_replace (lit "1)]") y (lit "#[ink(function = " ++ dec 1 ++ lit ")]") = lit "#[ink(function = " ++ y ++ []) by (intros y; vm_compute; reflexivity).
  assert (E3 : forall y, str_replace (lit "1})]") y (lit "#[ink(extension = " ++ hole 1 (dec 1) ++ lit ")]") = lit "#[ink(extension = ${1:" ++ y ++ []) by (intros y; vm_compute; reflexivity).
  assert (E4 : forall y, str_replace (lit "1})]") y (lit "#[ink(function = " ++ hole 1 (dec 1) ++ lit ")]") = lit "#[ink(function = ${1:" ++ y ++ []) by (intros y; vm_compute; reflexivity).
  destruct v; cbn [shown map ext_entity snippet_parts plain_parts flat_map show env_of second]; rewrite ?app_nil_r; split; rewrite H;
    try discriminate; try (apply no_In; reflexivity); try (vm_compute; tauto); try (apply Hl; reflexivity); try (apply Hm; reflexivity);
    rewrite ?E1, ?E2, ?E3, ?E4; cbn [unlines]; unfold hole; rewrite ?app_nil_r, <- ?app_assoc; reflexivity.
Qed.

(** ** Combined chain extensions *)
Definition comb_line (k : nat) : list part := [PT (lit "        pub ext" ++ dec (N.of_nat (S k)) ++ lit ": "); PV k; PT (lit ",")].
Definition comb_hole (k : nat) : list part :=
  [PT (lit "        pub "); PHT (2 * N.of_nat k + 2) (lit "ext" ++ dec (N.of_nat (S k))); PT (lit ": "); PHV (2 * N.of_nat k + 3) k; PT (lit ",")].
Definition comb_plain (n : nat) : list (list part) :=
  [[PT (lit "ink::combine_extensions! {")]; [PT (lit "    pub struct CombinedChainExtension {")]] ++ map comb_line (seq 0 n) ++ [[PT (lit "    }")]; [PT (lit "}")]].
Definition comb_snippet (n : nat) : list (list part) :=
  [[PT (lit "ink::combine_extensions! {")]; [PT (lit "    pub struct "); PHT 1 (lit "CombinedChainExtension"); PT (lit " {")]] ++ map comb_hole (seq 0 n) ++ [[PT (lit "    }")]; [PT (lit "}")]].
Lemma no_app c a b : no c (a ++ b) = no c a && no c b.
Proof.
  unfold no. rewrite <- negb_orb. f_equal. induction a as [|x a IH]; [reflexivity|]. cbn [app mem_char existsb]. unfold mem_char in *. cbn [existsb]. rewrite IH. apply orb_assoc.
Qed.
Lemma no_dec c n : ~ (48 <= c <= 57)%N -> no c (dec n) = true.
Proof. intros H. unfold no. destruct (mem_char c (dec n)) eqn:E; [|reflexivity]. apply mem_char_In in E. apply dec_range in E. contradiction. Qed.
Lemma ascii_dec n : forallb (fun c => (c <? 128)%N) (dec n) = true.
Proof. apply forallb_forall. intros c Hc. apply dec_range in Hc. apply N.ltb_lt. lia. Qed.
Lemma marks_app f a b : marks_of f (a ++ b) = marks_of f a ++ marks_of f b.
Proof. apply flat_map_app. Qed.
Lemma marks_refl a : marks_eqb a a = true.
Proof. induction a as [|[x|x] a IH]; [reflexivity|..]; cbn [marks_eqb sum_eqb]; [rewrite N.eqb_refl | rewrite Nat.eqb_refl]; exact IH. Qed.
Lemma comb_agree n : agrees (comb_plain n) (comb_snippet n) = true.
Proof.
  assert (N1 : forall k, no c_nl (dec k) = true) by (intros k; apply no_dec; unfold c_nl; lia).
  assert (N2 : forall k, no c_cr (dec k) = true) by (intros k; apply no_dec; unfold c_cr; lia).
  assert (N3 : forall k, no 36%N (dec k) = true) by (intros k; apply no_dec; lia).
  assert (N4 : forall k, no 125%N (dec k) = true) by (intros k; apply no_dec; lia).
  assert (Hl : forall k, line_ok (comb_line k) = true).
  { intros k. unfold line_ok, comb_line. cbn [forallb closed]. rewrite !no_app, N1, N2. reflexivity. }
  assert (Hh : forall k, line_ok (comb_hole k) = true).
  { intros k. unfold line_ok, comb_hole. cbn [forallb closed]. rewrite !no_app, N1, N2. reflexivity. }
  assert (Hok : forall k, parts_ok (comb_hole k) = true).
  { intros k. unfold comb_hole. cbn [parts_ok]. rewrite !no_app, N4. reflexivity. }
  assert (Ha : forall k, forallb ascii_part (comb_line k) = true).
  { intros k. unfold comb_line, ascii_part. cbn [forallb closed]. rewrite !forallb_app, ascii_dec. reflexivity. }
  assert (Hb : forall k, forallb ascii_part (comb_hole k) = true).
  { intros k. unfold comb_hole, ascii_part. cbn [forallb closed]. rewrite !forallb_app, ascii_dec. reflexivity. }
  assert (Hm : forall k, marks_of fill_mark (comb_line k) = marks_of fill_mark (comb_hole k)).
  { intros k. unfold marks_of, comb_line, comb_hole. cbn [flat_map fill_mark]. rewrite !filter_app, !map_app, !app_nil_r. cbn [app]. rewrite <- !app_assoc. reflexivity. }
  assert (Hmap : forall (f : list part -> bool) (g : nat -> list part) l, (forall k, f (g k) = true) -> forallb f (map g l) = true).
  { intros f g l H. apply forallb_forall. intros x Hx. apply in_map_iff in Hx as (k & <- & _). apply H. }
  assert (Hc : forall (f : part -> bool) (g : nat -> list part) l, (forall k, forallb f (g k) = true) -> forallb f (concat (map g l)) = true).
  { intros f g l H. induction l as [|k l IH]; [reflexivity|]. cbn [map concat]. rewrite forallb_app, H, IH. reflexivity. }
  assert (Hlast : forall a, last_opt (a ++ [[PT (lit "    }")]; [PT (lit "}")]]) = Some [PT (lit "}")]).
  { intros a. change (a ++ [[PT (lit "    }")]; [PT (lit "}")]]) with (a ++ [[PT (lit "    }")]] ++ [[PT (lit "}")]]). rewrite app_assoc. apply last_opt_app. }
  unfold agrees, text_ok, comb_plain, comb_snippet. rewrite !app_assoc, !Hlast, !forallb_app, !concat_app, !forallb_app, !marks_app.
  rewrite !(Hmap line_ok) by assumption. rewrite (Hmap parts_ok) by assumption. rewrite !(Hc ascii_part) by assumption.
  rewrite (Hc (fun p => match p with PT _ | PV _ => true | _ => false end)) by (intros k; reflexivity).
  replace (marks_of fill_mark (concat (map comb_line (seq 0 n)))) with (marks_of fill_mark (concat (map comb_hole (seq 0 n))))
    by (induction (seq 0 n) as [|k l IH]; [reflexivity|]; cbn [map concat]; rewrite !marks_app, IH, Hm; reflexivity).
  set (m := marks_of fill_mark (concat (map comb_hole (seq 0 n)))).
  assert (Em : forall a b c, marks_eqb (a ++ b ++ c) (a ++ b ++ c) = true) by (intros; apply marks_refl).
  replace (marks_of fill_mark (concat [[PT (lit "ink::combine_extensions! {")]; [PT (lit "    pub struct "); PHT 1 (lit "CombinedChainExtension"); PT (lit " {")]]))
    with (marks_of fill_mark (concat [[PT (lit "ink::combine_extensions! {")]; [PT (lit "    pub struct CombinedChainExtension {")]])) by (vm_compute; reflexivity).
  rewrite marks_refl. reflexivity.
Qed.
Lemma comb_fields_shown (env : nat -> str) : forall paths k, (forall j, j < length paths -> env (k + j) = nth j paths []) ->
  map fst (combine_fields (N.of_nat k) paths) = map (flat_map (show env)) (map comb_line (seq k (length paths)))
  /\ map snd (combine_fields (N.of_nat k) paths) = map (flat_map (show env)) (map comb_hole (seq k (length paths)))
  /\ combined_fields (S k) paths = map (flat_map (show env)) (map comb_line (seq k (length paths))).
Proof.
  induction paths as [|p ps IH]; intros k H; [auto|]. cbn [combine_fields length seq map combined_fields fst snd].
  assert (Hp : env k = p) by (specialize (H 0 ltac:(cbn; lia)); rewrite Nat.add_0_r in H; exact H).
  destruct (IH (S k)) as (E1 & E2 & E3).
  { intros j Hj. specialize (H (S j) ltac:(cbn; lia)). cbn [nth] in H. rewrite <- H. f_equal. lia. }
  replace (N.of_nat k + 1)%N with (N.of_nat (S k)) by lia. rewrite E1, E2, E3. clear E1 E2 E3 IH.
  replace (1 + N.of_nat k * 2 + 1)%N with (2 * N.of_nat k + 2)%N by lia. replace (2 * N.of_nat k + 2 + 1)%N with (2 * N.of_nat k + 3)%N by lia.
  split; [|split]; apply (f_equal2 cons); try reflexivity; unfold comb_line, comb_hole, FIELD_INDENT; cbn [flat_map show]; unfold hole; rewrite Hp, ?app_nil_r, <- ?app_assoc; reflexivity.
Qed.
Lemma join_lines_unlines : join_lines = unlines.
Proof. reflexivity. Qed.
Lemma unlines_two a b : a <> [] -> b <> [] -> unlines (a ++ b) = unlines a ++ [c_nl] ++ unlines b.
Proof.
  intros Ha Hb. induction a as [|x [|y a] IH]; [contradiction|..].
  - cbn [app]. destruct b as [|z b]; [contradiction|]. reflexivity.
  - change (unlines ((x :: y :: a) ++ b)) with (x ++ [c_nl] ++ unlines ((y :: a) ++ b)). rewrite IH by discriminate. change (unlines (x :: y :: a)) with (x ++ [c_nl] ++ unlines (y :: a)). rewrite <- !app_assoc. reflexivity.
Qed.
Lemma comb_plain_hit y : str_replace (join_lines [lit "        pub ext1: Extension1,"; lit "        pub ext2: Extension2,"]) y COMBINE_PLAIN
  = lit "ink::combine_extensions! {" ++ [c_nl] ++ lit "    pub struct CombinedChainExtension {" ++ [c_nl] ++ y ++ [c_nl] ++ lit "    }" ++ [c_nl] ++ lit "}".
Proof. vm_compute. reflexivity. Qed.
Lemma comb_snippet_hit y : str_replace (join_lines [lit "        pub ${2:ext1}: ${3:Extension1},"; lit "        pub ${4:ext2}: ${5:Extension2},"]) y COMBINE_SNIPPET
  = lit "ink::combine_extensions! {" ++ [c_nl] ++ lit "    pub struct ${1:CombinedChainExtension} {" ++ [c_nl] ++ y ++ [c_nl] ++ lit "    }" ++ [c_nl] ++ lit "}".
Proof. vm_compute. reflexivity. Qed.
Lemma combine_wrote U r indent paths : unicode_ok U -> (forall p, In p paths -> clean p) -> all_white U (opt_str indent) -> length paths <> 1 ->
  wrote U [] (opt_str indent) [] (combined (match paths with [] => [lit "Extension1"; lit "Extension2"] | _ => paths end)) (add_combine r indent paths).
Proof.
  intros HU Hc Hw H1.
  assert (Hgen : forall ps F, (forall p, In p ps -> clean p) -> F <> 0 -> F = length ps -> forall env, (forall j, j < length ps -> env j = nth j ps []) ->
    unlines (shown env (comb_plain F)) = lit "ink::combine_extensions! {" ++ [c_nl] ++ lit "    pub struct CombinedChainExtension {" ++ [c_nl] ++ unlines (map fst (combine_fields 0 ps)) ++ [c_nl] ++ lit "    }" ++ [c_nl] ++ lit "}"
    /\ unlines (shown env (comb_snippet F)) = lit "ink::combine_extensions! {" ++ [c_nl] ++ lit "    pub struct ${1:CombinedChainExtension} {" ++ [c_nl] ++ unlines (map snd (combine_fields 0 ps)) ++ [c_nl] ++ lit "    }" ++ [c_nl] ++ lit "}"
    /\ shown env (comb_plain F) = combined ps).
  { intros ps F Hps HF -> env He. destruct (comb_fields_shown env ps 0 He) as (E1 & E2 & E3). cbn [N.of_nat] in *. rewrite E1, E2.
    unfold shown, comb_plain, comb_snippet, combined. rewrite !map_app, E3.
    assert (Hn : forall g : nat -> list part, map (flat_map (show env)) (map g (seq 0 (length ps))) <> []) by (intros g C; destruct (length ps); [contradiction | discriminate]).
    rewrite !unlines_two; try discriminate; try apply Hn; try (intros C; apply app_eq_nil in C as [_ C]; discriminate).
    split; [|split]; [cbn [map unlines flat_map show app]; rewrite <- ?app_assoc; reflexivity| |reflexivity].
    cbn [map unlines flat_map show app]. unfold hole. rewrite <- ?app_assoc. reflexivity. }
  assert (Hfin : forall ps P S, (forall p, In p ps -> clean p) -> length ps <> 0 ->
    P = lit "ink::combine_extensions! {" ++ [c_nl] ++ lit "    pub struct CombinedChainExtension {" ++ [c_nl] ++ unlines (map fst (combine_fields 0 ps)) ++ [c_nl] ++ lit "    }" ++ [c_nl] ++ lit "}" ->
    S = lit "ink::combine_extensions! {" ++ [c_nl] ++ lit "    pub struct ${1:CombinedChainExtension} {" ++ [c_nl] ++ unlines (map snd (combine_fields 0 ps)) ++ [c_nl] ++ lit "    }" ++ [c_nl] ++ lit "}" ->
    wrote U [] (opt_str indent) [] (combined ps) (edit_with_indent (P, S) r indent)).
  { intros ps P S Hps Hl EP ES. destruct (Hgen ps (length ps) Hps Hl eq_refl (fun j => nth j ps []) ltac:(auto)) as (E1 & E2 & E3).
    rewrite <- E1 in EP. rewrite <- E2 in ES.
    pose proof (wrote_parts U (fun j => nth j ps []) (comb_plain (length ps)) (comb_snippet (length ps)) (opt_str indent) [] [] r HU) as W. cbn [app] in W. rewrite !app_nil_r in W.
    assert (W' : wrote U [] (opt_str indent) [] (combined ps) (edit_replace_snippet (apply_indenting P (opt_str indent)) r (Some (apply_indenting S (opt_str indent))))).
    { rewrite <- E3, EP, ES. apply W; try assumption; [|intros []|split; [intros [] | discriminate]|apply comb_agree].
      intros v. destruct (nth_in_or_default v ps []) as [Hv| ->]; [exact (Hps _ Hv) | intros c []]. }
    unfold edit_with_indent, indented_edit. destruct indent as [i|]; exact W'. }
  destruct paths as [|p [|q ps]]; [| exfalso; apply H1; reflexivity |].
  - apply Hfin; [intros p [<-|[<-|[]]]; apply cleanb_ok; reflexivity | discriminate | vm_compute; reflexivity | vm_compute; reflexivity].
  - unfold add_combine. remember (combine_fields 0 (p :: q :: ps)) as fs eqn:Ef. destruct fs as [|f1 [|f2 fs]]; [discriminate | discriminate|].
    cbn [length Nat.ltb Nat.leb]. rewrite !comb_plain_hit, !comb_snippet_hit, !(join_unlines (map _ _)). apply Hfin; [exact Hc | discriminate |..]; rewrite <- Ef; reflexivity.
Qed.

(** ** Fields *)
Lemma closest_in g h l x : closest_which g h l = Some x -> In x l.
Proof. induction l as [|y l IH]; cbn [closest_which]; [discriminate|]. destruct (g y); [intros [= <-]; left; reflexivity|]. destruct (h y); [discriminate|]. intros H. right. apply IH, H. Qed.
Lemma delimiter_done toks t k : exists r, token_and_delimiter_range toks t k = Done r /\ fst r <= lf_start t.
Proof.
  unfold token_and_delimiter_range. set (nx := closest_delimiter k (leaves_after toks t)).
  set (pv := match nx with None => closest_delimiter k (leaves_before toks t) | Some _ => None end).
  assert (H1 : lf_start (match pv with Some p => p | None => t end) <= lf_start t).
  { destruct pv as [p|] eqn:E; [|lia]. unfold pv in E. destruct nx; [discriminate|]. apply closest_in in E. unfold leaves_before in E. apply in_rev in E. apply filter_In in E as [_ E].
    apply Nat.leb_le in E. pose proof (lf_le p). lia. }
  assert (H2 : lf_start t <= lf_end (match nx with Some n => n | None => t end)).
  { destruct nx as [n|] eqn:E; [|apply lf_le]. unfold nx in E. apply closest_in in E. unfold leaves_after in E. apply filter_In in E as [_ E]. apply Nat.leb_le in E. pose proof (lf_le n). pose proof (lf_le t). lia. }
  unfold mk_range. rewrite (proj2 (Nat.leb_le _ _)) by lia. eexists. split; [reflexivity|]. exact H1.
Qed.
Lemma last_here (p : elem -> bool) o a x b : p x = true -> nothing p b -> last_opt (filter (fun c : lelem => p (snd c)) (place o (a ++ x :: b))) = Some (o + lens a, x).
Proof.
  intros Hx Hb. rewrite place_app, filter_app. cbn [place filter snd]. rewrite Hx. replace (filter (fun c : lelem => p (snd c)) (place _ b)) with (@nil lelem).
  - apply last_opt_app.
  - symmetry. apply filter_none. intros c Hc. apply place_In in Hc. exact (Hb _ Hc).
Qed.
Lemma blank_nothing p l : (forall k s, p (Tok k s) = false) -> blank l -> nothing p l.
Proof. intros Hp H x Hx. unfold blank in H. rewrite Forall_forall in H. destruct (H x Hx) as (k & t & -> & _). apply Hp. Qed.
Lemma node_of_tok k kk s : node_of k (Tok kk s) = false.
Proof. reflexivity. Qed.
Lemma fields_end k items body : fields k items body -> match last_opt items with
  | None => items = [] /\ blank body
  | Some f => exists its a' rest, items = its ++ [f] /\ field_ok k f /\ body = a' ++ f :: rest
      /\ (blank rest \/ exists w b, rest = w ++ comma :: b /\ blank w /\ blank b)
  end.
Proof.
  induction 1 as [t Ht|e t1 t2 He H1 H2|e t1 t2 t3 He H1 H2 H3|e t1 t2 f l body He H1 H2 Hb IH].
  - split; [reflexivity | exact Ht].
  - cbn [last_opt]. exists [], t1, t2. split; [reflexivity|]. split; [exact He|]. split; [reflexivity|]. left. exact H2.
  - cbn [last_opt]. exists [], t1, (t2 ++ comma :: t3). split; [reflexivity|]. split; [exact He|]. split; [reflexivity|]. right. exists t2, t3. auto.
  - change (last_opt (e :: f :: l)) with (last_opt (f :: l)). destruct (last_opt (f :: l)) as [g|] eqn:E.
    + destruct IH as (its & a' & rest & -> & Hg & -> & Hr). exists (e :: its), (t1 ++ e :: t2 ++ comma :: a'), rest. split; [reflexivity|]. split; [exact Hg|]. split; [|exact Hr].
      rewrite <- app_assoc. cbn [app]. rewrite <- app_assoc. reflexivity.
    + destruct IH as [C _]. discriminate.
Qed.
Definition field_test (c : lelem) : bool := negb (is_tok (snd c)) && (skind_eqb (lkind c) RECORD_FIELD_LIST || skind_eqb (lkind c) TUPLE_FIELD_LIST).
Lemma field_list_at pre K head body tail : no_field_list head ->
  field_list (at_place pre (item_with K RECORD_FIELD_LIST head body tail)) = Some (bytes (text pre) + lens head, braced RECORD_FIELD_LIST body).
Proof.
  intros [H1 H2]. unfold field_list, at_place, item_with. cbn [snd fst]. fold field_test. rewrite place_app.
  assert (G : forall o, find field_test (place o head) = None).
  { induction head as [|e hs IH]; intros o; [reflexivity|]. cbn [place find]. assert (IH' : forall o, find field_test (place o hs) = None) by (apply IH; intros cs C; [apply (H1 cs) | apply (H2 cs)]; right; exact C).
    unfold field_test at 1. cbn [snd]. destruct e as [kk s|kk cs]; cbn [is_tok negb andb]; [apply IH'|].
    unfold lkind. cbn [snd kind_of]. destruct (skind_eqb kk RECORD_FIELD_LIST) eqn:E1; [apply skind_eqb_eq in E1; subst kk; exfalso; apply (H1 cs); left; reflexivity|].
    destruct (skind_eqb kk TUPLE_FIELD_LIST) eqn:E2; [apply skind_eqb_eq in E2; subst kk; exfalso; apply (H2 cs); left; reflexivity|].
    apply IH'. }
  assert (F : forall l1 l2, find field_test l1 = None -> find field_test (l1 ++ l2) = find field_test l2).
  { intros l1 l2. induction l1 as [|y l1 IH]; intros Hf; [reflexivity|]. cbn [find app] in *. destruct (field_test y); [discriminate | apply IH, Hf]. }
  change (find (fun c : nat * elem => negb (is_tok (snd c)) && (skind_eqb (lkind c) RECORD_FIELD_LIST || skind_eqb (lkind c) TUPLE_FIELD_LIST))) with (find field_test).
  rewrite F by apply G. reflexivity.
Qed.
Lemma field_nodes o body : child_nodes RECORD_FIELD (o, braced RECORD_FIELD_LIST body) = filter (fun c : lelem => node_of RECORD_FIELD (snd c)) (place (o + 1) body).
Proof. unfold child_nodes, braced. cbn [snd fst]. apply (braced_filter (node_of RECORD_FIELD)); reflexivity. Qed.
Lemma fields_names pre K head body tail x : no_field_list head ->
  In x (field_names (at_place pre (item_with K RECORD_FIELD_LIST head body tail))) <-> declares RECORD_FIELD body x.
Proof.
  intros H. unfold field_names. rewrite field_list_at by exact H.
  change (skind_eqb (lkind (bytes (text pre) + lens head, braced RECORD_FIELD_LIST body)) RECORD_FIELD_LIST) with true. cbn iota.
  rewrite field_nodes. apply (names_spec (node_of RECORD_FIELD)).
  intros e. unfold node_of. split.
  - intros G. apply andb_prop in G as [G1 G2]. apply skind_eqb_eq in G2. destruct e as [kk s|kk cs]; [discriminate|]. cbn [kind_of] in G2. subst kk. exists cs. reflexivity.
  - intros (cs & ->). reflexivity.
Qed.
Lemma item_leaves pre K L head a b tail (post : list (skind * str)) : file_leaves pre (item_with K L head (a ++ b) tail) post
  = place_leaves 0 ((pre ++ leaves_of head ++ (L_CURLY, lit "{") :: leaves_of a) ++ leaves_of b ++ (R_CURLY, lit "}") :: leaves_of tail ++ post).
Proof.
  unfold file_leaves, item_with. f_equal. rewrite leaves_node. rewrite leaves_of_app. change (leaves_of (braced L (a ++ b) :: tail)) with (leaves (braced L (a ++ b)) ++ leaves_of tail).
  unfold braced. rewrite leaves_node. change (leaves_of (lbrace :: (a ++ b) ++ [rbrace])) with ((L_CURLY, lit "{") :: leaves_of ((a ++ b) ++ [rbrace])). rewrite !leaves_of_app.
  rewrite <- !app_assoc. cbn [app]. rewrite <- !app_assoc. reflexivity.
Qed.
Lemma field_place_spec pre post K head body tail items indent : fields RECORD_FIELD items body ->
  exists a b sep, body = a ++ b /\ field_gap items a b sep
  /\ exists p, field_end (file_leaves pre (item_with K RECORD_FIELD_LIST head body tail) post) indent (bytes (text pre) + lens head, braced RECORD_FIELD_LIST body)
     = Done (bytes (text pre) + lens head + 1 + lens a, (p, None)) /\ opt_str p = sep.
Proof.
  intros Hf. apply fields_end in Hf. set (o := bytes (text pre) + lens head). unfold field_end.
  change (skind_eqb (lkind (o, braced RECORD_FIELD_LIST body)) RECORD_FIELD_LIST) with true. cbn iota. rewrite field_nodes.
  destruct (last_opt items) as [f|].
  - destruct Hf as (its & a' & rest & Ei & (cs & Ef & Hs & _) & Eb & Hr). destruct Hs as (Htok & _ & (r0 & t & El & Ht)).
    assert (Hrest : nothing (node_of RECORD_FIELD) rest).
    { destruct Hr as [Hr|(w & b & -> & Hw & Hb)]; [apply blank_nothing; [reflexivity | exact Hr]|].
      apply nothing_app. split; [apply blank_nothing; [reflexivity | exact Hw]|]. intros x [<-|Hx]; [reflexivity|]. exact (blank_nothing _ _ (fun _ _ => eq_refl) Hb x Hx). }
    assert (Hfn : node_of RECORD_FIELD f = true) by (rewrite Ef; reflexivity).
    rewrite Eb, (last_here _ _ _ _ _ Hfn Hrest). set (q := o + 1 + lens a').
    assert (Etn : snd t <> []). { unfold tokens_ok in Htok. rewrite El in Htok. apply Forall_app in Htok as [_ Htok]. inversion Htok. assumption. }
    assert (Hlast : elem_last_leaf (q, f) = Some (q + bytes (text r0), t)) by (rewrite Ef; apply last_leaf, El).
    set (A := pre ++ leaves_of head ++ (L_CURLY, lit "{") :: leaves_of a' ++ r0).
    assert (HA : bytes (text A) = q + bytes (text r0)).
    { unfold A, q, o. rewrite !text_app, !bytes_app. change (text ((L_CURLY, lit "{") :: leaves_of a' ++ r0)) with (lit "{" ++ text (leaves_of a' ++ r0)).
      rewrite bytes_app, text_app, bytes_app, !text_leaves_of. change (bytes (lit "{")) with 1. unfold lens. lia. }
    assert (Hlen : len_of f = bytes (text r0) + bytes (snd t)).
    { rewrite Ef, len_node. unfold lens. rewrite <- text_leaves_of, El, text_app, bytes_app. cbn [text flat_map]. rewrite app_nil_r. reflexivity. }
    assert (Etoks : file_leaves pre (item_with K RECORD_FIELD_LIST head (a' ++ f :: rest) tail) post = place_leaves 0 (A ++ t :: leaves_of rest ++ (R_CURLY, lit "}") :: leaves_of tail ++ post)).
    { rewrite item_leaves. f_equal. change (leaves_of (f :: rest)) with (leaves f ++ leaves_of rest). rewrite Ef, leaves_node, El. unfold A. rewrite <- !app_assoc. cbn [app]. rewrite <- !app_assoc. reflexivity. }
    rewrite Etoks. unfold node_and_delimiter_range, field_prefix. rewrite Hlast. cbn [obind]. rewrite <- HA.
    pose proof (after_place 0 A t (leaves_of rest ++ (R_CURLY, lit "}") :: leaves_of tail ++ post) Etn) as Eaf. cbn [Nat.add] in Eaf. rewrite Eaf.
    assert (Hend : lend (q, f) = bytes (text A) + bytes (snd t)) by (unfold lend; cbn [fst snd]; rewrite Hlen, HA; lia).
    destruct Hr as [Hr|(w & b & -> & Hw & Hb)].
    + exists (a' ++ [f]), rest, (lit "," ++ [c_nl]). split; [rewrite <- app_assoc; reflexivity|].
      split; [right; left; exists a', f, its; auto|].
      assert (E1 : snd (match token_and_delimiter_range (place_leaves 0 (A ++ t :: leaves_of rest ++ (R_CURLY, lit "}") :: leaves_of tail ++ post)) (bytes (text A), t) COMMA with Done r => r | Panic => (0, 0) end) = bytes (text A) + bytes (snd t)
        /\ exists r, token_and_delimiter_range (place_leaves 0 (A ++ t :: leaves_of rest ++ (R_CURLY, lit "}") :: leaves_of tail ++ post)) (bytes (text A), t) COMMA = Done r).
      { destruct (delimiter_done (place_leaves 0 (A ++ t :: leaves_of rest ++ (R_CURLY, lit "}") :: leaves_of tail ++ post)) (bytes (text A), t) COMMA) as (r & Er & _). rewrite Er. split; [|eexists; reflexivity].
        unfold token_and_delimiter_range in Er. rewrite Eaf, (no_next rest (R_CURLY, lit "}")) in Er by (try exact Hr; try reflexivity; discriminate).
        unfold mk_range in Er. destruct (_ <=? _); [|discriminate]. injection Er as <-. reflexivity. }
      destruct E1 as [E1 (r & Er)]. rewrite Er in E1. rewrite Er. cbn [obind_o]. rewrite E1, Hend, Nat.eqb_refl.
      destruct (elem_first_leaf (q, f)) as [t0|] eqn:E0.
      * destruct (delimiter_done (place_leaves 0 (A ++ t :: leaves_of rest ++ (R_CURLY, lit "}") :: leaves_of tail ++ post)) t0 COMMA) as (r2 & Er2 & Hle). rewrite Er2. cbn [obind_o].
        assert (Ht0 : lf_start t0 = q). { unfold elem_first_leaf in E0. cbn [fst snd] in E0. destruct (leaves f); [discriminate|]. injection E0 as <-. reflexivity. }
        unfold mk_range. rewrite (proj2 (Nat.leb_le _ _)) by lia. cbn [obind_o snd fst].
        rewrite (no_next rest (R_CURLY, lit "}")) by (try exact Hr; try reflexivity; discriminate). cbn [is_some negb orb].
        exists (Some (lit "," ++ [c_nl])). split; [|reflexivity]. f_equal. f_equal. rewrite lens_app, lens_cons, lens_nil, Hlen, HA. unfold q. lia.
      * exfalso. unfold elem_first_leaf in E0. cbn [fst snd] in E0. rewrite Ef, leaves_node, El in E0. destruct r0; discriminate.
    + exists (a' ++ f :: w ++ [comma]), b, [c_nl]. split; [rewrite <- app_assoc; cbn [app]; rewrite <- app_assoc; reflexivity|].
      split; [right; right; exists a', f, its, w; auto 8|].
      rewrite leaves_of_app, leaves_comma, <- app_assoc. cbn [app]. rewrite (delim_next A t w) by assumption. cbn [obind_o snd].
      assert (Ene : (bytes (text A) + bytes (snd t) + lens w + 1 =? lend (q, f)) = false) by (apply Nat.eqb_neq; lia). rewrite Ene. cbn [obind_o fst lrange_of].
      unfold mk_range. rewrite (proj2 (Nat.leb_le _ _)) by (unfold lstart; cbn [fst snd]; lia). cbn [obind_o snd fst].
      rewrite skip_blank by exact Hw. rewrite next_comma. cbn [is_some negb orb].
      exists (Some [c_nl]). split; [|reflexivity]. f_equal. f_equal. rewrite lens_app, lens_cons, lens_app, Hlen, HA. change (lens [comma]) with 1. unfold q. lia.
  - destruct Hf as [-> Hb]. exists [], body, []. split; [reflexivity|]. split; [left; auto|].
    pose proof (last_which (node_of RECORD_FIELD) (o + 1) body) as Hl.
    destruct (last_opt _) as [it|].
    + destruct Hl as (a & b & El & Hp & _). exfalso. pose proof (blank_nothing (node_of RECORD_FIELD) body (fun _ _ => eq_refl) Hb (snd it)) as C. rewrite C in Hp; [discriminate|]. rewrite El. apply in_elt.
    + exists None. split; [|reflexivity]. unfold field_start. change (skind_eqb (lkind (o, braced RECORD_FIELD_LIST body)) RECORD_FIELD_LIST) with true. cbn iota.
      change (child_token L_CURLY (o, braced RECORD_FIELD_LIST body)) with (Some (o, (L_CURLY, lit "{"))). unfold lf_end. cbn [fst snd]. change (bytes (lit "{")) with 1. rewrite lens_nil, Nat.add_0_r. reflexivity.
Qed.

(** ** Attributes *)
Definition attr_node (e : elem) : bool := negb (is_tok e) && skind_eqb (kind_of e) ATTR.
Lemma attr_node_inv e : attr_node e = true -> exists cs, e = Node ATTR cs.
Proof. intros H. apply andb_prop in H as [H1 H2]. apply skind_eqb_eq in H2. destruct e as [k s|k cs]; [discriminate|]. cbn [kind_of] in H2. subst k. exists cs. reflexivity. Qed.
Lemma front_skip l : front_only l -> exists w b, l = w ++ b /\ blank w /\ (b = [] \/ exists cs b', b = Node ATTR cs :: b' /\ solid cs).
Proof.
  induction 1 as [|e l He Hl (w & b & -> & Hw & Hb)]; [exists [], []; split; [reflexivity|]; split; [constructor | left; reflexivity]|].
  destruct He as [(cs & -> & Hs)|(k & s & -> & Hk & Hs)].
  - exists [], (Node ATTR cs :: w ++ b). split; [reflexivity|]. split; [constructor|]. right. exists cs, (w ++ b). auto.
  - exists (Tok k s :: w), b. split; [reflexivity|]. split; [constructor; [exists k, s; auto | exact Hw] | exact Hb].
Qed.
Lemma front_blank l : front_only l -> nothing attr_node l -> blank l.
Proof.
  induction 1 as [|e l He Hl IH]; intros Hn; [constructor|]. constructor; [|apply IH; intros x Hx; apply Hn; right; exact Hx].
  destruct He as [(cs & -> & Hs)|(k & s & -> & Hk & Hs)]; [specialize (Hn _ (or_introl eq_refl)); discriminate | exists k, s; auto].
Qed.
Section Front.
  Variables (pre post : list (skind * str)) (K : skind) (front core : list elem) (ink : elem -> bool).
  Hypothesis Hfront : front_only front.
  Hypothesis Hcore : begins_solid core.
  Hypothesis Hnone : forall cs, ~ In (Node ATTR cs) core.
  Let item := Node K (front ++ core).
  Let toks := file_leaves pre item post.
  Let o := bytes (text pre).
  Lemma core_nothing p : (forall e, p e = true -> attr_node e = true) -> nothing p core.
  Proof. intros Hp x Hx. destruct (p x) eqn:E; [|reflexivity]. apply Hp in E. apply attr_node_inv in E as (cs & ->). exfalso. exact (Hnone cs Hx). Qed.
  Lemma attrs_place p : (forall e, p e = true -> attr_node e = true) ->
    filter (fun c : lelem => p (snd c)) (place o (front ++ core)) = filter (fun c : lelem => p (snd c)) (place o front).
  Proof.
    intros Hp. rewrite place_app, filter_app. rewrite (filter_none _ (place _ core)); [apply app_nil_r|].
    intros c Hc. apply place_In in Hc. exact (core_nothing p Hp _ Hc).
  Qed.
  Lemma attr_next a' xs rest : front = a' ++ Node ATTR xs :: rest -> exists w b, rest = w ++ b /\ blank w /\ (b = [] \/ exists cs b', b = Node ATTR cs :: b')
    /\ exists t x, elem_last_leaf (o + lens a', Node ATTR xs) = Some t /\ closest_solid (leaves_after toks t) = Some x /\ lf_start x = o + lens (a' ++ Node ATTR xs :: w).
  Proof.
    intros E. pose proof Hfront as Hf. rewrite E in Hf. unfold front_only in Hf. apply Forall_app in Hf as [_ Hf]. inversion Hf as [|y ys Hy Hys]; subst y ys.
    destruct Hy as [(cs & [= <-] & Hs)|(k & s & C & _)]; [|discriminate]. destruct (front_skip _ Hys) as (w & b & -> & Hw & Hb).
    exists w, b. split; [reflexivity|]. split; [exact Hw|]. split; [destruct Hb as [->|(cs & b' & -> & _)]; [left; reflexivity | right; exists cs, b'; reflexivity]|].
    destruct Hs as (Htok & _ & (r & t & El & Ht)).
    assert (Etn : snd t <> []). { unfold tokens_ok in Htok. rewrite El in Htok. apply Forall_app in Htok as [_ Htok]. inversion Htok. assumption. }
    assert (Hbs : begins_solid (b ++ core)).
    { destruct Hb as [->|(cs & b' & -> & (_ & (t1 & r1 & E1 & Ht1) & _))]; [exact Hcore|]. exists t1, (r1 ++ leaves_of (b' ++ core)). split; [|exact Ht1].
      cbn [app]. change (leaves_of (Node ATTR cs :: b' ++ core)) with (leaves (Node ATTR cs) ++ leaves_of (b' ++ core)). rewrite leaves_node, E1. reflexivity. }
    set (A := pre ++ leaves_of a' ++ r).
    assert (HA : bytes (text A) = o + lens a' + bytes (text r)) by (unfold A, o; rewrite !text_app, !bytes_app, text_leaves_of; unfold lens; lia).
    destruct (after_token A t w (b ++ core) post Etn Hw Hbs) as (x & Ex & Es).
    exists (bytes (text A), t), x. split; [rewrite HA; apply last_leaf, El|]. split.
    - rewrite <- Ex. unfold toks, item, file_leaves. rewrite leaves_node, E. f_equal. f_equal. f_equal. unfold A.
      rewrite !leaves_of_app. change (leaves_of (Node ATTR xs :: w ++ b)) with (leaves (Node ATTR xs) ++ leaves_of (w ++ b)). rewrite leaves_node, El, leaves_of_app, <- ?app_assoc. cbn [app]. rewrite <- ?app_assoc. reflexivity.
    - assert (Hx : lens xs = bytes (text r) + bytes (snd t)) by (unfold lens; rewrite <- (text_leaves_of xs), El, text_app, bytes_app; cbn [text flat_map]; rewrite app_nil_r; reflexivity).
      rewrite Es, HA, lens_app, lens_cons, len_node, Hx. lia.
  Qed.
  Lemma ink_nodes : ink_attr_nodes ink (at_place pre item) = filter (fun c : lelem => is_ink ink (snd c)) (place o front).
  Proof.
    rewrite <- attrs_place by (intros e He; apply andb_prop in He; apply He). unfold ink_attr_nodes, child_nodes, at_place, item. cbn [snd fst]. rewrite filter_two. reflexivity.
  Qed.
  Lemma attr_offset_spec : exists a b, front = a ++ b /\ attr_place ink a b /\ attr_offset ink toks (at_place pre item) = o + lens a.
  Proof.
    unfold attr_offset. rewrite ink_nodes. pose proof (last_which (is_ink ink) o front) as H1.
    destruct (last_opt (filter (fun c : lelem => is_ink ink (snd c)) (place o front))) as [[q x]|].
    - destruct H1 as (a' & rest & E & Hx & Hn & Hq). cbn [snd fst] in *. subst q. pose proof Hx as Hx'. apply andb_prop in Hx' as [Hx' _]. apply attr_node_inv in Hx' as (xs & ->).
      destruct (attr_next a' xs rest E) as (w & b & -> & Hw & Hb & (t & y & Et & Ey & Es)). cbn [obind]. rewrite Et. cbn [oor obind]. rewrite Ey, Es.
      exists (a' ++ Node ATTR xs :: w), b. split; [rewrite E, <- app_assoc; reflexivity|]. split; [|reflexivity].
      left. exists a', (Node ATTR xs), w. split; [reflexivity|]. split; [exact Hx|]. split; [exact Hw|]. split; [apply nothing_app in Hn; apply Hn | exact Hb].
    - cbn [obind oor]. unfold last_attr_leaf.
      assert (Ec : child_nodes ATTR (at_place pre item) = filter (fun c : lelem => attr_node (snd c)) (place o front)) by (rewrite <- (attrs_place attr_node) by auto; reflexivity).
      rewrite Ec.
      pose proof (last_which attr_node o front) as H2. destruct (last_opt (filter (fun c : lelem => attr_node (snd c)) (place o front))) as [[q x]|].
      + destruct H2 as (a' & rest & E & Hx & Hn & Hq). cbn [snd fst] in *. subst q. apply attr_node_inv in Hx as (xs & ->).
        destruct (attr_next a' xs rest E) as (w & b & Er & Hw & Hb & (t & y & Et & Ey & Es)). cbn [obind]. rewrite Et. cbn [oor obind]. rewrite Ey, Es.
        assert (Eb : b = []). { destruct Hb as [->|(cs & b' & ->)]; [reflexivity|]. exfalso. rewrite Er in Hn. apply nothing_app in Hn as [_ Hn]. specialize (Hn _ (or_introl eq_refl)). discriminate. }
        subst b. rewrite app_nil_r in Er. subst rest. exists front, []. split; [rewrite app_nil_r; reflexivity|]. split; [right; rewrite app_nil_r; auto|]. rewrite E. reflexivity.
      + cbn [obind oor]. exists front, []. rewrite app_nil_r. split; [reflexivity|]. split; [right; rewrite app_nil_r; auto|].
        pose proof (front_blank _ Hfront H2) as Hb. unfold toks. change (at_place pre item) with (o, Node K (front ++ core)). unfold item. clear - Hb Hcore. unfold o. destruct front as [|e fr].
        * destruct Hcore as (t & r & Et & Ht). rewrite (first_leaf _ _ _ r t) by exact Et. cbn [lf_kind fst snd]. unfold lf_kind. cbn [fst snd]. rewrite Ht. cbn [obind]. rewrite lens_nil. unfold lstart, o. cbn [fst]. lia.
        * inversion Hb as [|y ys (k & s & -> & Hk & Hs) Hfr]; subst.
          rewrite (first_leaf _ _ _ (leaves_of (fr ++ core)) (k, s)) by reflexivity. unfold lf_kind. cbn [fst snd]. rewrite Hk. cbn [obind].
          destruct (after_token pre (k, s) fr core post Hs Hfr Hcore) as (x & Ex & Es). unfold file_leaves. rewrite leaves_node. cbn [app].
          change (leaves_of (Tok k s :: fr ++ core)) with ((k, s) :: leaves_of (fr ++ core)). rewrite leaves_of_app. cbn [app]. rewrite <- app_assoc, Ex, Es.
          rewrite lens_cons. cbn [snd]. change (len_of (Tok k s)) with (bytes s). unfold o. lia.
  Qed.
  Lemma first_attr_offset_spec : exists a b, front = a ++ b /\ first_attr_place ink a b /\ first_attr_offset ink toks (at_place pre item) = o + lens a.
  Proof.
    unfold first_attr_offset. rewrite ink_nodes. pose proof (first_which (is_ink ink) o front) as H1.
    destruct (filter (fun c : lelem => is_ink ink (snd c)) (place o front)) as [|[q x] r].
    - destruct attr_offset_spec as (a & b & E & Hp & Eo). exists a, b. split; [exact E|]. split; [right; split; [rewrite <- E; exact H1 | exact Hp] | exact Eo].
    - destruct H1 as (a & b & E & Hx & Hn & Hq). cbn [snd fst] in *. exists a, (x :: b). split; [exact E|]. split; [left; exists x, b; auto|]. exact Hq.
  Qed.
End Front.

(** ** Callables *)
Lemma find_prev (f : elem -> bool) x I y : (forall e, In e x -> f e = false) -> f I = true -> forall prev o,
  find (fun i => f (snd (im_item i))) (with_prev prev (place o (x ++ I :: y))) = Some (ItemAt (match last_opt x with Some e => Some e | None => prev end) (o + lens x, I)).
Proof.
  intros Hx HI. induction x as [|e x IH]; intros prev o; cbn [app place with_prev find im_item snd].
  - rewrite HI, lens_nil, Nat.add_0_r. reflexivity.
  - rewrite (Hx e (or_introl eq_refl)). rewrite IH by (intros d Hd; apply Hx; right; exact Hd). rewrite lens_cons, Nat.add_assoc. f_equal. f_equal.
    destruct x as [|d x]; [reflexivity|]. change (last_opt (e :: d :: x)) with (last_opt (d :: x)). destruct (last_opt (d :: x)) eqn:E; [reflexivity|].
    exfalso. clear - E. revert d E. induction x as [|c x IH]; intros d E; [discriminate | exact (IH c E)].
Qed.
Lemma find_prev_none (f : elem -> bool) l : (forall e, In e l -> f e = false) -> forall prev o, find (fun i => f (snd (im_item i))) (with_prev prev (place o l)) = None.
Proof.
  intros H. induction l as [|e l IH]; intros prev o; [reflexivity|]. cbn [place with_prev find im_item snd]. rewrite (H e (or_introl eq_refl)). apply IH. intros d Hd. apply H. right. exact Hd.
Qed.
Lemma find_filter {A} (p q : A -> bool) l : find q (filter p l) = find (fun x => p x && q x) l.
Proof. induction l as [|x l IH]; [reflexivity|]. cbn [filter find]. destruct (p x); cbn [find andb]; [destruct (q x); [reflexivity | exact IH] | exact IH]. Qed.
Definition inherentb (e : elem) : bool := item_node e && (skind_eqb (kind_of e) IMPL && negb (match e with Tok _ _ => false | Node _ cs => 2 <=? length (filter type_elem cs) end)).
Lemma inherentb_spec e : inherentb e = true <-> inherent e.
Proof.
  unfold inherentb, inherent. split.
  - intros H. apply andb_prop in H as [H1 H2]. apply andb_prop in H2 as [H2 H3]. apply skind_eqb_eq in H2. destruct e as [k s|k cs]; [discriminate|]. cbn [kind_of] in H2. subst k.
    exists cs. split; [reflexivity|]. apply negb_true_iff, Nat.leb_gt in H3. lia.
  - intros (cs & -> & H). cbn [kind_of]. rewrite (proj2 (Nat.leb_gt _ _)) by lia. reflexivity.
Qed.
Lemma of_trait_eq t : of_trait t = match snd t with Tok _ _ => false | Node _ cs => 2 <=? length (filter type_elem cs) end.
Proof.
  destruct t as [o [k s|k cs]]; [reflexivity|]. unfold of_trait, type_nodes. cbn [snd fst]. f_equal. rewrite <- (filter_place type_elem o cs), map_length. reflexivity.
Qed.
Lemma impl_find o K l : find (fun i => skind_eqb (lkind (im_item i)) IMPL && negb (of_trait (im_item i))) (items_with_prev (o, braced K l))
  = find (fun i => inherentb (snd (im_item i))) (with_prev None (place o (lbrace :: l ++ [rbrace]))).
Proof.
  unfold items_with_prev, braced. cbn [snd fst]. rewrite find_filter. generalize (with_prev None (place o (lbrace :: l ++ [rbrace]))). intros m.
  induction m as [|i m IH]; [reflexivity|]. cbn [find]. rewrite IH. replace (item_node (snd (im_item i)) && (skind_eqb (lkind (im_item i)) IMPL && negb (of_trait (im_item i)))) with (inherentb (snd (im_item i))); [reflexivity|].
  unfold inherentb. rewrite of_trait_eq. reflexivity.
Qed.
Lemma impl_found o K x I y : (forall e, In e x -> ~ inherent e) -> inherent I ->
  find (fun i => skind_eqb (lkind (im_item i)) IMPL && negb (of_trait (im_item i))) (items_with_prev (o, braced K (x ++ I :: y)))
  = Some (ItemAt (last_opt (lbrace :: x)) (o + 1 + lens x, I)).
Proof.
  intros Hx HI. rewrite impl_find. rewrite <- app_assoc. cbn [app]. change (lbrace :: x ++ I :: y ++ [rbrace]) with ((lbrace :: x) ++ I :: (y ++ [rbrace])).
  rewrite find_prev.
  - rewrite lens_cons. change (len_of lbrace) with 1. rewrite Nat.add_assoc. destruct (last_opt (lbrace :: x)) eqn:E; [reflexivity|].
    exfalso. clear - E. revert E. generalize lbrace. induction x as [|c x IH]; intros d E; [discriminate | exact (IH c E)].
  - intros e [<-|He]; [reflexivity|]. destruct (inherentb e) eqn:E; [|reflexivity]. apply inherentb_spec in E. exfalso. exact (Hx e He E).
  - apply inherentb_spec, HI.
Qed.
Lemma impl_not_found o K l : (forall e, In e l -> ~ inherent e) ->
  find (fun i => skind_eqb (lkind (im_item i)) IMPL && negb (of_trait (im_item i))) (items_with_prev (o, braced K l)) = None.
Proof.
  intros H. rewrite impl_find. apply find_prev_none. intros e [<-|He]; [reflexivity|]. apply in_app_or in He as [He|[<-|[]]]; [|reflexivity].
  destruct (inherentb e) eqn:E; [|reflexivity]. apply inherentb_spec in E. exfalso. exact (H e He E).
Qed.
