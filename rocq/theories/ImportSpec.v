(** What C93 means: use declarations as written, what they import, and what is left of them. *)
From Verif Require Import Base PositionModel TranslateModel SyntaxModel AttrModel EditSpec ArgEditSpec ArgEditModel RuleModel RuleSpec EntityModel EntitySpec
  ImportModel ChainSpec.

(** ** Use declarations *)

(** [a] or [p::a]; a leading [::] belongs to the first segment *)
Inductive upath := Seg (s : list elem) | Qual (p : upath) (sep : list elem) (s : list elem).
(** What follows a path that has no list: nothing, [as name] or [::*] *)
Inductive ending_of := Nothing | Alias (l : list elem) | Star (l : list elem).
(** A use tree: a path, or trees in braces with or without a path in front. The trees have blanks around them and are
    separated by commas; [trail] is what follows the comma after the last one, if it is there. *)
Inductive utree :=
  | One (p : upath) (e : ending_of)
  | Many (front : option (upath * list elem)) (l : list (list elem * utree * list elem)) (trail : option (list elem)).
Definition entry := (list elem * utree * list elem)%type.

Fixpoint path_node (p : upath) : elem :=
  match p with
  | Seg s => Node PATH [Node PATH_SEGMENT s]
  | Qual q sep s => Node PATH (path_node q :: sep ++ [Node PATH_SEGMENT s])
  end.
Definition ending_elems (e : ending_of) : list elem := match e with Nothing => [] | Alias l => l | Star l => l end.
Definition front_elems (f : option (upath * list elem)) : list elem := match f with Some (p, sep) => path_node p :: sep | None => [] end.
Definition trail_elems (t : option (list elem)) : list elem := match t with Some b => comma :: b | None => [] end.
Definition between (l : list (list elem * elem * list elem)) : list elem :=
  (fix go (l : list (list elem * elem * list elem)) : list elem :=
     match l with
     | [] => []
     | [(a, e, b)] => a ++ e :: b
     | (a, e, b) :: l' => a ++ e :: b ++ comma :: go l'
     end) l.
Definition lcurly : elem := Tok L_CURLY (lit "{").
Definition rcurly : elem := Tok R_CURLY (lit "}").
Fixpoint tree_node (t : utree) : elem :=
  match t with
  | One p e => Node USE_TREE (path_node p :: ending_elems e)
  | Many f l trail =>
      Node USE_TREE (front_elems f
        ++ [Node USE_TREE_LIST (lcurly :: between (map (fun x => match x with (a, s, b) => (a, tree_node s, b) end) l) ++ trail_elems trail ++ [rcurly])])
  end.
(** [attributes and visibility] use [tree] ; *)
Definition use_node (front : list elem) (t : utree) (gap : list elem) : elem :=
  Node USE (front ++ tree_node t :: gap ++ [Tok SEMICOLON (lit ";")]).

(** As the parser makes them: tokens are not empty, nodes neither start nor end with blanks, and there are no commas but those of lists. *)
Definition no_comma (l : list elem) : Prop := Forall (fun t : skind * str => fst t <> COMMA) (leaves_of l).
Definition no_node (k : skind) (l : list elem) : Prop := forall cs, ~ In (Node k cs) l.
Fixpoint path_ok (p : upath) : Prop :=
  match p with
  | Seg s => solid s /\ no_comma s
  | Qual q sep s => path_ok q /\ (exists a b, sep = a ++ Tok COLON2 (lit "::") :: b /\ blank a /\ blank b) /\ solid s /\ no_comma s
  end.
Definition ending_ok (e : ending_of) : Prop :=
  match e with Nothing => True | Alias l | Star l => tokens_ok l /\ ends_solid l /\ no_comma l /\ no_node PATH l /\ no_node USE_TREE_LIST l end.
Definition front_okay (f : option (upath * list elem)) : Prop :=
  match f with
  | Some (p, sep) => path_ok p /\ (exists a b, sep = a ++ Tok COLON2 (lit "::") :: b /\ blank a /\ blank b)
  | None => True
  end.
Definition trail_ok (t : option (list elem)) : Prop := match t with Some b => blank b | None => True end.
(** Lists have at least one tree. *)
Inductive tree_ok : utree -> Prop :=
  | ok_one p e : path_ok p -> ending_ok e -> tree_ok (One p e)
  | ok_many f l trail : front_okay f -> trail_ok trail -> l <> [] ->
      (forall a t b, In (a, t, b) l -> blank a /\ tree_ok t /\ blank b) -> tree_ok (Many f l trail).

(** ** What is imported *)

Fixpoint words (p : upath) : list str := match p with Seg s => [texts_of s] | Qual q _ s => words q ++ [texts_of s] end.
Definition prefix_of (f : option (upath * list elem)) : list str := match f with Some (p, _) => words p | None => [] end.
(** The paths that a tree imports; [*] for all of a module *)
Fixpoint imports (t : utree) : list (list str) :=
  match t with
  | One p (Star _) => [words p ++ [lit "*"]]
  | One p _ => [words p]
  | Many f l _ =>
      map (app (prefix_of f))
        ((fix go (l : list (list elem * utree * list elem)) : list (list str) :=
            match l with [] => [] | (_, s, _) :: l' => imports s ++ go l' end) l)
  end.
Definition imports_all (l : list entry) : list (list str) := flat_map (fun x : entry => imports (snd (fst x))) l.

Definition deprecated (w : list str) : Prop := w = [lit "ink_e2e"; lit "build_message"] \/ w = [lit "ink_e2e"; lit "MessageBuilder"].
Definition deprecatedb (w : list str) : bool :=
  match w with [a; b] => str_eqb a (lit "ink_e2e") && (str_eqb b (lit "build_message") || str_eqb b (lit "MessageBuilder")) | _ => false end.

(** The usual way to write imports: braces without a path stand at the top or in other such braces, and nothing is imported
    from inside of the function [build_message] or the type [MessageBuilder]. *)
Inductive with_path : utree -> Prop :=
  | path_one p e : with_path (One p e)
  | path_many p sep l trail : (forall a t b, In (a, t, b) l -> with_path t) -> with_path (Many (Some (p, sep)) l trail).
Inductive usual : utree -> Prop :=
  | usual_path t : with_path t -> usual t
  | usual_many l trail : (forall a t b, In (a, t, b) l -> usual t) -> usual (Many None l trail).
Definition from_inside (w : list str) : Prop := exists d x r, w = d ++ x :: r /\ deprecated d.

(** ** What is left *)

(** The second list is the first without some of its trees; what stays has at least the blanks it had. *)
Inductive fewer : list entry -> list entry -> Prop :=
  | fewer_nil : fewer [] []
  | fewer_gone x l l' : fewer l l' -> fewer (x :: l) l'
  | fewer_kept a t b x y t' l l' : smaller t t' -> blank x -> blank y -> fewer l l' ->
      fewer ((a, t, b) :: l) ((x ++ a, t', b ++ y) :: l')
with smaller : utree -> utree -> Prop :=
  | smaller_same t : smaller t t
  | smaller_many f l trail l' trail' : fewer l l' -> smaller (Many f l trail) (Many f l' trail').

(** The trees of a list that go: all that they import is deprecated. *)
Definition goes (f : list str) (t : utree) : Prop := Forall deprecated (map (app f) (imports t)).
(** Nowhere are the last two trees of a list without a comma at its end both to go, unless all of it goes. *)
Definition last_two_go (f : list str) (l : list entry) : Prop :=
  exists l0 a s b a' s' b', l = l0 ++ [(a, s, b); (a', s', b')] /\ goes f s /\ goes f s'.
Inductive clash (f : list str) : utree -> Prop :=
  | clash_here f' l : last_two_go (f ++ prefix_of f') l -> ~ goes f (Many f' l None) -> clash f (Many f' l None)
  | clash_below f' l trail a t b : In (a, t, b) l -> clash (f ++ prefix_of f') t -> clash f (Many f' l trail).

(** ** Files *)

(** What stands around a use declaration: no comma right before or after it. *)
Definition opens (post : list (skind * str)) : Prop :=
  (exists g, blank g /\ post = leaves_of g) \/ exists g x r, blank g /\ post = leaves_of g ++ x :: r /\ is_trivia (fst x) = false /\ fst x <> COMMA.
Definition closes (pre : list (skind * str)) : Prop :=
  (exists g, blank g /\ pre = leaves_of g) \/ exists g x r, blank g /\ pre = r ++ x :: leaves_of g /\ is_trivia (fst x) = false /\ fst x <> COMMA.
(** Attributes and visibility, the keyword and blanks; the first token is not followed by a comma. *)
Definition use_front (l : list elem) : Prop :=
  tokens_ok l /\ (exists x r, leaves_of l = x :: r /\ is_trivia (fst x) = false /\ fst x <> COMMA /\ opens r) /\ no_node USE_TREE l.
(** No use declaration inside of the parts *)
Fixpoint useless (e : elem) : Prop :=
  match e with
  | Tok _ _ => True
  | Node k cs => k <> USE /\ (fix go (l : list elem) : Prop := match l with [] => True | c :: l' => useless c /\ go l' end) cs
  end.

(** A scope: its tokens outside of use declarations, and its use declarations, in the order of the file *)
Inductive chunk := Plain (t : skind * str) | Import (front : list elem) (t : utree) (gap : list elem).
Definition chunk_leaves (c : chunk) : list (skind * str) := match c with Plain t => [t] | Import f t g => leaves (use_node f t g) end.
Inductive reads : list elem -> list chunk -> Prop :=
  | reads_nil : reads [] []
  | reads_token k s l c : reads l c -> reads (Tok k s :: l) (Plain (k, s) :: c)
  | reads_use f t g l c : reads l c -> reads (use_node f t g :: l) (Import f t g :: c)
  | reads_node k cs l c c' : k <> USE -> reads cs c -> reads l c' -> reads (Node k cs :: l) (c ++ c').

(** A use declaration in the usual form, whose removals do not meet *)
Definition import_ok (f : list elem) (t : utree) (g : list elem) : Prop :=
  use_front f /\ tree_ok t /\ blank g /\ Forall useless (f ++ [tree_node t]) /\ usual t /\ (forall w, In w (imports t) -> ~ from_inside w) /\ ~ clash [] t.
Definition imports_okay (pre post : list (skind * str)) (c : list chunk) : Prop :=
  forall c1 f t g c2, c = c1 ++ Import f t g :: c2 ->
    import_ok f t g /\ closes (pre ++ flat_map chunk_leaves c1) /\ opens (flat_map chunk_leaves c2 ++ post).

(** What becomes of the parts of a scope *)
Inductive becomes : chunk -> str -> Prop :=
  | becomes_same t : becomes (Plain t) (snd t)
  | becomes_nothing f t g : Forall deprecated (imports t) -> becomes (Import f t g) []
  | becomes_less f t g t' : ~ Forall deprecated (imports t) -> tree_ok t' -> smaller t t' ->
      imports t' = filter (fun w => negb (deprecatedb w)) (imports t) -> becomes (Import f t g) (text_of (use_node f t' g)).
