(** What C30, C31, C32, C47, C53, C64 mean, independently of how the code computes them. *)
From Verif Require Import Base Unicode PositionModel TemplateModel.

(** C30: [n] is the least id in [lo..max] that is not used. *)
Definition least_free (lo max : N) (used : list N) (n : N) : Prop :=
  (lo <= n <= max)%N /\ ~ In n used /\ (forall m, (lo <= m < n)%N -> In m used).

(** C31: the names tried: the preferred name, then it with suffix 2, 3, ... *)
Definition candidate (preferred : str) (i : nat) : str :=
  match i with 0 => preferred | S _ => preferred ++ dec (N.of_nat (S i)) end.

(** C32: [is_lines s ls]: the text [s] is the lines [ls] (without line feeds) with a line feed between any two. *)
Fixpoint unlines (ls : list str) : str :=
  match ls with [] => [] | [l] => l | l :: ls' => l ++ [c_nl] ++ unlines ls' end.
Definition is_lines (s : str) (ls : list str) : Prop :=
  s = unlines ls /\ ls <> [] /\ (forall l, In l ls -> ~ In c_nl l).
(** A text that does not end in a blank line and has no carriage returns. *)
Definition tidy (s : str) (ls : list str) : Prop :=
  is_lines s ls /\ ~ In c_cr s /\ (exists pre l, ls = pre ++ [l] /\ l <> []).

(** A line indented by [i]: blank lines stay blank. *)
Definition indented (i l l' : str) : Prop := (l = [] /\ l' = []) \/ (l <> [] /\ l' = i ++ l).
(** A line with the indentation [i] removed, if it has it. *)
Definition dedented (i l l' : str) : Prop := l = i ++ l' \/ (l' = l /\ ~ exists r, l = i ++ r).

(** C64: the indentation at the end of a whitespace text: what follows its last line feed. *)
Definition ends_with_indent (ws indent : str) : Prop :=
  ~ In c_nl indent /\ (ws = indent \/ exists pre, ws = pre ++ c_nl :: indent).

(** C47: templates as text with holes for the module and the type. *)
Inductive piece := Text (s : str) | ModuleName | TypeName.
Definition expand (module type : str) (l : list piece) : str :=
  flat_map (fun p => match p with Text s => s | ModuleName => module | TypeName => type end) l.
Definition occurs (pat s : str) : Prop := exists a b, s = a ++ pat ++ b.

(** [t] is a template with the holes [l]. *)
Definition template_of (t : str) (l : list piece) : Prop :=
  t = expand (lit "my_contract") (lit "MyContract") l
  /\ forall s, In (Text s) l -> ~ occurs (lit "my_contract") s /\ ~ occurs (lit "MyContract") s.

(** Valid project names. *)
Definition valid_name (U : unicode) (name : str) : Prop :=
  (exists c r, name = c :: r /\ u_alphabetic U c = true)
  /\ (forall c, In c name -> u_alphanumeric U c = true \/ c = c_underscore \/ c = c_hyphen).

(** Words of a name between underscores, and their capitalised concatenation. *)
Definition capitalised (w w' : str) : Prop :=
  (w = [] /\ w' = []) \/
  (exists c c' r, w = c :: r /\ w' = c' :: r
     /\ (((97 <= c <= 122)%N /\ c' = (c - 32)%N) \/ (~ (97 <= c <= 122)%N /\ c' = c))).
Fixpoint join_underscore (l : list str) : str :=
  match l with [] => [] | [w] => w | w :: l' => w ++ [c_underscore] ++ join_underscore l' end.
Definition pascal_of (s p : str) : Prop :=
  exists ws ws', s = join_underscore ws /\ (forall w, In w ws -> ~ In c_underscore w)
    /\ Forall2 capitalised ws ws' /\ p = concat ws'.
