(** What C33, C34, C35 mean. *)
From Verif Require Import Base Unicode PositionModel TranslateModel SyntaxModel UtilModel EditModel.

(** Replacing the bytes [lo..hi) of a text. *)
Definition spliced (text : str) (r : trange) (new : str) (result : str) : Prop :=
  exists a b c, text = a ++ b ++ c /\ bytes a = fst r /\ bytes (a ++ b) = snd r /\ result = a ++ new ++ c.
Definition applied (text : str) (e : text_edit) (result : str) : Prop := spliced text (te_range e) (te_text e) result.

Definition all_white (U : unicode) (s : str) : Prop := forall c, In c s -> u_whitespace U c = true.
(** The text without its whitespace. *)
Definition visible (U : unicode) (s : str) : str := filter (fun c => negb (u_whitespace U c)) s.

(** Whitespace tokens consist of whitespace; tokens are not empty (the lexer's guarantees). *)
Definition lexed (U : unicode) (e : elem) : Prop :=
  forall k t, In (k, t) (leaves e) -> t <> [] /\ (k = WHITESPACE -> all_white U t).

(** A range lies on character boundaries of the text. *)
Definition on_chars (text : str) (r : trange) : Prop :=
  exists a b c, text = a ++ b ++ c /\ bytes a = fst r /\ bytes (a ++ b) = snd r.

(** [l'] is the list of first elements of [l], in the order of [l]. *)
Inductive keeps_firsts {A K} (key : A -> K) : list A -> list A -> Prop :=
  | kf_nil : keeps_firsts key [] []
  | kf_new l l' x : keeps_firsts key l l' -> (forall y, In y l -> key y <> key x) -> keeps_firsts key (l ++ [x]) (l' ++ [x])
  | kf_old l l' x : keeps_firsts key l l' -> (exists y, In y l /\ key y = key x) -> keeps_firsts key (l ++ [x]) l'.

(** Kinds of actions in the order they are offered. *)
Definition kind_before (a b : action_kind) : Prop :=
  match a, b with
  | AkMigrate, _ => True
  | AkQuickFix, AkMigrate => False
  | AkQuickFix, _ => True
  | AkRefactor, (AkRefactor | AkExtract) => True
  | AkRefactor, _ => False
  | AkExtract, AkExtract => True
  | AkExtract, _ => False
  end.
Definition kind_eqb (a b : action_kind) : bool :=
  match a, b with
  | AkMigrate, AkMigrate | AkQuickFix, AkQuickFix | AkRefactor, AkRefactor | AkExtract, AkExtract => true
  | _, _ => false
  end.
(** The actions of one kind, in order. *)
Definition of_kind (k : action_kind) (l : list action) : list action := filter (fun a => kind_eqb (ac_kind a) k) l.

(** What makes two diagnostics the same report: range, severity and all edits of their quick fixes. *)
Definition report_key (d : adiag) : trange * severity * option (list text_edit) :=
  (ad_range d, ad_severity d,
   match ad_fixes d with Some fs => Some (concat (map ac_edits fs)) | None => None end).
(** [b] is [a] with edits changed by [f]. *)
Definition action_with (f : text_edit -> text_edit) (a b : action) : Prop :=
  ac_label b = ac_label a /\ ac_kind b = ac_kind a /\ ac_range b = ac_range a
  /\ Forall2 (fun x y => y = f x) (ac_edits a) (ac_edits b).
Definition report_with (f : text_edit -> text_edit) (a b : adiag) : Prop :=
  ad_message b = ad_message a /\ ad_range b = ad_range a /\ ad_severity b = ad_severity a
  /\ match ad_fixes a, ad_fixes b with
     | Some x, Some y => Forall2 (action_with f) x y
     | None, None => True
     | _, _ => False
     end.

(** The range ends where a token ends (or at the start of the file). *)
Definition ends_on_token (e : elem) (r : trange) : Prop :=
  exists pre post, leaves e = pre ++ post /\ bytes (flat_map snd pre) = snd r.

(** [a] contains [b]. *)
Definition contains (a b : trange) : Prop := fst a <= fst b /\ snd b <= snd a.
