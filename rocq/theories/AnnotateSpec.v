(** What C102 means: attributes as written, the texts of new arguments, and the file after accepting an action. *)
From Coq Require Import List.
From Verif Require Import Base Unicode PositionModel VersionModel TranslateModel SyntaxModel AttrModel AttrSpec EditSpec UtilSpec ArgEditSpec SuggestModel SuggestSpec ArgCheckModel ArgCheckSpec.
Import ListNotations.

(** ** Attributes as written *)

(** [# [path args]], with white space and comments where they are allowed *)
Definition attr_head (w1 w2 path : list elem) : list elem := Tok POUND (lit "#") :: w1 ++ Tok L_BRACK (lit "[") :: w2 ++ path.
Definition attr_tail (w3 : list elem) : list elem := w3 ++ [Tok R_BRACK (lit "]")].
Definition attribute (w1 w2 path args w3 : list elem) : elem :=
  Node ATTR (Tok POUND (lit "#") :: w1 ++ Tok L_BRACK (lit "[") :: w2 ++ Node META (path ++ args) :: attr_tail w3).
Definition written (w1 w2 path w3 : list elem) : Prop := blank w1 /\ blank w2 /\ blank w3 /\ forall cs, ~ In (Node TOKEN_TREE cs) path.
(** The element is in the file, behind the tokens [X] and before the tokens [Y]. *)
Definition stands (root : elem) (X : list (skind * str)) (a : lelem) (Y : list (skind * str)) : Prop :=
  leaves root = X ++ leaves (snd a) ++ Y /\ fst a = bytes (text X).
(** What stands before and behind the arguments *)
Definition before_args (X : list (skind * str)) (w1 w2 path : list elem) : list (skind * str) := X ++ leaves_of (attr_head w1 w2 path).
Definition behind_args (w3 : list elem) (Y : list (skind * str)) : list (skind * str) := leaves_of (attr_tail w3) ++ Y.

(** ** The text of a new argument *)

(** The least id that is not used; 1 if all are *)
Definition id_for (bits : N) (used : list N) (n : N) : Prop :=
  least_free 1 (largest bits) used n \/ (n = 1%N /\ forall m, (1 <= m <= largest bits)%N -> In m used).
Definition default_text (env : option str) (ids : arg_kind -> list N) (k : arg_kind) (txt : str) : Prop :=
  match k with
  | AExtension => exists n, id_for 32 (ids k) n /\ txt = lit "extension = " ++ dec n
  | AFunction => exists n, id_for 16 (ids k) n /\ txt = lit "function = " ++ dec n
  | ASelector => exists n, id_for 32 (ids k) n /\ txt = lit "selector = " ++ dec n
  | AEnv => txt = lit "env = " ++ match env with Some p => p | None => lit "ink::env::DefaultEnvironment" end
  | AEnvironment => txt = lit "environment = " ++ match env with Some p => p | None => lit "ink::env::DefaultEnvironment" end
  | AAdditionalContracts => txt = lit "additional_contracts = """""
  | AKeepAttr => txt = lit "keep_attr = """""
  | ASignatureTopic => txt = lit "signature_topic = """""
  | ADerive => txt = lit "derive = true"
  | AHandleStatus => txt = lit "handle_status = true"
  | ANamespace => txt = lit "namespace = ""my_namespace"""
  | ASandbox => txt = lit "sandbox = ink_e2e::MinimalSandbox"
  | AUrl => txt = lit "url = ""ws://127.0.0.1:9000"""
  | ABackend => txt = lit "backend(node)"
  | AAnonymous => txt = lit "anonymous" | AConstructor => txt = lit "constructor" | ADecode => txt = lit "Decode"
  | ADefault => txt = lit "default" | AEncode => txt = lit "Encode" | AEvent => txt = lit "event" | AImpl => txt = lit "impl"
  | AMessage => txt = lit "message" | ANode => txt = lit "node" | APayable => txt = lit "payable" | ARuntimeOnly => txt = lit "runtime_only"
  | AStorage => txt = lit "storage" | ATopic => txt = lit "topic" | ATypeInfo => txt = lit "TypeInfo"
  | AUnknown => txt = lit "unknown"
  end.
(** Accepting the snippet as it is gives the text (unless the path of the environment has a brace in it). *)
Definition snippet_ok (env : option str) (e : text_edit) : Prop :=
  forall s, te_snippet e = Some s -> (forall p, env = Some p -> ~ In 125%N p) -> accepted s (te_text e).

(** ** Edits *)

(** The arguments that declare what the item is *)
Definition entity_argument (k : arg_kind) : Prop :=
  In k [AConstructor; AEvent; AExtension; AFunction; AImpl; AMessage; AStorage; ATopic].

(** The edit adds the argument [k] to a list of arguments: in front of them if it declares what the item is, else behind them. All
    else stays. (Not claimed for a list which ends in a comma and white space, or only consists of white space: see C42.) *)
Definition adds (root : elem) (pre : list (skind * str)) (body : list elem) (post : list (skind * str)) (cores : list (list elem)) (b : bool)
    (env : option str) (ids : arg_kind -> list N) (k : arg_kind) (e : text_edit) : Prop :=
  snippet_ok env e
  /\ exists txt, default_text env ids k txt /\ forall new, argument new -> texts_of new = txt ->
     (entity_argument k -> exists body' b', listed (new :: cores) b' body' /\ (b' = b \/ cores = []) /\ applied (text_of root) e (file_text pre body' post))
     /\ (~ entity_argument k -> (b = true -> exists body0, body = body0 ++ [comma]) -> (cores = [] -> body = []) ->
           exists body', listed (cores ++ [new]) false body' /\ applied (text_of root) e (file_text pre body' post)).
(** The edit adds [(argument)] *)
Definition adds_list (root : elem) (pre post : list (skind * str)) (env : option str) (ids : arg_kind -> list N) (k : arg_kind) (e : text_edit) : Prop :=
  snippet_ok env e
  /\ exists txt, default_text env ids k txt /\ applied (text_of root) e (text pre ++ lit "(" ++ txt ++ lit ")" ++ text post).
