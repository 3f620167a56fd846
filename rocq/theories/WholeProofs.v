(** Proofs for C108. *)
From Coq Require Import Lia.
From Verif Require Import Base Unicode VersionModel PositionModel TranslateModel SyntaxModel CommandModel EditModel EditSpec UtilModel UtilSpec ArgEditSpec RuleSpec EntityModel
  TemplateModel EntitySpec EntityProofs WholeModel WholeSpec.

Section Typed.
  Variable f : N -> option str.
  Lemma typed_before a s t : ~ In 36%N a -> typed f s t -> typed f (a ++ s) (a ++ t).
  Proof. induction a as [|c a IH]; intros H Ht; [exact Ht|]. apply typed_char; [intros ->; apply H; left; reflexivity|]. apply IH; [intros C; apply H; right; exact C | exact Ht]. Qed.
  Lemma typed_app s t s2 t2 : typed f s t -> (forall c r, s2 = c :: r -> ~ (48 <= c <= 57)%N) -> typed f s2 t2 -> typed f (s ++ s2) (t ++ t2).
  Proof.
    intros H Hq H2. induction H as [|c s t Hc H IH|i x s t Hx H IH|i s t Hs H IH].
    - exact H2.
    - cbn [app]. apply typed_char; assumption.
    - rewrite <- !app_assoc. apply (typed_hole f i x _ _ Hx IH).
    - rewrite <- !app_assoc. apply typed_stop; [|exact IH]. intros c r E. destruct s as [|d s]; [exact (Hq c r E) | cbn [app] in E; injection E as <- _; exact (Hs _ _ eq_refl)].
  Qed.
  Definition tfill (p : part) : str :=
    match p with PT s => s | PV _ => [] | PHT i s => given f i s | PHV _ _ => [] | PStop i => given f i [] end.
  Definition noenv (_ : nat) : str := [].
  Fixpoint closed_ok (l : list part) : bool :=
    match l with
    | [] => true
    | PT s :: l' => no 36%N s && closed_ok l'
    | PHT _ s :: l' => no 125%N s && closed_ok l'
    | PStop _ :: l' => match l' with [] => true | _ => false end
    | _ :: _ => false
    end.
  Lemma typed_parts l : closed_ok l = true -> typed f (flat_map (show noenv) l) (flat_map tfill l).
  Proof.
    induction l as [|p l IH]; intros H; [constructor|]. cbn [flat_map]. destruct p as [s|v|i s|i v|i]; cbn [closed_ok] in H; try discriminate.
    - apply andb_prop in H as [H1 H2]. apply typed_before; [apply no_In, H1 | apply IH, H2].
    - apply andb_prop in H as [H1 H2]. cbn [show tfill]. unfold hole. pose proof (typed_hole f i s _ _ (no_In _ _ H1) (IH H2)) as E. rewrite <- !app_assoc. exact E.
    - destruct l; [|discriminate]. cbn [show tfill flat_map]. rewrite app_nil_r. pose proof (typed_stop f i [] [] ltac:(intros c r E; discriminate) (typed_nil f)) as E.
      rewrite !app_nil_r in E. rewrite app_nil_r. exact E.
  Qed.
  Lemma typed_code U i L : unicode_ok U -> all_white U i -> ~ In 36%N i -> forallb closed_ok L = true ->
    exists t, typed f (code i (shown noenv L)) t /\ visible U t = visible U (concat (map (flat_map tfill) L)).
  Proof.
    intros HU Hi Hd. unfold code, shown. induction L as [|l [|m L] IH]; intros H.
    - exists []. split; [constructor | reflexivity].
    - cbn [map unlines concat]. rewrite app_nil_r. cbn [forallb] in H. apply andb_prop in H as [H _]. pose proof (typed_parts l H) as E.
      unfold indent_line. destruct (flat_map (show noenv) l) as [|c s] eqn:Es.
      + exists (flat_map tfill l). split; [exact E | reflexivity].
      + exists (i ++ flat_map tfill l). split; [apply typed_before; [exact Hd | exact E]|]. rewrite visible_app, (visible_all_white U i Hi). reflexivity.
    - cbn [forallb] in H. apply andb_prop in H as [H1 H2]. destruct (IH H2) as (t & Ht & Ev). pose proof (typed_parts l H1) as E.
      cbn [map] in Ht. cbn [map unlines concat]. rewrite visible_app.
      assert (Hn : typed f ([c_nl] ++ unlines (indent_line i (flat_map (show noenv) m) :: map (indent_line i) (map (flat_map (show noenv)) L))) ([c_nl] ++ t))
        by (apply typed_before; [intros [C|[]]; discriminate | exact Ht]).
      assert (Hv : visible U ([c_nl] ++ t) = visible U (concat (map (flat_map tfill) (m :: L)))) by (rewrite visible_app, (visible_ascii U [c_nl] HU eq_refl), Ev; reflexivity).
      assert (Hq : forall c r, [c_nl] ++ unlines (indent_line i (flat_map (show noenv) m) :: map (indent_line i) (map (flat_map (show noenv)) L)) = c :: r -> ~ (48 <= c <= 57)%N)
        by (cbn [app]; intros c r Eq; injection Eq as <- _; unfold c_nl; lia).
      unfold indent_line at 1. destruct (flat_map (show noenv) l) as [|c s] eqn:Es.
      + exists (flat_map tfill l ++ [c_nl] ++ t). split; [apply typed_app; [exact E | exact Hq | exact Hn]|]. rewrite visible_app, Hv. reflexivity.
      + exists ((i ++ flat_map tfill l) ++ [c_nl] ++ t). split.
        * apply typed_app; [apply typed_before; [exact Hd | exact E] | exact Hq | exact Hn].
        * rewrite visible_app, Hv, visible_app, (visible_all_white U i Hi). reflexivity.
  Qed.
  (** What is visible: characters, and places *)
  Definition tmark (p : part) : list (char + N * str) :=
    match p with
    | PT s => map inl (filter (fun c => negb (ascii_white c)) s)
    | PHT i s => [inr (i, s)]
    | PStop i => [inr (i, [])]
    | _ => []
    end.
  Definition ascii_text (p : part) : bool := match p with PT s => forallb (fun c => (c <? 128)%N) s | _ => true end.
  Lemma visible_tmarks U l : unicode_ok U -> forallb ascii_text l = true ->
    visible U (flat_map tfill l) = flat_map (fun m => match m with inl c => [c] | inr (i, s) => visible U (given f i s) end) (flat_map tmark l).
  Proof.
    intros HU. induction l as [|p l IH]; intros H; [reflexivity|]. cbn [forallb] in H. apply andb_prop in H as [Hp H].
    cbn [flat_map]. rewrite visible_app, (IH H), flat_map_app. f_equal.
    assert (E : forall s : str, flat_map (fun m : char + N * str => match m with inl c => [c] | inr (i, s) => visible U (given f i s) end) (map inl s) = s).
    { intros s. induction s as [|c s IHs]; [reflexivity|]. cbn [map flat_map app]. rewrite IHs. reflexivity. }
    destruct p as [s|v|i s|i v|i]; cbn [tfill tmark]; [rewrite E; apply visible_ascii; assumption | reflexivity | | reflexivity|];
      cbn [flat_map]; rewrite app_nil_r; reflexivity.
  Qed.
  Lemma concat_tfill L : concat (map (flat_map tfill) L) = flat_map tfill (concat L).
  Proof. induction L as [|l L IH]; [reflexivity|]. cbn [map concat]. rewrite flat_map_app, IH. reflexivity. Qed.
End Typed.

(** The lines of the snippets, and of the specification *)
Definition snippet_lines (w : whole) : list (list part) :=
  match w with
  | WContract V4 =>
      [[PT (lit "#![cfg_attr(not(feature = ""std""), no_std)]")];
       [];
       [PT (lit "#[ink::contract]")];
       [PT (lit "pub mod "); PHT 1%N (lit "my_contract"); PT (lit " {")];
       [PT (lit "    #[ink(storage)]")];
       [PT (lit "    pub struct "); PHT 2%N (lit "MyContract"); PT (lit " {")];
       [PT (lit "        "); PStop 3%N];
       [PT (lit "    }")];
       [];
       [PT (lit "    impl "); PHT 2%N (lit "MyContract"); PT (lit " {")];
       [PT (lit "        #[ink(constructor)]")];
       [PT (lit "        pub fn "); PHT 4%N (lit "new"); PT (lit "() -> "); PHT 5%N (lit "Self"); PT (lit " {")];
       [PT (lit "            "); PHT 6%N (lit "todo!()")];
       [PT (lit "        }")];
       [];
       [PT (lit "        #[ink(message)]")];
       [PT (lit "        pub fn "); PHT 7%N (lit "my_message"); PT (lit "(&"); PHT 8%N (lit "self"); PT (lit ") {")];
       [PT (lit "            "); PHT 9%N (lit "todo!()")];
       [PT (lit "        }")];
       [PT (lit "    }")];
       [];
       [PT (lit "    #[cfg(test)]")];
       [PT (lit "    mod tests {")];
       [PT (lit "        use super::*;")];
       [];
       [PT (lit "        #[ink::test]")];
       [PT (lit "        fn "); PHT 10%N (lit "it_works"); PT (lit "() {")];
       [PT (lit "            "); PHT 11%N (lit "todo!()")];
       [PT (lit "        }")];
       [PT (lit "    }")];
       [];
       [PT (lit "    #[cfg(all(test, feature = ""e2e-tests""))]")];
       [PT (lit "    mod e2e_tests {")];
       [PT (lit "        use super::*;")];
       [];
       [PT (lit "        type E2EResult<T> = std::result::Result<T, Box<dyn std::error::Error>>;")];
       [];
       [PT (lit "        #[ink_e2e::test]")];
       [PT (lit "        async fn "); PHT 12%N (lit "it_works"); PT (lit "("); PHT 13%N (lit "mut client: ink_e2e::Client<C, E>"); PT (lit ") -> "); PHT 14%N (lit "E2EResult<()>"); PT (lit " {")];
       [PT (lit "            "); PHT 15%N (lit "todo!();")];
       [];
       [PT (lit "            Ok(())")];
       [PT (lit "        }")];
       [PT (lit "    }")];
       [PT (lit "}")]]
  | WContract V5 =>
      [[PT (lit "#![cfg_attr(not(feature = ""std""), no_std)]")];
       [];
       [PT (lit "#[ink::contract]")];
       [PT (lit "pub mod "); PHT 1%N (lit "my_contract"); PT (lit " {")];
       [PT (lit "    #[ink(storage)]")];
       [PT (lit "    pub struct "); PHT 2%N (lit "MyContract"); PT (lit " {")];
       [PT (lit "        "); PStop 3%N];
       [PT (lit "    }")];
       [];
       [PT (lit "    impl "); PHT 2%N (lit "MyContract"); PT (lit " {")];
       [PT (lit "        #[ink(constructor)]")];
       [PT (lit "        pub fn "); PHT 4%N (lit "new"); PT (lit "() -> "); PHT 5%N (lit "Self"); PT (lit " {")];
       [PT (lit "            "); PHT 6%N (lit "todo!()")];
       [PT (lit "        }")];
       [];
       [PT (lit "        #[ink(message)]")];
       [PT (lit "        pub fn "); PHT 7%N (lit "my_message"); PT (lit "(&"); PHT 8%N (lit "self"); PT (lit ") {")];
       [PT (lit "            "); PHT 9%N (lit "todo!()")];
       [PT (lit "        }")];
       [PT (lit "    }")];
       [];
       [PT (lit "    #[cfg(test)]")];
       [PT (lit "    mod tests {")];
       [PT (lit "        use super::*;")];
       [];
       [PT (lit "        #[ink::test]")];
       [PT (lit "        fn "); PHT 10%N (lit "it_works"); PT (lit "() {")];
       [PT (lit "            "); PHT 11%N (lit "todo!()")];
       [PT (lit "        }")];
       [PT (lit "    }")];
       [];
       [PT (lit "    #[cfg(all(test, feature = ""e2e-tests""))]")];
       [PT (lit "    mod e2e_tests {")];
       [PT (lit "        use super::*;")];
       [];
       [PT (lit "        type E2EResult<T> = std::result::Result<T, Box<dyn std::error::Error>>;")];
       [];
       [PT (lit "        #[ink_e2e::test]")];
       [PT (lit "        async fn "); PHT 12%N (lit "it_works"); PT (lit "<"); PHT 13%N (lit "Client: E2EBackend"); PT (lit ">("); PHT 14%N (lit "mut client: Client"); PT (lit ") -> "); PHT 15%N (lit "E2EResult<()>"); PT (lit " {")];
       [PT (lit "            "); PHT 16%N (lit "todo!();")];
       [];
       [PT (lit "            Ok(())")];
       [PT (lit "        }")];
       [PT (lit "    }")];
       [PT (lit "}")]]
  | WTrait =>
      [[PT (lit "#[ink::trait_definition]")];
       [PT (lit "pub trait "); PHT 1%N (lit "TraitDefinition"); PT (lit " {")];
       [PT (lit "    #[ink(message)]")];
       [PT (lit "    fn "); PHT 2%N (lit "my_message"); PT (lit "(&"); PHT 3%N (lit "self"); PT (lit ");")];
       [PT (lit "}")]]
  | WChain V4 =>
      [[PT (lit "#[ink::chain_extension]")];
       [PT (lit "pub trait "); PHT 1%N (lit "ChainExtension"); PT (lit " {")];
       [PT (lit "    type ErrorCode = "); PHT 2%N (lit "CustomErrorCode"); PT (lit ";")];
       [];
       [PT (lit "    #[ink(extension = "); PHT 3%N (lit "1"); PT (lit ")]")];
       [PT (lit "    fn "); PHT 4%N (lit "my_extension"); PT (lit "();")];
       [PT (lit "}")];
       [];
       [PT (lit "#[derive(scale::Encode, scale::Decode, scale_info::TypeInfo)]")];
       [PT (lit "pub enum "); PHT 2%N (lit "CustomErrorCode"); PT (lit " {")];
       [PT (lit "  "); PHT 5%N (lit "CustomError"); PT (lit ",")];
       [PT (lit "}")];
       [];
       [PT (lit "impl ink::env::chain_extension::FromStatusCode for "); PHT 2%N (lit "CustomErrorCode"); PT (lit " {")];
       [PT (lit "  fn from_status_code("); PHT 6%N (lit "status_code"); PT (lit ": u32) -> Result<(), Self> {")];
       [PT (lit "    match "); PHT 6%N (lit "status_code"); PT (lit " {")];
       [PT (lit "      0 => Ok(()),")];
       [PT (lit "      1 => Err(Self::"); PHT 5%N (lit "CustomError"); PT (lit "),")];
       [PT (lit "      _ => panic!(""encountered unknown status code""),")];
       [PT (lit "    }")];
       [PT (lit "  }")];
       [PT (lit "}")]]
  | WChain V5 =>
      [[PT (lit "#[ink::chain_extension(extension = "); PHT 1%N (lit "1"); PT (lit ")]")];
       [PT (lit "pub trait "); PHT 2%N (lit "ChainExtension"); PT (lit " {")];
       [PT (lit "    type ErrorCode = "); PHT 3%N (lit "CustomErrorCode"); PT (lit ";")];
       [];
       [PT (lit "    #[ink(function = "); PHT 4%N (lit "1"); PT (lit ")]")];
       [PT (lit "    fn "); PHT 5%N (lit "my_function"); PT (lit "();")];
       [PT (lit "}")];
       [];
       [PT (lit "#[ink::scale_derive(Encode, Decode, TypeInfo)]")];
       [PT (lit "pub enum "); PHT 3%N (lit "CustomErrorCode"); PT (lit " {")];
       [PT (lit "  "); PHT 6%N (lit "CustomError"); PT (lit ",")];
       [PT (lit "}")];
       [];
       [PT (lit "impl ink::env::chain_extension::FromStatusCode for "); PHT 3%N (lit "CustomErrorCode"); PT (lit " {")];
       [PT (lit "  fn from_status_code("); PHT 7%N (lit "status_code"); PT (lit ": u32) -> Result<(), Self> {")];
       [PT (lit "    match "); PHT 7%N (lit "status_code"); PT (lit " {")];
       [PT (lit "      0 => Ok(()),")];
       [PT (lit "      1 => Err(Self::"); PHT 6%N (lit "CustomError"); PT (lit "),")];
       [PT (lit "      _ => panic!(""encountered unknown status code""),")];
       [PT (lit "    }")];
       [PT (lit "  }")];
       [PT (lit "}")]]
  | WItem =>
      [[PT (lit "#[ink::storage_item]")];
       [PT (lit "pub "); PHT 1%N (lit "struct"); PT (lit " "); PHT 2%N (lit "StorageItem"); PT (lit " {")];
       [PT (lit "    "); PStop 3%N];
       [PT (lit "}")]]
  | WEnv V4 =>
      [[PT (lit "#[derive(Debug, Clone, PartialEq, Eq)]")];
       [PT (lit "#[cfg_attr(feature = ""std"", derive(scale_info::TypeInfo))]")];
       [PT (lit "pub "); PHT 1%N (lit "enum"); PT (lit " "); PHT 2%N (lit "MyEnvironment"); PT (lit " {")];
       [PT (lit "    "); PStop 3%N];
       [PT (lit "}")];
       [];
       [PT (lit "impl ink::env::Environment for "); PHT 4%N (lit "MyEnvironment"); PT (lit " {")];
       [PT (lit "    const MAX_EVENT_TOPICS: usize = "); PHT 5%N (lit "4"); PT (lit ";")];
       [];
       [PT (lit "    type AccountId = "); PHT 6%N (lit "::ink::primitives::AccountId"); PT (lit ";")];
       [PT (lit "    type Balance = "); PHT 7%N (lit "u128"); PT (lit ";")];
       [PT (lit "    type Hash = "); PHT 8%N (lit "::ink::primitives::Hash"); PT (lit ";")];
       [PT (lit "    type Timestamp = "); PHT 9%N (lit "u64"); PT (lit ";")];
       [PT (lit "    type BlockNumber = "); PHT 10%N (lit "u32"); PT (lit ";")];
       [PT (lit "    type ChainExtension = "); PHT 11%N (lit "::ink::env::NoChainExtension"); PT (lit ";")];
       [PT (lit "}")]]
  | WEnv V5 =>
      [[PT (lit "#[derive(Debug, Clone, PartialEq, Eq)]")];
       [PT (lit "#[ink::scale_derive(TypeInfo)]")];
       [PT (lit "pub "); PHT 1%N (lit "enum"); PT (lit " "); PHT 2%N (lit "MyEnvironment"); PT (lit " {")];
       [PT (lit "    "); PStop 3%N];
       [PT (lit "}")];
       [];
       [PT (lit "impl ink::env::Environment for "); PHT 4%N (lit "MyEnvironment"); PT (lit " {")];
       [PT (lit "    const MAX_EVENT_TOPICS: usize = "); PHT 5%N (lit "4"); PT (lit ";")];
       [];
       [PT (lit "    type AccountId = "); PHT 6%N (lit "::ink::primitives::AccountId"); PT (lit ";")];
       [PT (lit "    type Balance = "); PHT 7%N (lit "u128"); PT (lit ";")];
       [PT (lit "    type Hash = "); PHT 8%N (lit "::ink::primitives::Hash"); PT (lit ";")];
       [PT (lit "    type Timestamp = "); PHT 9%N (lit "u64"); PT (lit ";")];
       [PT (lit "    type BlockNumber = "); PHT 10%N (lit "u32"); PT (lit ";")];
       [PT (lit "    type ChainExtension = "); PHT 11%N (lit "::ink::env::NoChainExtension"); PT (lit ";")];
       [PT (lit "}")]]
  end.
Definition spec_lines (w : whole) : list (list part) :=
  match w with
  | WContract V4 =>
      [[PT (lit "#![cfg_attr(not(feature = ""std""), no_std)]")];
       [];
       [PT (lit "#[ink::contract]")];
       [PT (lit "pub mod "); PHT 1%N (lit "my_contract"); PT (lit " {")];
       [PT (lit "    #[ink(storage)]")];
       [PT (lit "    pub struct "); PHT 2%N (lit "MyContract"); PT (lit " {"); PStop 3%N; PT (lit "}")];
       [];
       [PT (lit "    impl "); PHT 2%N (lit "MyContract"); PT (lit " {")];
       [PT (lit "        #[ink(constructor)]")];
       [PT (lit "        pub fn "); PHT 4%N (lit "new"); PT (lit "() -> "); PHT 5%N (lit "Self"); PT (lit " {")];
       [PT (lit "            "); PHT 6%N (lit "todo!()")];
       [PT (lit "        }")];
       [];
       [PT (lit "        #[ink(message)]")];
       [PT (lit "        pub fn "); PHT 7%N (lit "my_message"); PT (lit "(&"); PHT 8%N (lit "self"); PT (lit ") {")];
       [PT (lit "            "); PHT 9%N (lit "todo!()")];
       [PT (lit "        }")];
       [PT (lit "    }")];
       [];
       [PT (lit "    #[cfg(test)]")];
       [PT (lit "    mod tests {")];
       [PT (lit "        use super::*;")];
       [];
       [PT (lit "        #[ink::test]")];
       [PT (lit "        fn "); PHT 10%N (lit "it_works"); PT (lit "() {")];
       [PT (lit "            "); PHT 11%N (lit "todo!()")];
       [PT (lit "        }")];
       [PT (lit "    }")];
       [];
       [PT (lit "    #[cfg(all(test, feature = ""e2e-tests""))]")];
       [PT (lit "    mod e2e_tests {")];
       [PT (lit "        use super::*;")];
       [];
       [PT (lit "        type E2EResult<T> = std::result::Result<T, Box<dyn std::error::Error>>;")];
       [];
       [PT (lit "        #[ink_e2e::test]")];
       [PT (lit "        async fn "); PHT 12%N (lit "it_works"); PT (lit "("); PHT 13%N (lit "mut client: ink_e2e::Client<C, E>"); PT (lit ") -> "); PHT 14%N (lit "E2EResult<()>"); PT (lit " {")];
       [PT (lit "            "); PHT 15%N (lit "todo!();")];
       [];
       [PT (lit "            Ok(())")];
       [PT (lit "        }")];
       [PT (lit "    }")];
       [PT (lit "}")]]
  | WContract V5 =>
      [[PT (lit "#![cfg_attr(not(feature = ""std""), no_std)]")];
       [];
       [PT (lit "#[ink::contract]")];
       [PT (lit "pub mod "); PHT 1%N (lit "my_contract"); PT (lit " {")];
       [PT (lit "    #[ink(storage)]")];
       [PT (lit "    pub struct "); PHT 2%N (lit "MyContract"); PT (lit " {"); PStop 3%N; PT (lit "}")];
       [];
       [PT (lit "    impl "); PHT 2%N (lit "MyContract"); PT (lit " {")];
       [PT (lit "        #[ink(constructor)]")];
       [PT (lit "        pub fn "); PHT 4%N (lit "new"); PT (lit "() -> "); PHT 5%N (lit "Self"); PT (lit " {")];
       [PT (lit "            "); PHT 6%N (lit "todo!()")];
       [PT (lit "        }")];
       [];
       [PT (lit "        #[ink(message)]")];
       [PT (lit "        pub fn "); PHT 7%N (lit "my_message"); PT (lit "(&"); PHT 8%N (lit "self"); PT (lit ") {")];
       [PT (lit "            "); PHT 9%N (lit "todo!()")];
       [PT (lit "        }")];
       [PT (lit "    }")];
       [];
       [PT (lit "    #[cfg(test)]")];
       [PT (lit "    mod tests {")];
       [PT (lit "        use super::*;")];
       [];
       [PT (lit "        #[ink::test]")];
       [PT (lit "        fn "); PHT 10%N (lit "it_works"); PT (lit "() {")];
       [PT (lit "            "); PHT 11%N (lit "todo!()")];
       [PT (lit "        }")];
       [PT (lit "    }")];
       [];
       [PT (lit "    #[cfg(all(test, feature = ""e2e-tests""))]")];
       [PT (lit "    mod e2e_tests {")];
       [PT (lit "        use super::*;")];
       [];
       [PT (lit "        type E2EResult<T> = std::result::Result<T, Box<dyn std::error::Error>>;")];
       [];
       [PT (lit "        #[ink_e2e::test]")];
       [PT (lit "        async fn "); PHT 12%N (lit "it_works"); PT (lit "<"); PHT 13%N (lit "Client: E2EBackend"); PT (lit ">("); PHT 14%N (lit "mut client: Client"); PT (lit ") -> "); PHT 15%N (lit "E2EResult<()>"); PT (lit " {")];
       [PT (lit "            "); PHT 16%N (lit "todo!();")];
       [];
       [PT (lit "            Ok(())")];
       [PT (lit "        }")];
       [PT (lit "    }")];
       [PT (lit "}")]]
  | WTrait =>
      [[PT (lit "#[ink::trait_definition]")];
       [PT (lit "pub trait "); PHT 1%N (lit "TraitDefinition"); PT (lit " {")];
       [PT (lit "    #[ink(message)]")];
       [PT (lit "    fn "); PHT 2%N (lit "my_message"); PT (lit "(&"); PHT 3%N (lit "self"); PT (lit ");")];
       [PT (lit "}")]]
  | WChain V4 =>
      [[PT (lit "#[ink::chain_extension]")];
       [PT (lit "pub trait "); PHT 1%N (lit "ChainExtension"); PT (lit " {")];
       [PT (lit "    type ErrorCode = "); PHT 2%N (lit "CustomErrorCode"); PT (lit ";")];
       [];
       [PT (lit "    #[ink(extension = "); PHT 3%N (lit "1"); PT (lit ")]")];
       [PT (lit "    fn "); PHT 4%N (lit "my_extension"); PT (lit "();")];
       [PT (lit "}")];
       [];
       [PT (lit "#[derive(scale::Encode, scale::Decode, scale_info::TypeInfo)]")];
       [PT (lit "pub enum "); PHT 2%N (lit "CustomErrorCode"); PT (lit " {")];
       [PT (lit "  "); PHT 5%N (lit "CustomError"); PT (lit ",")];
       [PT (lit "}")];
       [];
       [PT (lit "impl ink::env::chain_extension::FromStatusCode for "); PHT 2%N (lit "CustomErrorCode"); PT (lit " {")];
       [PT (lit "  fn from_status_code("); PHT 6%N (lit "status_code"); PT (lit ": u32) -> Result<(), Self> {")];
       [PT (lit "    match "); PHT 6%N (lit "status_code"); PT (lit " {")];
       [PT (lit "      0 => Ok(()),")];
       [PT (lit "      1 => Err(Self::"); PHT 5%N (lit "CustomError"); PT (lit "),")];
       [PT (lit "      _ => panic!(""encountered unknown status code""),")];
       [PT (lit "    }")];
       [PT (lit "  }")];
       [PT (lit "}")]]
  | WChain V5 =>
      [[PT (lit "#[ink::chain_extension(extension = "); PHT 1%N (lit "1"); PT (lit ")]")];
       [PT (lit "pub trait "); PHT 2%N (lit "ChainExtension"); PT (lit " {")];
       [PT (lit "    type ErrorCode = "); PHT 3%N (lit "CustomErrorCode"); PT (lit ";")];
       [];
       [PT (lit "    #[ink(function = "); PHT 4%N (lit "1"); PT (lit ")]")];
       [PT (lit "    fn "); PHT 5%N (lit "my_function"); PT (lit "();")];
       [PT (lit "}")];
       [];
       [PT (lit "#[ink::scale_derive(Encode, Decode, TypeInfo)]")];
       [PT (lit "pub enum "); PHT 3%N (lit "CustomErrorCode"); PT (lit " {")];
       [PT (lit "  "); PHT 6%N (lit "CustomError"); PT (lit ",")];
       [PT (lit "}")];
       [];
       [PT (lit "impl ink::env::chain_extension::FromStatusCode for "); PHT 3%N (lit "CustomErrorCode"); PT (lit " {")];
       [PT (lit "  fn from_status_code("); PHT 7%N (lit "status_code"); PT (lit ": u32) -> Result<(), Self> {")];
       [PT (lit "    match "); PHT 7%N (lit "status_code"); PT (lit " {")];
       [PT (lit "      0 => Ok(()),")];
       [PT (lit "      1 => Err(Self::"); PHT 6%N (lit "CustomError"); PT (lit "),")];
       [PT (lit "      _ => panic!(""encountered unknown status code""),")];
       [PT (lit "    }")];
       [PT (lit "  }")];
       [PT (lit "}")]]
  | WItem =>
      [[PT (lit "#[ink::storage_item]")];
       [PT (lit "pub "); PHT 1%N (lit "struct"); PT (lit " "); PHT 2%N (lit "StorageItem"); PT (lit " {"); PStop 3%N; PT (lit "}")]]
  | WEnv V4 =>
      [[PT (lit "#[derive(Debug, Clone, PartialEq, Eq)]")];
       [PT (lit "#[cfg_attr(feature = ""std"", derive(scale_info::TypeInfo))]")];
       [PT (lit "pub "); PHT 1%N (lit "enum"); PT (lit " "); PHT 2%N (lit "MyEnvironment"); PT (lit " {"); PStop 3%N; PT (lit "}")];
       [];
       [PT (lit "impl ink::env::Environment for "); PHT 4%N (lit "MyEnvironment"); PT (lit " {")];
       [PT (lit "    const MAX_EVENT_TOPICS: usize = "); PHT 5%N (lit "4"); PT (lit ";")];
       [];
       [PT (lit "    type AccountId = "); PHT 6%N (lit "::ink::primitives::AccountId"); PT (lit ";")];
       [PT (lit "    type Balance = "); PHT 7%N (lit "u128"); PT (lit ";")];
       [PT (lit "    type Hash = "); PHT 8%N (lit "::ink::primitives::Hash"); PT (lit ";")];
       [PT (lit "    type Timestamp = "); PHT 9%N (lit "u64"); PT (lit ";")];
       [PT (lit "    type BlockNumber = "); PHT 10%N (lit "u32"); PT (lit ";")];
       [PT (lit "    type ChainExtension = "); PHT 11%N (lit "::ink::env::NoChainExtension"); PT (lit ";")];
       [PT (lit "}")]]
  | WEnv V5 =>
      [[PT (lit "#[derive(Debug, Clone, PartialEq, Eq)]")];
       [PT (lit "#[ink::scale_derive(TypeInfo)]")];
       [PT (lit "pub "); PHT 1%N (lit "enum"); PT (lit " "); PHT 2%N (lit "MyEnvironment"); PT (lit " {"); PStop 3%N; PT (lit "}")];
       [];
       [PT (lit "impl ink::env::Environment for "); PHT 4%N (lit "MyEnvironment"); PT (lit " {")];
       [PT (lit "    const MAX_EVENT_TOPICS: usize = "); PHT 5%N (lit "4"); PT (lit ";")];
       [];
       [PT (lit "    type AccountId = "); PHT 6%N (lit "::ink::primitives::AccountId"); PT (lit ";")];
       [PT (lit "    type Balance = "); PHT 7%N (lit "u128"); PT (lit ";")];
       [PT (lit "    type Hash = "); PHT 8%N (lit "::ink::primitives::Hash"); PT (lit ";")];
       [PT (lit "    type Timestamp = "); PHT 9%N (lit "u64"); PT (lit ";")];
       [PT (lit "    type BlockNumber = "); PHT 10%N (lit "u32"); PT (lit ";")];
       [PT (lit "    type ChainExtension = "); PHT 11%N (lit "::ink::env::NoChainExtension"); PT (lit ";")];
       [PT (lit "}")]]
  end.
Lemma spec_lines_ok f w : map (flat_map (tfill f)) (spec_lines w) = whole_lines (given f) w.
Proof. destruct w as [[]| |[]| |[]]; cbn [spec_lines map flat_map tfill whole_lines]; rewrite ?app_nil_r; reflexivity. Qed.
Definition whole_texts (w : whole) : str * str :=
  match w with
  | WContract V4 => (CONTRACT_PLAIN, CONTRACT_SNIPPET)
  | WContract V5 => (CONTRACT_PLAIN_V5, CONTRACT_SNIPPET_V5)
  | WTrait => (TRAIT_DEFINITION_PLAIN, TRAIT_DEFINITION_SNIPPET)
  | WChain V4 => (CHAIN_EXTENSION_PLAIN, CHAIN_EXTENSION_SNIPPET)
  | WChain V5 => (CHAIN_EXTENSION_PLAIN_V5, CHAIN_EXTENSION_SNIPPET_V5)
  | WItem => (STORAGE_ITEM_PLAIN, STORAGE_ITEM_SNIPPET)
  | WEnv V4 => (ENVIRONMENT_PLAIN, ENVIRONMENT_SNIPPET)
  | WEnv V5 => (ENVIRONMENT_PLAIN_V5, ENVIRONMENT_SNIPPET_V5)
  end.
Lemma plain_lines w : fst (whole_texts w) = unlines (shown noenv (map (fun l => [PT l]) (whole_lines untouched w))).
Proof. destruct w as [[]| |[]| |[]]; vm_compute; reflexivity. Qed.
Lemma snippet_lines_text w : snd (whole_texts w) = unlines (shown noenv (snippet_lines w)).
Proof. destruct w as [[]| |[]| |[]]; vm_compute; reflexivity. Qed.
Lemma lines_facts w : text_ok (map (fun l => [PT l]) (whole_lines untouched w)) = true /\ text_ok (snippet_lines w) = true
  /\ forallb closed_ok (snippet_lines w) = true /\ forallb ascii_text (concat (snippet_lines w)) = true /\ forallb ascii_text (concat (spec_lines w)) = true
  /\ flat_map tmark (concat (snippet_lines w)) = flat_map tmark (concat (spec_lines w)).
Proof. destruct w as [[]| |[]| |[]]; (split; [|split; [|split; [|split; [|split]]]]); vm_compute; reflexivity. Qed.
Lemma noenv_clean v : clean (noenv v).
Proof. intros c []. Qed.
Lemma shown_lines ls : shown noenv (map (fun l => [PT l]) ls) = ls.
Proof. unfold shown. induction ls as [|l ls IH]; [reflexivity|]. cbn [map flat_map show]. rewrite app_nil_r, IH. reflexivity. Qed.
(** The edit with these texts, whatever is typed *)
Lemma edit_text U w r indent : unicode_ok U -> all_white U (opt_str indent) ->
  te_range (edit_with_indent (whole_texts w) r indent) = r
  /\ te_text (edit_with_indent (whole_texts w) r indent) = code (opt_str indent) (whole_lines untouched w)
  /\ exists s, te_snippet (edit_with_indent (whole_texts w) r indent) = Some s
     /\ forall f, exists t, typed f s t /\ visible U t = visible U (concat (whole_lines (given f) w)).
Proof.
  intros HU Hi. destruct (lines_facts w) as (H1 & H2 & H3 & H4 & H5 & H6).
  assert (Hd : ~ In 36%N (opt_str indent)) by (intros C; apply Hi in C; rewrite (uo_whitespace U HU) in C by reflexivity; discriminate).
  pose proof (indent_shown noenv noenv_clean _ (opt_str indent) H1) as E1. pose proof (indent_shown noenv noenv_clean _ (opt_str indent) H2) as E2.
  rewrite <- plain_lines in E1. rewrite shown_lines in E1. rewrite <- snippet_lines_text in E2.
  assert (Ee : edit_with_indent (whole_texts w) r indent
    = edit_replace_snippet (apply_indenting (fst (whole_texts w)) (opt_str indent)) r (Some (apply_indenting (snd (whole_texts w)) (opt_str indent))))
    by (destruct indent as [i|]; reflexivity).
  rewrite Ee, E1, E2. split; [reflexivity|]. split; [reflexivity|]. eexists. split; [reflexivity|]. intros f.
  destruct (typed_code f U (opt_str indent) (snippet_lines w) HU Hi Hd H3) as (t & Ht & Ev). exists t. split; [exact Ht|].
  rewrite Ev, <- spec_lines_ok, !concat_tfill, !visible_tmarks by assumption. rewrite H6. reflexivity.
Qed.

(** A snippet is filled in one way *)
Definition digits (a : str) : Prop := forall c, In c a -> (48 <= c <= 57)%N.
Definition no_digit (s : str) : Prop := forall c r, s = c :: r -> ~ (48 <= c <= 57)%N.
Lemma digits_split a b s s' : digits a -> digits b -> no_digit s -> no_digit s' -> a ++ s = b ++ s' -> a = b /\ s = s'.
Proof.
  revert b. induction a as [|c a IH]; intros [|d b] Ha Hb Hs Hs' E; cbn [app] in E.
  - split; [reflexivity | exact E].
  - exfalso. apply (Hs _ _ E). apply Hb. left. reflexivity.
  - exfalso. apply (Hs' c (a ++ s)); [symmetry; exact E|]. apply Ha. left. reflexivity.
  - injection E as -> E. destruct (IH b) as [-> ->]; [intros x Hx; apply Ha; right; exact Hx | intros x Hx; apply Hb; right; exact Hx | exact Hs | exact Hs' | exact E|]. split; reflexivity.
Qed.
Lemma brace_split a b s s' : ~ In 125%N a -> ~ In 125%N b -> a ++ 125%N :: s = b ++ 125%N :: s' -> a = b /\ s = s'.
Proof.
  revert b. induction a as [|c a IH]; intros [|d b] Ha Hb E; cbn [app] in E.
  - injection E as ->. split; reflexivity.
  - exfalso. injection E as <- _. apply Hb. left. reflexivity.
  - exfalso. injection E as -> _. apply Ha. left. reflexivity.
  - injection E as -> E. destruct (IH b) as [-> ->]; [intros H; apply Ha; right; exact H | intros H; apply Hb; right; exact H | exact E|]. split; reflexivity.
Qed.
Lemma dec_digits i : digits (dec i).
Proof. intros c. apply dec_range. Qed.
Lemma dec_starts i : exists c r, dec i = c :: r /\ (48 <= c <= 57)%N.
Proof.
  destruct (dec i) as [|c r] eqn:E.
  - exfalso. destruct i as [|p]; [discriminate|]. unfold dec in E. destruct (N.to_uint (N.pos p)) eqn:Ep; try discriminate.
    pose proof (DecimalN.Unsigned.of_to (N.pos p)) as Q. rewrite Ep in Q. discriminate.
  - exists c, r. split; [reflexivity|]. apply (dec_digits i). rewrite E. left. reflexivity.
Qed.
Lemma typed_once f s t t' : typed f s t -> typed f s t' -> t = t'.
Proof.
  intros H. revert t'. induction H as [|c s t Hc H IH|i x s t Hx H IH|i s t Hs H IH]; intros t' H'.
  - inversion H' as [| | |]; reflexivity.
  - inversion H' as [|c' s' u Hc' H2 E1 E2|j y s' u Hy H2 E1 E2|j s' u Hs' H2 E1 E2]; subst.
    + f_equal. apply IH, H2.
    + exfalso. apply Hc. reflexivity.
    + exfalso. apply Hc. reflexivity.
  - remember (lit "${" ++ dec i ++ lit ":" ++ x ++ lit "}" ++ s) as S eqn:ES. destruct H' as [|c' s' u Hc' H2|j y s' u Hy H2|j s' u Hs' H2].
    + discriminate.
    + exfalso. injection ES as E _. exact (Hc' E).
    + change (36%N :: 123%N :: (dec j ++ lit ":" ++ y ++ lit "}" ++ s') = 36%N :: 123%N :: (dec i ++ lit ":" ++ x ++ lit "}" ++ s)) in ES.
      injection ES as E. apply digits_split in E; [|apply dec_digits|apply dec_digits|intros c r Q; injection Q as <- _; lia|intros c r Q; injection Q as <- _; lia].
      destruct E as [E1 E2]. apply dec_inj in E1 as ->. change (58%N :: (y ++ 125%N :: s') = 58%N :: (x ++ 125%N :: s)) in E2. injection E2 as E2.
      apply brace_split in E2 as [-> ->]; [|exact Hy|exact Hx]. f_equal. apply IH, H2.
    + exfalso. destruct (dec_starts j) as (c & r & Ed & Hd). rewrite Ed in ES. change (36%N :: c :: r ++ s' = 36%N :: 123%N :: (dec i ++ lit ":" ++ x ++ lit "}" ++ s)) in ES.
      injection ES as -> _. lia.
  - remember (lit "$" ++ dec i ++ s) as S eqn:ES. destruct H' as [|c' s' u Hc' H2|j y s' u Hy H2|j s' u Hs' H2].
    + discriminate.
    + exfalso. injection ES as E _. exact (Hc' E).
    + exfalso. destruct (dec_starts i) as (c & r & Ed & Hd). rewrite Ed in ES. change (36%N :: 123%N :: (dec j ++ lit ":" ++ y ++ lit "}" ++ s') = 36%N :: c :: r ++ s) in ES.
      injection ES as <- _. lia.
    + change (36%N :: dec j ++ s' = 36%N :: dec i ++ s) in ES. injection ES as E. apply digits_split in E; [|apply dec_digits|apply dec_digits|exact Hs'|exact Hs].
      destruct E as [E1 ->]. apply dec_inj in E1 as ->. f_equal. apply IH, H2.
Qed.
