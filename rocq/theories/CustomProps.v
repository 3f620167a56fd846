(** C94: the custom types of extension functions. *)
From Verif Require Import Base BaseFacts CustomModel CustomSpec CustomProofs.

(** Every local type that the parameters and the result of an extension function stand for is checked for the SCALE traits
    exactly once; no other item is checked. *)
Theorem C94_checked : forall adt diag (range : adt -> nat * nat) resolve (check : adt -> option diag) params ret,
  by_text params ret -> by_range range resolve params ret ->
  exists l, NoDup (map range l) /\ (forall a, In a l <-> used resolve params ret a) /\ codec_reports range resolve check params ret = filter_map check l.
Proof. intros. apply reports; assumption. Qed.

(** So there is a report exactly for the types that fail the check. *)
Theorem C94_reports : forall adt diag (range : adt -> nat * nat) resolve (check : adt -> option diag) params ret d,
  by_text params ret -> by_range range resolve params ret ->
  In d (codec_reports range resolve check params ret) <-> exists a, used resolve params ret a /\ check a = Some d.
Proof.
  intros adt diag range resolve check params ret d Ht Hr. destruct (reports range resolve check params ret Ht Hr) as (l & _ & L & ->). split.
  - intros H. induction l as [|a l IH]; [contradiction|]. assert (G : forall l, In d (filter_map check l) -> exists a, In a l /\ check a = Some d).
    { clear. induction l as [|a l IH]; [contradiction|]. cbn [filter_map]. destruct (check a) as [x|] eqn:E.
      - intros [<-|H]; [exists a; split; [left; reflexivity | exact E]|]. destruct (IH H) as (b & Hb & Eb). exists b. split; [right; exact Hb | exact Eb].
      - intros H. destruct (IH H) as (b & Hb & Eb). exists b. split; [right; exact Hb | exact Eb]. }
    destruct (G _ H) as (b & Hb & E). exists b. split; [apply L, Hb | exact E].
  - intros (a & Ha & E). apply L in Ha. clear -Ha E. induction l as [|b l IH]; [contradiction|]. cbn [filter_map]. destruct Ha as [->|Ha].
    + rewrite E. left. reflexivity.
    + destruct (check b); [right|]; apply IH, Ha.
Qed.

(** If the local types are not generic, every local type that occurs anywhere in the signature is checked. *)
Theorem C94_all : forall adt diag (range : adt -> nat * nat) resolve (check : adt -> option diag) params ret p a,
  by_text params ret -> by_range range resolve params ret ->
  (forall s args, occurs params ret (TPath s (Some args)) -> resolve (TPath s (Some args)) = None) ->
  occurs params ret p -> resolve p = Some a ->
  forall d, check a = Some d -> In d (codec_reports range resolve check params ret).
Proof.
  intros adt diag range resolve check params ret p a Ht Hr Hg Hp Ha d Hd. apply C94_reports; [exact Ht | exact Hr|]. exists a. split; [|exact Hd].
  assert (G : forall p, occurs params ret p -> forall a, stands_for resolve p a -> used resolve params ret a).
  { clear -Hg. intros p H. induction H as [t p Hs Hn|s args u q Ho IH Hu Hn]; intros a Ha.
    - exists t, p. auto.
    - apply IH. exact (stands_arg resolve s args u q a (Hg _ _ Ho) Hu Hn Ha). }
  apply (G p Hp). apply stands_here, Ha.
Qed.

(** ** Example: [fn f(a: Vec<(A, B)>, b: &A) -> Result<B, E>], where [A] and [B] are local *)
Definition p_ (s : string) (args : list ty) : tpath :=
  TPath (lit s) (match args with [] => None | _ => Some (map (fun t => ArgType (Some t)) args) end).
Definition t_ (s : string) (args : list ty) : ty := TyPath (Some (p_ s args)).
Definition local_ (l : list (string * nat)) (p : tpath) : option nat := option_map snd (find (fun x => str_eqb (lit (fst x)) (ptext p)) l).
Definition r_ (a : nat) : nat * nat := (a, a + 10).
Definition params_ := Some [Some (t_ "Vec<(A, B)>" [TyTuple [t_ "A" []; t_ "B" []]]); Some (TyIn (Some (t_ "A" [])))].
Definition ret_ := Some (t_ "Result<B, E>" [t_ "B" []; t_ "E" []]).
Example checked_example : codec_reports r_ (local_ [("A"%string, 100); ("B"%string, 200)]) Some params_ ret_ = [100; 200].
Proof. vm_compute. reflexivity. Qed.
Lemma occurs_example p : occurs params_ ret_ p -> In p [p_ "Vec<(A, B)>" [TyTuple [t_ "A" []; t_ "B" []]]; p_ "A" []; p_ "B" []; p_ "E" []; p_ "Result<B, E>" [t_ "B" []; t_ "E" []]].
Proof.
  assert (N : forall s args p, names (t_ s args) p -> p = p_ s args) by (intros s args q H; inversion H; reflexivity).
  intros H. induction H as [t p Hs Hn|s args u q _ IH Hu Hn].
  - destruct Hs as [(l & E & Hs)|E].
    + injection E as <-. destruct Hs as [Hs|[Hs|[]]]; injection Hs as <-.
      * apply N in Hn. subst p. left. reflexivity.
      * inversion Hn as [|? ? Hn'|]; subst. apply N in Hn'. subst p. right. left. reflexivity.
    + injection E as <-. apply N in Hn. subst p. do 4 right. left. reflexivity.
  - destruct IH as [E|[E|[E|[E|[E|[]]]]]]; try discriminate E; injection E as <- <-.
    + destruct Hu as [Hu|[]]. injection Hu as <-. inversion Hn as [| |? t ? Ht Hn']; subst. destruct Ht as [<-|[<-|[]]]; apply N in Hn'; subst q; cbn [In]; auto.
    + destruct Hu as [Hu|[Hu|[]]]; injection Hu as <-; apply N in Hn; subst q; cbn [In]; auto.
Qed.
Example hypotheses_example : by_text params_ ret_ /\ by_range r_ (local_ [("A"%string, 100); ("B"%string, 200)]) params_ ret_.
Proof.
  split.
  - intros p q Hp Hq. apply occurs_example in Hp, Hq. intros E.
    repeat (destruct Hp as [<-|Hp]; [repeat (destruct Hq as [<-|Hq]; [first [reflexivity | discriminate E]|]); contradiction|]). contradiction.
  - intros a b _ _ E. injection E as E _. exact E.
Qed.

Example all_example : forall s args, occurs params_ ret_ (TPath s (Some args)) -> local_ [("A"%string, 100); ("B"%string, 200)] (TPath s (Some args)) = None.
Proof. intros s args H. apply occurs_example in H. destruct H as [H|[H|[H|[H|[H|[]]]]]]; try discriminate H; rewrite <- H; reflexivity. Qed.

(** ** What goes wrong: a local type hides the types in its generic arguments:
    [fn f(a: Local<Bad>)] with [Bad] unfit. *)
Theorem C94_hidden_refuted : exists range resolve (check : nat -> option nat) params ret u,
  by_text params ret /\ by_range range resolve params ret
  /\ params = Some [Some (t_ "Local<Bad>" [t_ "Bad" []])] /\ ret = None
  /\ resolve (p_ "Bad" []) = Some u /\ check u <> None /\ codec_reports range resolve check params ret = [].
Proof.
  exists r_, (local_ [("Local<Bad>"%string, 100); ("Bad"%string, 200)]), (fun a => if a =? 200 then Some a else None), (Some [Some (t_ "Local<Bad>" [t_ "Bad" []])]), None, 200.
  split; [|split; [intros a b _ _ E; injection E as E _; exact E|]]; [|repeat split; vm_compute; discriminate].
  assert (O : forall p, occurs (Some [Some (t_ "Local<Bad>" [t_ "Bad" []])]) None p -> p = p_ "Local<Bad>" [t_ "Bad" []] \/ p = p_ "Bad" []).
  { intros p H. induction H as [t p [(l & E & Hs)|E] Hn|s args u q _ IH Hu Hn]; [|discriminate E|].
    - injection E as <-. destruct Hs as [Hs|[]]. injection Hs as <-. inversion Hn; subst. left. reflexivity.
    - destruct IH as [E|E]; [|discriminate E]. injection E as _ E. subst args. destruct Hu as [Hu|[]]. injection Hu as <-. inversion Hn; subst. right. reflexivity. }
  intros p q Hp Hq. apply O in Hp, Hq. destruct Hp as [-> | ->], Hq as [-> | ->]; intros E; reflexivity || discriminate E.
Qed.

Print Assumptions C94_checked.
Print Assumptions C94_reports.
Print Assumptions C94_all.
Print Assumptions C94_hidden_refuted.
