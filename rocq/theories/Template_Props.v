(** * C49: what a G-code template resolves to *)
From Coq Require Import ZArith QArith Ascii String Lia.
From stdpp Require Import base list.
From Verif Require Import Template_Model.
Local Open Scope Z_scope.

(** ** Specification: texts *)

Definition brace_free (b : text) : Prop := Forall (fun c => c <> lbrace /\ c <> rbrace) b.
(** No pair of braces with no brace in between. *)
Definition no_block (t : text) : Prop := forall a b c, brace_free b -> t <> a ++ lbrace :: b ++ rbrace :: c.

(** A template as a sequence of texts and blocks in braces, a block possibly with the end
    of its line. *)
Definition source (k : token) : text :=
  match k with Txt t => t | Blk b eol => lbrace :: b ++ rbrace :: (if eol then [newline] else []) end.
Definition sources (l : list token) : text := concat (map source l).
Fixpoint cut_ok (l : list token) : Prop :=
  match l with
  | [] => True
  | Txt t :: r => t <> [] /\ no_block t /\ match r with Txt _ :: _ => False | _ => True end /\ cut_ok r
  | Blk b eol :: r => brace_free b /\ (eol = false -> match r with Txt (c :: _) :: _ => c <> newline | _ => True end) /\ cut_ok r
  end.

(** ** Specification: meaning *)

Inductive piece := PTxt (t : text) | PExpr (body : text) (eol : bool).
(** A branch: the block that starts it and what follows it. *)
Record branch := Branch { gword : text; geol : bool; content : list piece }.
Inductive part := Plain (p : piece) | Cond (first : branch) (others : list branch) (final : text) (feol : bool).

Definition piece_tok (p : piece) : token := match p with PTxt t => Txt t | PExpr b e => Blk b e end.
Definition branch_toks (b : branch) : list token := Blk (gword b) (geol b) :: map piece_tok (content b).
Definition part_toks (p : part) : list token :=
  match p with
  | Plain p => [piece_tok p]
  | Cond first others final feol => concat (map branch_toks (first :: others)) ++ [Blk final feol]
  end.
Definition toks (l : list part) : list token := concat (map part_toks l).

(** The word that a block starts with. *)
Definition word_of (body : text) : option word := (groups body).1.1.

Section meaning.
  Context (eval : option nat -> text -> option value) (show : value -> text) (stoi : text -> option Z) (count : nat) (ctx : option nat).

  (** The value of a block's expression (see [C49_settings] below). *)
  Definition value_of (body : text) : outcome value := evaluate_in eval stoi count ctx (groups body).1.2 (groups body).2.

  Definition piece_ok (p : piece) : Prop := match p with PTxt _ => True | PExpr b _ => word_of b = None end.
  Definition boolean (body : text) : Prop := forall v, value_of body = Got v -> exists b, v = VBool b.
  Definition branch_ok (b : branch) : Prop :=
    ((word_of (gword b) = Some Elif /\ boolean (gword b)) \/ word_of (gword b) = Some Else) /\ Forall piece_ok (content b).
  (** A condition is an "if", any number of "elif"s and "else"s, and an "endif", with no
      condition inside. *)
  Definition part_ok (p : part) : Prop :=
    match p with
    | Plain p => piece_ok p
    | Cond first others final _ =>
      word_of (gword first) = Some If /\ boolean (gword first) /\ Forall piece_ok (content first)
      /\ Forall branch_ok others /\ word_of final = Some Endif
    end.

  Definition piece_out (p : piece) : outcome text :=
    match p with
    | PTxt t => Got t
    | PExpr b eol => obind (value_of b) (fun v => Got (show v ++ (if eol then [newline] else [])))
    end.
  Fixpoint together (l : list (outcome text)) : outcome text :=
    match l with [] => Got [] | m :: r => obind m (fun a => obind (together r) (fun b => Got (a ++ b))) end.
  Definition holds (b : branch) : outcome bool :=
    match word_of (gword b) with
    | Some Else => Got true
    | _ => obind (value_of (gword b)) (fun v => Got match v with VBool b => b | _ => false end)
    end.
  (** The first branch that holds is the only one that counts. *)
  Fixpoint taken (l : list branch) : outcome text :=
    match l with
    | [] => Got []
    | b :: r => obind (holds b) (fun h => if h then together (map piece_out (content b)) else taken r)
    end.
  Definition part_out (p : part) : outcome text :=
    match p with Plain p => piece_out p | Cond first others _ _ => taken (first :: others) end.
  Definition out (l : list part) : outcome text := together (map part_out l).
End meaning.

(** ** Cutting up *)

Local Ltac aa := cbn [app opened]; repeat (rewrite <- app_assoc; cbn [app]); reflexivity.

Lemma no_block_app_r a t : no_block (a ++ t) -> no_block t.
Proof. intros H x b y Hb ->. apply (H (a ++ x) b y Hb). aa. Qed.

Lemma scan_txt t : forall txt cur rest, no_block (opened cur ++ t) -> (forall b, cur = Some b -> brace_free b) ->
  (rest = [] \/ exists r, rest = lbrace :: r) -> scan (t ++ rest) txt cur = scan rest (txt ++ opened cur ++ t) None.
Proof.
  induction t as [|c t IH]; intros txt cur rest H Hb Hr.
  - rewrite app_nil_r. cbn [app]. destruct Hr as [->|[r ->]]; cbn [scan].
    + by rewrite app_nil_r.
    + destruct (Ascii.eqb_spec lbrace lbrace); [|done]. by rewrite app_nil_r.
  - cbn [app scan]. destruct (Ascii.eqb_spec c lbrace) as [->|N1].
    + rewrite IH; [|by apply no_block_app_r in H|intros b [= <-]; constructor|done]. cbn [opened]. aa.
    + destruct cur as [b|].
      * destruct (Ascii.eqb_spec c rbrace) as [->|N2].
        { exfalso. apply (H [] b t); [by apply Hb|]. done. }
        rewrite IH; [|cbn [opened] in *|..].
        -- cbn [opened]. aa.
        -- cbn [app]. rewrite <- (assoc_L app). exact H.
        -- intros b' [= <-]. apply Forall_app. split; [by apply Hb|]. repeat constructor; done.
        -- done.
      * rewrite IH; [|by apply (no_block_app_r [c])|done|done]. cbn [opened]. aa.
Qed.

Lemma scan_blk b : forall b0 txt r, brace_free b ->
  scan (b ++ rbrace :: r) txt (Some b0) =
  match r with
  | c' :: r' => if Ascii.eqb c' newline then pre txt ++ Blk (b0 ++ b) true :: scan r' [] None else pre txt ++ Blk (b0 ++ b) false :: scan r [] None
  | [] => pre txt ++ [Blk (b0 ++ b) false]
  end.
Proof.
  induction b as [|c b IH]; intros b0 txt r H.
  - rewrite app_nil_r. done.
  - inversion H as [|? ? [H1 H2] H']; subst. cbn [app scan]. destruct (Ascii.eqb_spec c lbrace); [done|]. destruct (Ascii.eqb_spec c rbrace); [done|].
    rewrite IH by done. aa.
Qed.

Lemma scan_block b eol r txt : brace_free b -> (eol = false -> head r <> Some newline) ->
  scan (source (Blk b eol) ++ r) txt None = pre txt ++ Blk b eol :: scan r [] None.
Proof.
  intros Hb He. cbn [source app]. cbn [scan]. destruct (Ascii.eqb_spec lbrace lbrace); [|done]. cbn [opened]. rewrite app_nil_r.
  rewrite <- (assoc_L app). cbn [app]. rewrite scan_blk by done. cbn [app]. destruct eol.
  - cbn [app]. by destruct (Ascii.eqb_spec newline newline).
  - cbn [app]. destruct r as [|c r]; [done|]. destruct (Ascii.eqb_spec c newline) as [->|]; [by destruct (He eq_refl)|done].
Qed.

Lemma sources_cons k l : sources (k :: l) = source k ++ sources l.
Proof. done. Qed.
Lemma sources_app a b : sources (a ++ b) = sources a ++ sources b.
Proof. unfold sources. by rewrite map_app, concat_app. Qed.

Lemma head_sources l c : cut_ok l -> head (sources l) = Some c ->
  (exists r l', l = Txt (c :: r) :: l') \/ c = lbrace.
Proof.
  destruct l as [|[t|b e] l]; [done| |].
  - intros (Ht & _) H. destruct t as [|x t]; [done|]. cbn in H. injection H as ->. left. eauto.
  - intros _ H. cbn in H. injection H as <-. by right.
Qed.

Lemma head_no_newline b e l : cut_ok (Blk b e :: l) -> e = false -> head (sources l) <> Some newline.
Proof.
  intros (_ & He & H) -> E. specialize (He eq_refl). destruct (head_sources _ _ H E) as [(r & l' & ->)|N]; [done|]. discriminate N.
Qed.

(** Every text with blocks is cut up in this way: the theorems below speak of cut up
    templates. *)
Theorem C49_cut l : cut_ok l -> scan (sources l) [] None = l.
Proof.
  induction l as [|[t|b eol] l IH]; intros H; [done| |].
  - destruct H as (Ht & Hn & Ha & H). rewrite sources_cons. cbn [source].
    assert (Hs : sources l = [] \/ exists r, sources l = lbrace :: r).
    { destruct l as [|[t'|b e] l]; [by left|done|]. right. rewrite sources_cons. cbn. eauto. }
    rewrite scan_txt; [|done|done|done]. cbn [opened app].
    destruct l as [|[t'|b e] l]; [|done|].
    + cbn. rewrite ?app_nil_r. by destruct t.
    + pose proof (head_no_newline _ _ _ H) as Hh. specialize (IH H). destruct H as (Hb & He & H).
      rewrite sources_cons, scan_block by done. assert (E : pre t = [Txt t]) by (by destruct t). rewrite E. cbn [app]. f_equal.
      rewrite sources_cons, scan_block in IH by done. exact IH.
  - pose proof (head_no_newline _ _ _ H) as Hh. destruct H as (Hb & He & H). rewrite sources_cons, scan_block by done.
    cbn [pre app]. by rewrite IH.
Qed.

Lemma no_block_snoc t u : no_block t -> Forall (fun c => c <> rbrace) u -> no_block (t ++ u).
Proof.
  intros H Hu. revert t H. induction u as [|x u IH]; intros t H; [by rewrite app_nil_r|].
  inversion Hu as [|? ? Hx Hu']; subst. replace (t ++ x :: u) with ((t ++ [x]) ++ u) by (aa).
  apply IH; [done|]. intros a b c Hb E.
  destruct c as [|y c _] using rev_ind.
  - replace (a ++ lbrace :: b ++ [rbrace]) with ((a ++ lbrace :: b) ++ [rbrace]) in E by aa.
    apply app_inj_tail in E as [_ E]. done.
  - replace (a ++ lbrace :: b ++ rbrace :: c ++ [y]) with ((a ++ lbrace :: b ++ rbrace :: c) ++ [y]) in E
      by aa.
    apply app_inj_tail in E as [E _]. by apply (H a b c Hb).
Qed.
Lemma no_lbrace_no_block t : Forall (fun c => c <> lbrace) t -> no_block t.
Proof. intros H a b c _ ->. apply Forall_app in H as [_ H]. inversion H. done. Qed.

Lemma scan_cut n : forall input txt cur, (length input < n)%nat -> (cur = None -> Forall (fun c => c <> lbrace) txt) -> no_block txt ->
  (forall b, cur = Some b -> brace_free b) ->
  cut_ok (scan input txt cur) /\ sources (scan input txt cur) = txt ++ opened cur ++ input.
Proof.
  induction n as [|n IH]; intros input txt cur Hn H1 H2 H3; [lia|].
  assert (Ho : no_block (txt ++ opened cur)).
  { apply no_block_snoc; [done|]. destruct cur as [b|]; cbn; constructor; [done|]. eapply Forall_impl; [by apply H3|]. by intros x []. }
  assert (Hp : forall t, no_block t -> cut_ok (pre t) /\ sources (pre t) = t).
  { intros t Ht. destruct t as [|x t]; [done|]. cbn. rewrite app_nil_r. done. }
  destruct input as [|c r]; cbn [scan].
  { rewrite app_nil_r. by apply Hp. }
  cbn in Hn. destruct (Ascii.eqb_spec c lbrace) as [->|N1].
  { destruct (IH r (txt ++ opened cur) (Some [])) as [I1 I2]; [lia|done|done|intros b [= <-]; constructor|].
    split; [done|]. rewrite I2. cbn. aa. }
  destruct cur as [b|].
  2: { destruct (IH r (txt ++ [c]) None) as [I1 I2].
       - lia.
       - intros _. apply Forall_app. split; [by apply H1|]. by repeat constructor.
       - apply no_lbrace_no_block, Forall_app. split; [by apply H1|]. by repeat constructor.
       - done.
       - split; [done|]. rewrite I2. cbn. aa. }
  destruct (Ascii.eqb_spec c rbrace) as [->|N2].
  2: { destruct (IH r txt (Some (b ++ [c]))) as [I1 I2]; [lia|done|done| |].
       - intros b' [= <-]. apply Forall_app. split; [by apply H3|]. repeat constructor; done.
       - split; [done|]. rewrite I2. cbn. aa. }
  assert (Hb : brace_free b) by (by apply H3).
  assert (K : forall eol r', (length r' <= length r)%nat -> (eol = false -> head r' <> Some newline) ->
    cut_ok (pre txt ++ Blk b eol :: scan r' [] None)
    /\ sources (pre txt ++ Blk b eol :: scan r' [] None) = txt ++ lbrace :: b ++ rbrace :: (if eol then [newline] else []) ++ r').
  { intros eol r' Hl He. destruct (IH r' [] None) as [I1 I2]; [lia|by intros; constructor|by apply no_lbrace_no_block; constructor|done|].
    cbn in I2. assert (C : cut_ok (Blk b eol :: scan r' [] None)).
    { split; [done|]. split; [|done]. intros ->. specialize (He eq_refl). destruct (scan r' [] None) as [|[[|x t]|] l] eqn:E; try done.
      rewrite <- I2 in He. cbn in He. congruence. }
    destruct (Hp txt H2) as [P1 P2]. split.
    - destruct txt as [|x t]; [done|]. cbn [pre app]. destruct P1 as (Q1 & Q2 & _). done.
    - rewrite sources_app, P2, sources_cons, I2. cbn [source app]. aa. }
  destruct r as [|c' r'].
  - destruct (K false []) as [K1 K2]; [lia|done|]. split; [exact K1|exact K2].
  - destruct (Ascii.eqb_spec c' newline) as [->|N3].
    + destruct (K true r') as [K1 K2]; [cbn; lia|done|]. split; [exact K1|exact K2].
    + destruct (K false (c' :: r')) as [K1 K2]; [lia|cbn; congruence|]. split; [exact K1|exact K2].
Qed.
Theorem C49_every_template_is_cut input : exists l, cut_ok l /\ sources l = input.
Proof.
  exists (scan input [] None). destruct (scan_cut (S (length input)) input [] None) as [H1 H2]; [lia|by intros; constructor| |done|done].
  by apply no_lbrace_no_block; constructor.
Qed.

(** ** Conditions *)

Section resolver.
  Context (eval : option nat -> text -> option value) (show : value -> text) (stoi : text -> option Z) (count : nat) (ctx : option nat).
  Notation process_block := (process_block eval show stoi count ctx).
  Notation process := (process eval show stoi count ctx).
  Notation resolve := (resolve eval show stoi count ctx).
  Notation value_of := (value_of eval stoi count ctx).
  Notation boolean := (boolean eval stoi count ctx).
  Notation branch_ok := (branch_ok eval stoi count ctx).
  Notation part_ok := (part_ok eval stoi count ctx).
  Notation piece_out := (piece_out eval show stoi count ctx).
  Notation holds := (holds eval stoi count ctx).
  Notation taken := (taken eval show stoi count ctx).
  Notation part_out := (part_out eval show stoi count ctx).
  Notation out := (out eval show stoi count ctx).

  Fixpoint steps (l : list token) (o : text) (st : cstate) : outcome (text * cstate) :=
    match l with
    | [] => Got (o, st)
    | Txt t :: r => steps r (process_text t o st) st
    | Blk body eol :: r => obind (process_block body eol o st) (fun p => steps r p.1 p.2)
    end.
  Lemma process_steps l : forall o st, process l o st = obind (steps l o st) (fun p => Got p.1).
  Proof.
    induction l as [|[t|b e] l IH]; intros o st; cbn [Template_Model.process steps]; [done|apply IH|].
    destruct (process_block b e o st); cbn; [apply IH|done..].
  Qed.
  Lemma steps_app a : forall b o st, steps (a ++ b) o st = obind (steps a o st) (fun p => steps b p.1 p.2).
  Proof.
    induction a as [|[t|body e] a IH]; intros b o st; cbn [app steps]; [done|apply IH|].
    destruct (process_block body e o st); cbn; [apply IH|done..].
  Qed.

  Lemma block_write body eol o st : word_of body = None -> st = OutsideCondition \/ st = ConditionTrue ->
    process_block body eol o st = obind (value_of body) (fun v => Got (o ++ show v ++ (if eol then [newline] else []), st)).
  Proof. unfold word_of, Template_Model.process_block, Template_Props.value_of. intros -> [-> | ->]; done. Qed.
  Lemma block_silent body eol o st : word_of body = None -> st = ConditionFalse \/ st = ConditionDone ->
    process_block body eol o st = Got (o, st).
  Proof. unfold word_of, Template_Model.process_block. intros -> [-> | ->]; done. Qed.

  Lemma pieces_write l : forall o st, Forall piece_ok l -> st = OutsideCondition \/ st = ConditionTrue ->
    steps (map piece_tok l) o st = obind (together (map piece_out l)) (fun t => Got (o ++ t, st)).
  Proof.
    induction l as [|[t|b e] l IH]; intros o st H Hst; inversion H as [|? ? Hp Hl]; subst; cbn [map piece_tok steps together Template_Props.piece_out].
    - cbn. by rewrite app_nil_r.
    - rewrite IH by done. cbn. destruct (together _); cbn; try done. destruct Hst as [-> | ->]; cbn; aa.
    - rewrite block_write by done. destruct (value_of b); cbn; try done. rewrite IH by done.
      destruct (together _); cbn; try done. aa.
  Qed.
  Lemma pieces_silent l : forall o st, Forall piece_ok l -> st = ConditionFalse \/ st = ConditionDone ->
    steps (map piece_tok l) o st = Got (o, st).
  Proof.
    induction l as [|[t|b e] l IH]; intros o st H Hst; inversion H as [|? ? Hp Hl]; subst; cbn [map piece_tok steps]; [done| |].
    - rewrite IH by done. by destruct Hst as [-> | ->].
    - rewrite block_silent by done. cbn. by apply IH.
  Qed.

  Lemma branch_silent l : forall o st, Forall branch_ok l -> st = ConditionTrue \/ st = ConditionDone ->
    exists st', steps (concat (map branch_toks l)) o st = Got (o, st') /\ (st' = ConditionTrue \/ st' = ConditionDone).
  Proof.
    induction l as [|b l IH]; intros o st H Hst; inversion H as [|? ? [Hb Hc] Hl]; subst; [by exists st|].
    cbn [map concat]. rewrite steps_app. cbn [branch_toks steps].
    assert (E : process_block (gword b) (geol b) o st = Got (o, ConditionDone)).
    { unfold word_of in Hb. unfold Template_Model.process_block. destruct Hb as [[-> _]| ->]; destruct Hst as [-> | ->]; done. }
    rewrite E. cbn [obind fst snd]. rewrite pieces_silent by (try done; by right). cbn [obind fst snd]. apply IH; [done|by right].
  Qed.

  Lemma branches_taken l : forall o, Forall branch_ok l ->
    match taken l with
    | Got t => exists st', steps (concat (map branch_toks l)) o ConditionFalse = Got (o ++ t, st') /\ st' <> OutsideCondition
    | Failed => steps (concat (map branch_toks l)) o ConditionFalse = Failed
    | Crash => steps (concat (map branch_toks l)) o ConditionFalse = Crash
    end.
  Proof.
    induction l as [|b l IH]; intros o H; inversion H as [|? ? [Hb Hc] Hl]; subst.
    { cbn. exists ConditionFalse. by rewrite app_nil_r. }
    cbn [Template_Props.taken map concat]. rewrite steps_app. cbn [branch_toks steps].
    assert (E : process_block (gword b) (geol b) o ConditionFalse
                = obind (holds b) (fun h => Got (o, if h then ConditionTrue else ConditionFalse))).
    { unfold Template_Props.holds. destruct Hb as [[Hw Hbool]|Hw].
      - rewrite Hw. unfold word_of in Hw. unfold Template_Model.process_block. rewrite Hw. cbn [instruct].
        fold (value_of (gword b)). destruct (value_of (gword b)) as [v| |] eqn:Ev; cbn; try done.
        destruct (Hbool v Ev) as [x ->]. done.
      - rewrite Hw. unfold word_of in Hw. unfold Template_Model.process_block. rewrite Hw. done. }
    rewrite E. destruct (holds b) as [[]| |]; cbn [obind fst snd]; try done.
    - rewrite pieces_write by (try done; by right). destruct (together _) as [t| |]; cbn [obind fst snd]; try done.
      destruct (branch_silent l (o ++ t) ConditionTrue Hl (or_introl eq_refl)) as (st' & E' & Hst').
      exists st'. split; [done|]. by destruct Hst' as [-> | ->].
    - rewrite pieces_silent by (try done; by left). cbn [obind fst snd]. apply IH. done.
  Qed.

  Lemma open_taken first others o : word_of (gword first) = Some If -> boolean (gword first) -> Forall piece_ok (content first) ->
    Forall branch_ok others ->
    match taken (first :: others) with
    | Got t => exists st', steps (concat (map branch_toks (first :: others))) o OutsideCondition = Got (o ++ t, st') /\ st' <> OutsideCondition
    | Failed => steps (concat (map branch_toks (first :: others))) o OutsideCondition = Failed
    | Crash => steps (concat (map branch_toks (first :: others))) o OutsideCondition = Crash
    end.
  Proof.
    intros Hi Hbool Hp Ho.
    cbn [Template_Props.taken map concat]. rewrite steps_app. cbn [branch_toks steps].
      assert (E : process_block (gword first) (geol first) o OutsideCondition
                  = obind (holds first) (fun h => Got (o, if h then ConditionTrue else ConditionFalse))).
      { unfold Template_Props.holds. rewrite Hi. unfold word_of in Hi. unfold Template_Model.process_block. rewrite Hi. cbn [instruct].
        fold (value_of (gword first)). destruct (value_of (gword first)) as [v| |] eqn:Ev; cbn; try done.
        destruct (Hbool v Ev) as [x ->]. done. }
      rewrite E. destruct (holds first) as [[]| |]; cbn [obind fst snd]; try done.
      - rewrite pieces_write by (try done; by right). destruct (together _) as [x| |]; cbn [obind fst snd]; try done.
        destruct (branch_silent others (o ++ x) ConditionTrue Ho (or_introl eq_refl)) as (st' & E' & Hst').
        exists st'. split; [done|]. by destruct Hst' as [-> | ->].
      - rewrite pieces_silent by (try done; by left). cbn [obind fst snd]. by apply branches_taken.
  Qed.

  Lemma part_steps p o : part_ok p ->
    steps (part_toks p) o OutsideCondition = obind (part_out p) (fun t => Got (o ++ t, OutsideCondition)).
  Proof.
    destruct p as [p|first others final feol]; intros H.
    - cbn [part_toks Template_Props.part_out]. change [piece_tok p] with (map piece_tok [p]).
      rewrite pieces_write by (try (by repeat constructor); by left). cbn. destruct (piece_out p); cbn; try done. by rewrite app_nil_r.
    - destruct H as (Hi & Hbool & Hc & Ho & He). cbn [part_toks Template_Props.part_out]. rewrite steps_app.
      pose proof (open_taken first others o Hi Hbool Hc Ho) as F.
      destruct (taken (first :: others)) as [t| |]; [|by rewrite F..].
      destruct F as (st' & -> & Hst'). cbn [obind fst snd steps]. unfold Template_Model.process_block. unfold word_of in He. rewrite He.
      by destruct st'.
  Qed.

  Lemma parts_steps l : forall o, Forall part_ok l ->
    steps (toks l) o OutsideCondition = obind (out l) (fun t => Got (o ++ t, OutsideCondition)).
  Proof.
    induction l as [|p l IH]; intros o H; inversion H; subst.
    { cbn. by rewrite app_nil_r. }
    change (toks (p :: l)) with (part_toks p ++ toks l). rewrite steps_app, part_steps by done. unfold Template_Props.out. cbn [map together].
    destruct (part_out p); cbn [obind fst snd]; try done. rewrite IH by done. fold (out l). destruct (out l); cbn; try done.
    aa.
  Qed.

  (** A template resolves to its texts, the values of its expressions and the branch that
      is taken of each condition, in order; nothing of the other branches is looked at.
      If one of these values cannot be had the template is returned as it is. *)
  Theorem C49_resolve l : cut_ok (toks l) -> Forall part_ok l ->
    resolve (sources (toks l)) =
      match out l with Got t => Got (finish t) | Failed => Got (finish (sources (toks l))) | Crash => Crash end.
  Proof.
    intros Hc Hl. unfold Template_Model.resolve. rewrite C49_cut by done. rewrite process_steps, parts_steps by done.
    by destruct (out l).
  Qed.

  (** So it is if a condition is continued or ended that was not started, ... *)
  Theorem C49_not_started l body eol rest : let t := toks l ++ Blk body eol :: rest in
    cut_ok t -> Forall part_ok l -> (exists w, word_of body = Some w /\ w <> If) -> out l <> Crash ->
    resolve (sources t) = Got (finish (sources t)).
  Proof.
    intros t Hc Hl (w & Hw & Hn) Ho. unfold Template_Model.resolve. rewrite C49_cut by done.
    rewrite process_steps. unfold t. rewrite steps_app, parts_steps by done.
    destruct (out l); cbn [obind fst snd steps]; try done.
    unfold Template_Model.process_block. unfold word_of in Hw. rewrite Hw. by destruct w.
  Qed.

  (** ... or if one starts within another. *)
  Theorem C49_nested l first others body eol rest :
    let t := toks l ++ concat (map branch_toks (first :: others)) ++ Blk body eol :: rest in
    cut_ok t -> Forall part_ok l -> word_of (gword first) = Some If -> boolean (gword first) -> Forall piece_ok (content first) ->
    Forall branch_ok others -> word_of body = Some If -> out l <> Crash -> taken (first :: others) <> Crash ->
    resolve (sources t) = Got (finish (sources t)).
  Proof.
    intros t Hc Hl Hi Hbool Hp Ho Hw Hcr Hcr2. unfold Template_Model.resolve. rewrite C49_cut by done.
    rewrite process_steps. unfold t. rewrite steps_app, parts_steps by done.
    destruct (out l) as [o| |]; cbn [obind fst snd]; try done. rewrite steps_app.
    change ([] ++ o) with o. pose proof (open_taken first others o Hi Hbool Hp Ho) as F.
    destruct (taken (first :: others)) as [x| |]; [|by rewrite F|done].
    destruct F as (st' & -> & Hst'). cbn [obind fst snd steps]. unfold Template_Model.process_block. unfold word_of in Hw. rewrite Hw.
    by destruct st'.
  Qed.

  (** Which settings an expression sees: those of the extruder that it names after a comma,
      else of the context; the global ones if there is no such extruder. *)
  Theorem C49_settings expr ext v :
    evaluate_in eval stoi count ctx expr ext = Got v ->
    exists number, eval (match number with Some n => if Z.of_nat n <? Z.of_nat count then Some n else None | None => None end) expr = Some v
      /\ match ext with
         | None => number = ctx
         | Some e => exists x, eval ctx e = Some x
           /\ (forall n, x = VInt (Z.of_nat n) -> number = Some n)
           /\ (forall n s, x = VString s -> stoi s = Some (Z.of_nat n) -> number = Some n)
           /\ (forall z, z < 0 -> x = VInt z \/ (exists s, x = VString s /\ stoi s = Some z) -> number = None)
           /\ (forall q n, x = VDouble q -> (inject_Z (Z.of_nat n) <= q < inject_Z (Z.of_nat n) + 1)%Q -> number = Some n)
         end.
  Proof.
    unfold evaluate_in. intros E.
    assert (H : forall z, match eval (Z.to_nat <$> (if exists_env count (Some z) then Some z else None)) expr with None => Failed | Some v => Got v end = Got v ->
      eval (match (if z <? 0 then None else Some (Z.to_nat z)) with Some n => if Z.of_nat n <? Z.of_nat count then Some n else None | None => None end) expr = Some v).
    { intros z Hz. cbn [exists_env] in Hz. destruct (Z.ltb_spec z 0).
      - destruct (Z.leb_spec 0 z); [lia|]. cbn in Hz. by destruct (eval None expr) as [x|]; [injection Hz as ->|].
      - destruct (Z.leb_spec 0 z); [|lia]. rewrite Z2Nat.id by done. cbn [andb] in Hz.
        destruct (z <? Z.of_nat count); cbn in Hz; destruct (eval _ expr) as [x|]; try done; by injection Hz as ->. }
    destruct ext as [e|].
    - destruct (negb _); [done|]. destruct (eval ctx e) as [x|]; [|done]. destruct x as [b|z|s|q|n]; try done; cbn [obind] in E.
      + exists (if z <? 0 then None else Some (Z.to_nat z)). split; [by apply H|]. exists (VInt z). split_and!; try done.
        * intros n [= ->]. destruct (Z.ltb_spec (Z.of_nat n) 0); [lia|]. by rewrite Nat2Z.id.
        * intros z' Hz [[= ->]|(s & [=] & _)]. destruct (Z.ltb_spec z' 0); [done|lia].
      + destruct (stoi s) as [z|] eqn:Es; [|done]. cbn [obind] in E. exists (if z <? 0 then None else Some (Z.to_nat z)).
        split; [by apply H|]. exists (VString s). split_and!; try done.
        * intros n s' [= <-] Hz. rewrite Es in Hz. injection Hz as ->. destruct (Z.ltb_spec (Z.of_nat n) 0); [lia|]. by rewrite Nat2Z.id.
        * intros z' Hz [[=]|(s' & [= <-] & Hs)]. rewrite Es in Hs. injection Hs as ->. destruct (Z.ltb_spec z' 0); [done|lia].
      + destruct (Z.ltb_spec (Qround.Qfloor q) 0); [done|]. cbn [obind] in E.
        exists (Some (Z.to_nat (Qround.Qfloor q))). split.
        { specialize (H (Qround.Qfloor q) E). destruct (Z.ltb_spec (Qround.Qfloor q) 0); [lia|done]. }
        exists (VDouble q). split_and!; try done.
        * intros z Hz [?|(s & ? & _)]; done.
        * intros q' n [= <-] [Q1 Q2]. f_equal.
          assert (EF : Qround.Qfloor q = Z.of_nat n).
          { pose proof (Qround.Qfloor_le q). pose proof (Qround.Qlt_floor q).
            apply Z.le_antisymm.
            - assert (L : (inject_Z (Qround.Qfloor q) < inject_Z (Z.of_nat n + 1))%Q) by (rewrite inject_Z_plus; eapply Qle_lt_trans; eauto).
              rewrite <- Zlt_Qlt in L. lia.
            - assert (L : (inject_Z (Z.of_nat n) < inject_Z (Qround.Qfloor q + 1))%Q) by (eapply Qle_lt_trans; eauto).
              rewrite <- Zlt_Qlt in L. lia. }
          rewrite EF. apply Nat2Z.id.
    - exists ctx. split; [|done]. cbn [obind] in E. destruct ctx as [n|]; cbn [fmap option_fmap option_map] in E.
      + specialize (H (Z.of_nat n) E). destruct (Z.ltb_spec (Z.of_nat n) 0); [lia|]. by rewrite Nat2Z.id in H.
      + cbn in E. destruct (eval None expr) as [x|]; [by injection E as ->|done].
  Qed.
End resolver.

(** ** What is in a block *)

Definition spelled (w : word) : text := T match w with If => "if" | Else => "else" | Elif => "elif" | Endif => "endif" end.
Definition spaces (s : text) : Prop := Forall (fun c => is_space c = true) s.
Definition no_space_around (e : text) : Prop :=
  (forall c r, e = c :: r -> is_space c = false) /\ (forall c r, e = r ++ [c] -> is_space c = false).

Lemma drop_space_app s t : spaces s -> drop_space (s ++ t) = drop_space t.
Proof. induction 1 as [|c s Hc Hs IH]; [done|]. cbn. by rewrite Hc. Qed.
Lemma drop_space_none t : (forall c r, t = c :: r -> is_space c = false) -> drop_space t = t.
Proof. destruct t as [|c t]; [done|]. intros H. cbn. by rewrite (H c t eq_refl). Qed.
Lemma drop_space_end_app t s : spaces s -> (forall c r, t = r ++ [c] -> is_space c = false) -> drop_space_end (t ++ s) = t.
Proof.
  intros Hs Ht. unfold drop_space_end. rewrite rev_app_distr, drop_space_app by (apply Forall_rev in Hs; exact Hs).
  rewrite drop_space_none; [apply rev_involutive|]. intros c r E. apply (Ht c (rev r)).
  rewrite <- (rev_involutive t), E. done.
Qed.
Lemma last_comma_none t : Forall (fun c => c <> ","%char) t -> last_comma t = None.
Proof. induction 1 as [|c t Hc Ht IH]; [done|]. cbn. rewrite IH. by destruct (Ascii.eqb_spec c ","). Qed.
Lemma last_comma_some a x : Forall (fun c => c <> ","%char) x -> last_comma (a ++ ","%char :: x) = Some (a, x).
Proof.
  intros Hx. induction a as [|c a IH]; cbn [app last_comma].
  - by rewrite last_comma_none.
  - by rewrite IH.
Qed.
Lemma condition_word w r : condition (spelled w ++ r) = (Some w, r).
Proof. by destruct w. Qed.
Lemma after_word_sound w t r : after_word w t = Some r -> t = w ++ r.
Proof.
  revert t. induction w as [|c w IH]; intros [|d t] H; cbn in H; try done; try by injection H as <-.
  destruct (Ascii.eqb_spec c d) as [->|]; [|done]. cbn. f_equal. by apply IH.
Qed.
Lemma condition_none t : (forall w r, t <> spelled w ++ r) -> condition t = (None, t).
Proof.
  intros H. unfold condition.
  destruct (after_word (T "if") t) eqn:E1; [by apply after_word_sound in E1; destruct (H If l)|].
  destruct (after_word (T "else") t) eqn:E2; [by apply after_word_sound in E2; destruct (H Else l)|].
  destruct (after_word (T "elif") t) eqn:E3; [by apply after_word_sound in E3; destruct (H Elif l)|].
  destruct (after_word (T "endif") t) eqn:E4; [by apply after_word_sound in E4; destruct (H Endif l)|]. done.
Qed.

(** A block is a word or none, an expression, and after its last comma an extruder number
    or none, with any white space in between; without an extruder number the expression
    must not have a comma, and without a word it must not start like one. *)
Theorem C49_block s1 w s2 e s3 x s4 :
  spaces s1 -> spaces s2 -> spaces s3 -> spaces s4 -> no_space_around e ->
  let after := match x with Some x => ","%char :: s4 ++ x | None => [] end in
  match x with
  | Some x => x <> [] /\ no_space_around x /\ Forall (fun c => c <> ","%char /\ c <> "'"%char /\ c <> """"%char) x
  | None => Forall (fun c => c <> ","%char) e
  end ->
  (w = None -> forall w r, e ++ s3 ++ after <> spelled w ++ r) ->
  groups (s1 ++ match w with Some w => spelled w | None => [] end ++ s2 ++ e ++ s3 ++ after) = (w, e, x).
Proof.
  intros H1 H2 H3 H4 [He1 He2] after Hx Hw.
  assert (Sp : forall c, is_space c = true -> c <> ","%char /\ c <> "'"%char /\ c <> """"%char).
  { intros c Hc. split_and!; intros ->; done. }
  (* what is left once the word is gone *)
  set (rest := match e with [] => after | _ => e ++ s3 ++ after end).
  assert (Ha : drop_space after = after).
  { apply drop_space_none. unfold after. destruct x; [by intros c r [= <- _]|done]. }
  assert (R : drop_space (e ++ s3 ++ after) = rest /\ drop_space rest = rest).
  { unfold rest. destruct e as [|c e].
    - cbn [app]. by rewrite drop_space_app, Ha.
    - assert (D : forall t, drop_space ((c :: e) ++ t) = (c :: e) ++ t).
      { intros t. apply drop_space_none. intros c' r [= <- _]. by eapply He1. }
      by rewrite D. }
  destruct R as [R1 R2].
  assert (G : drop_space (condition (drop_space (s1 ++ match w with Some w => spelled w | None => [] end ++ s2 ++ e ++ s3 ++ after))).2 = rest
              /\ (condition (drop_space (s1 ++ match w with Some w => spelled w | None => [] end ++ s2 ++ e ++ s3 ++ after))).1 = w).
  { rewrite drop_space_app by done. destruct w as [w|].
    - assert (E : drop_space (spelled w ++ s2 ++ e ++ s3 ++ after) = spelled w ++ s2 ++ e ++ s3 ++ after) by (by destruct w).
      rewrite E, condition_word. cbn [fst snd]. by rewrite drop_space_app, R1.
    - cbn [app]. rewrite drop_space_app, R1 by done. rewrite condition_none; [done|].
      intros w r E. unfold rest in E. destruct e as [|c e]; [|by apply (Hw eq_refl w r)].
      unfold after in E. destruct x; destruct w; done. }
  destruct G as [G1 G2]. unfold groups. rewrite G1, G2. clear G1 G2 R1 R2 Hw.
  assert (Q : (exists u, spaces u /\ rest = e ++ u ++ after)).
  { unfold rest. destruct e; [exists []|exists s3]; split; done || constructor. }
  destruct Q as (u & Hu & Er). destruct x as [x|].
  - destruct Hx as (Hx1 & [Hx2 _] & Hx3).
    assert (El : last_comma rest = Some (e ++ u, s4 ++ x)).
    { rewrite Er. unfold after. rewrite app_assoc. apply last_comma_some. apply Forall_app. split.
      - eapply Forall_impl; [exact H4|]. intros c Hc. by apply Sp.
      - eapply Forall_impl; [exact Hx3|]. by intros c []. }
    rewrite El. destruct (s4 ++ x) as [|c0 y] eqn:Ey; [apply app_eq_nil in Ey as [_ ?]; done|].
    assert (Eq : existsb quote (c0 :: y) = false).
    { rewrite <- Ey. apply Bool.not_true_iff_false. rewrite existsb_exists. intros (c & Hin & Hc).
      assert (F : Forall (fun c => quote c = false) (s4 ++ x)).
      { apply Forall_app. split.
        - eapply Forall_impl; [exact H4|]. intros d Hd. unfold quote. destruct (Sp d Hd) as (_ & Q1 & Q2).
          destruct (Ascii.eqb_spec d "'"); [done|]. by destruct (Ascii.eqb_spec d """").
        - eapply Forall_impl; [exact Hx3|]. intros d (_ & Q1 & Q2). unfold quote.
          destruct (Ascii.eqb_spec d "'"); [done|]. by destruct (Ascii.eqb_spec d """"). }
      rewrite List.Forall_forall in F. rewrite F in Hc; done. }
    rewrite Eq, <- Ey. rewrite drop_space_end_app by done. repeat f_equal.
    unfold extruder_group. rewrite drop_space_app by done. rewrite (drop_space_none x) by done. by destruct x.
  - rewrite last_comma_none.
    + rewrite Er. unfold after. rewrite app_nil_r. by rewrite drop_space_end_app.
    + rewrite Er. unfold after. rewrite app_nil_r. apply Forall_app. split; [done|]. eapply Forall_impl; [exact Hu|]. intros c Hc. by apply Sp.
Qed.

(** ** Witnesses *)

(** Settings for the examples: the temperature of extruder 0, 1 and of the global stack,
    and some constants. *)
Definition example_eval (env : option nat) (e : text) : option value :=
  if String.eqb (string_of_list_ascii e) "temperature" then match env with Some 0%nat => Some (VInt 190) | Some 1%nat => Some (VInt 210) | _ => Some (VInt 50) end
  else if String.eqb (string_of_list_ascii e) "temperature > 200" then match env with Some 1%nat => Some (VBool true) | _ => Some (VBool false) end
  else if String.eqb (string_of_list_ascii e) "true" then Some (VBool true) else if String.eqb (string_of_list_ascii e) "1" then Some (VInt 1) else if String.eqb (string_of_list_ascii e) "0" then Some (VInt 0)
  else if String.eqb (string_of_list_ascii e) "max(1, 2)" then Some (VInt 2) else if String.eqb (string_of_list_ascii e) "iffy" then Some (VInt 7) else None.
Definition example_show (v : value) : text :=
  match v with VInt 190 => T "190" | VInt 210 => T "210" | VInt 50 => T "50" | VInt 1 => T "1" | VInt 2 => T "2" | VInt 7 => T "7" | _ => T "?" end.
Definition example_resolve := resolve example_eval example_show (fun _ => None) 2 None.

(** "A template that is not well formed is returned as it is" is false: a condition that
    is not ended goes unnoticed. *)
Theorem C49_unended_refuted : example_resolve (T "{if temperature > 200, 1}hot") = Got (T "hot" ++ [newline]).
Proof. vm_compute. reflexivity. Qed.

(** "A condition that is no truth value counts as true" (as the warning says) is false:
    after "if" the whole template fails, after "elif" it counts as false. *)
Theorem C49_number_refuted :
  example_resolve (T "{if 1}a{endif}") = Got (T "{if 1}a{endif}" ++ [newline])
  /\ example_resolve (T "{if temperature > 200}a{elif 1}b{else}c{endif}") = Got (T "c" ++ [newline]).
Proof. vm_compute. done. Qed.

(** "The text in braces is evaluated" is false with a comma in it, and with a name that
    starts like a keyword. *)
Theorem C49_expression_refuted :
  example_eval None (T "max(1, 2)") = Some (VInt 2) /\ example_resolve (T "{max(1, 2)}") = Got (T "{max(1, 2)}" ++ [newline])
  /\ example_eval None (T "iffy") = Some (VInt 7) /\ example_resolve (T "{iffy}") = Got (T "{iffy}" ++ [newline]).
Proof. vm_compute. done. Qed.

(** The theorems apply. *)
Definition example_parts : list part :=
  [Plain (PTxt (T "M104 S")); Plain (PExpr (T "temperature, 1") true);
   Cond (Branch (T "if temperature > 200, 0") true [PTxt (T "hot")])
        [Branch (T "elif true") false [PTxt (T "T"); PExpr (T " temperature ") false]; Branch (T "else") false [PExpr (T "nonsense") false]]
        (T "endif") true;
   Plain (PTxt (T "G28 {not this"))].
Example C49_example :
  cut_ok (toks example_parts)
  /\ Forall (part_ok example_eval (fun _ => None) 2 None) example_parts
  /\ out example_eval example_show (fun _ => None) 2 None example_parts = Got (T "M104 S210" ++ [newline] ++ T "T50G28 {not this")
  /\ sources (toks example_parts)
     = T "M104 S{temperature, 1}" ++ [newline] ++ T "{if temperature > 200, 0}" ++ [newline]
       ++ T "hot{elif true}T{ temperature }{else}{nonsense}{endif}" ++ [newline] ++ T "G28 {not this".
Proof.
  assert (NB : forall t, existsb (Ascii.eqb rbrace) t = false -> no_block t).
  { intros t Ht a b c _ ->. rewrite existsb_app in Ht. apply Bool.orb_false_iff in Ht as [_ Ht]. cbn in Ht.
    rewrite existsb_app in Ht. cbn in Ht. apply Bool.orb_false_iff in Ht as [_ Ht]. done. }
  assert (BF : forall b, forallb (fun c => negb (Ascii.eqb c lbrace) && negb (Ascii.eqb c rbrace))%bool b = true -> brace_free b).
  { intros b Hb. apply List.Forall_forall. intros c Hc. rewrite forallb_forall in Hb. specialize (Hb c Hc).
    destruct (Ascii.eqb_spec c lbrace), (Ascii.eqb_spec c rbrace); done. }
  split_and!.
  - cbn [toks example_parts map concat part_toks piece_tok app branch_toks gword geol content cut_ok].
    repeat match goal with |- _ /\ _ => split end;
      first [exact I | discriminate | apply NB; reflexivity | apply BF; reflexivity | intros; exact I | intros; discriminate].
  - repeat (apply List.Forall_cons); try apply List.Forall_nil; cbn [part_ok piece_ok gword content branch_ok];
      repeat match goal with |- _ /\ _ => split end; try (vm_compute; reflexivity); try exact I;
      try (repeat (apply List.Forall_cons); try apply List.Forall_nil); try (vm_compute; reflexivity); try exact I.
    + intros v Hv. vm_compute in Hv. injection Hv as <-. eauto.
    + split; [|repeat (apply List.Forall_cons); try apply List.Forall_nil; by vm_compute]. left. split; [by vm_compute|].
      intros v Hv. vm_compute in Hv. injection Hv as <-. eauto.
    + split; [right; by vm_compute|]. repeat (apply List.Forall_cons); try apply List.Forall_nil; by vm_compute.
  - vm_compute. reflexivity.
  - vm_compute. reflexivity.
Qed.

Print Assumptions C49_cut.
Print Assumptions C49_every_template_is_cut.
Print Assumptions C49_resolve.
Print Assumptions C49_not_started.
Print Assumptions C49_nested.
Print Assumptions C49_settings.
Print Assumptions C49_block.
Print Assumptions C49_unended_refuted.
Print Assumptions C49_number_refuted.
Print Assumptions C49_expression_refuted.
Print Assumptions C49_example.

(** The end of the result: a line end is added to a text that has none at its end, unless it is
    empty. *)
Theorem C49_line_end t :
  (t = [] \/ (exists t', t = t' ++ [newline]) -> finish t = t) /\
  (forall t' c, t = t' ++ [c] -> c <> newline -> finish t = t ++ [newline]).
Proof.
  unfold finish. split.
  - intros [->|[t' ->]]; [done|]. by rewrite rev_app_distr.
  - intros t' c -> Hc. rewrite rev_app_distr. cbn. destruct (Ascii.eqb_spec c newline); done.
Qed.
Print Assumptions C49_line_end.
