(** * C45: which container a setting on the command line ends up in *)
From Coq Require Import ZArith Ascii String Lia.
From stdpp Require Import strings gmap list.
From Verif Require Import Common CmdLine_Model.
Local Open Scope string_scope.

(** ** Specification *)

(** A command line as its user thinks of it. *)
Inductive item :=
| ISet (key value : string)       (* -s key=value *)
| IExtruder (text : string)       (* -e2 *)
| ILoad (f : string)              (* -l model.stl *)
| IGroup                          (* -g *)
| INext                           (* --next *)
| IJson (f : string)              (* -j definition.json *)
| IOut (f : string)               (* -o out.gcode *)
| IDirs (d : string)              (* -d path *)
| IVerbose | IProgress            (* -v, -p *)
| IForceParent | IForceNondefault | IEndForce.

(** How it is written. *)
Definition render (i : item) : list string :=
  match i with
  | ISet k v => ["-s"; k ++ "=" ++ v]
  | IExtruder t => ["-e" ++ t]
  | ILoad f => ["-l"; f]
  | IGroup => ["-g"]
  | INext => ["--next"]
  | IJson f => ["-j"; f]
  | IOut f => ["-o"; f]
  | IDirs d => ["-d"; d]
  | IVerbose => ["-v"]
  | IProgress => ["-p"]
  | IForceParent => ["--force-read-parent"]
  | IForceNondefault => ["--force-read-nondefault"]
  | IEndForce => ["--end-force-read"]
  end.
Definition written (l : list item) : list string := concat (map render l).

(** The key of -s is what comes before the first '='. *)
Definition item_ok (i : item) : Prop :=
  match i with ISet k _ => forall a b, k <> a ++ "=" ++ b | _ => True end.

(** In what follows the items come latest first. *)

(** How many times --next was given, and how many models were loaded since. *)
Fixpoint nexts (l : list item) : nat :=
  match l with [] => 0 | INext :: r => S (nexts r) | _ :: r => nexts r end.
Fixpoint loads (l : list item) : nat :=
  match l with [] => 0 | INext :: r => 0 | ILoad _ :: r => S (loads r) | _ :: r => loads r end.
(** The extruder that the text after -e stands for. *)
Definition number (text : string) : nat := default 0%nat (stoul text).
(** The container that was named last: at first the scene. *)
Fixpoint named (l : list item) : cont :=
  match l with
  | [] => CScene
  | IExtruder t :: _ => CExtruder (number t)
  | ILoad _ :: r => CMesh (nexts r) (loads r)
  | IGroup :: r => CGroup (nexts r)
  | INext :: r => CGroup (S (nexts r))
  | _ :: r => named r
  end.
(** The extruder that was named last: at first the first one. *)
Fixpoint named_extruder (l : list item) : nat :=
  match l with
  | [] => 0
  | IExtruder t :: _ => number t
  | _ :: r => named_extruder r
  end.

(** What the command line says about the value of a key in a container. *)
Inductive answer := Value (v : string) | NoValue | FromFile.
Fixpoint last_set (c : cont) (k : string) (l : list item) : answer :=
  match l with
  | [] => NoValue
  | ISet k' v :: r => if decide (k' = k /\ named r = c) then Value v else last_set c k r
  | IExtruder t :: r => if decide ("extruder_nr" = k /\ CExtruder (number t) = c) then Value t else last_set c k r
  | IJson _ :: _ => FromFile
  | _ :: r => last_set c k r
  end.

(** Which settings a JSON element defines: those without children (or all of them) that
    have a default value. *)
Inductive defines (fp : bool) : json -> string -> string -> Prop :=
| defines_here ms k fs d v :
    In (k, JObject fs) ms -> member "children" fs = None \/ fp = true ->
    member "default_value" fs = Some d -> to_str d "" = (true, v) -> defines fp (JObject ms) k v
| defines_child ms n fs c k v :
    In (n, JObject fs) ms -> member "children" fs = Some c -> defines fp c k v -> defines fp (JObject ms) k v.

(** [m'] is [m] with the settings of [e] put over it. *)
Definition put_over (fp : bool) (e : json) (m m' : gmap string string) : Prop :=
  forall k, (exists v, defines fp e k v /\ m' !! k = Some v) \/ ((~ exists v, defines fp e k v) /\ m' !! k = m !! k).

(** ** JSON elements *)

Lemma json_ind' (P : json -> Prop) :
  (forall s, P (JString s)) -> (forall b, P (JBool b)) -> (forall t, P (JNumber t)) -> P JNull ->
  (forall l, Forall P l -> P (JArray l)) -> (forall l, Forall (fun x => P x.2) l -> P (JObject l)) -> forall j, P j.
Proof.
  intros H1 H2 H3 H4 H5 H6. fix IH 1. intros [s|b|t| |l|l].
  - apply H1.
  - apply H2.
  - apply H3.
  - apply H4.
  - apply H5. induction l as [|v l IHl]; constructor; [apply IH|exact IHl].
  - apply H6. induction l as [|[k v] l IHl]; constructor; [apply IH|exact IHl].
Qed.

Fixpoint load_members (fp fn : bool) (ms : list (string * json)) (m : gmap string string) : res (gmap string string) :=
  match ms with
  | [] => Ok m
  | (name, v) :: r =>
    let! m := match v with
              | JObject fields =>
                match member "children" fields with
                | Some x =>
                  let! m := load_settings fp fn x m in
                  if fp then Ok (read_setting fn name fields m) else Ok m
                | None => Ok (read_setting fn name fields m)
                end
              | _ => Ok m
              end in
    load_members fp fn r m
  end.

Lemma load_settings_members fp fn ms m : load_settings fp fn (JObject ms) m = load_members fp fn ms m.
Proof.
  cbn [load_settings]. revert m. induction ms as [|[name v] r IH]; intros m; [done|].
  cbn [load_members].
  match goal with |- rbind ?a _ = rbind ?b _ => enough (E : a = b) by (rewrite E; destruct b; cbn; [apply IH|done..]) end.
  destruct v as [| | | | |fields]; try done.
  match goal with |- match ?a with _ => _ end = _ =>
    enough (E : a = match member "children" fields with Some x => Some (load_settings fp fn x) | None => None end)
      by (rewrite E; destruct (member "children" fields); done) end.
  induction fields as [|[k x] fields IHf]; [done|]. cbn [member]. destruct (String.eqb k "children"); [done|apply IHf].
Qed.

Lemma member_in n l v : member n l = Some v -> In (n, v) l.
Proof.
  induction l as [|[k x] l IH]; [done|]. cbn. destruct (String.eqb_spec k n) as [->|]; [intros [= ->]; by left|]. intros; right; auto.
Qed.

Lemma read_setting_spec name fs m k :
  (exists d v, k = name /\ member "default_value" fs = Some d /\ to_str d "" = (true, v) /\ read_setting false name fs m !! k = Some v)
  \/ ((~ exists d v, k = name /\ member "default_value" fs = Some d /\ to_str d "" = (true, v)) /\ read_setting false name fs m !! k = m !! k).
Proof.
  unfold read_setting. destruct (member "default_value" fs) as [d|].
  - destruct (to_str d "") as [b v] eqn:E. cbn. destruct b.
    + destruct (decide (k = name)) as [->|N].
      * left. exists d, v. split_and!; try done. apply lookup_insert.
      * right. split; [intros (? & ? & ? & _); done|]. by apply lookup_insert_ne.
    + right. split; [|done]. intros (d' & v' & _ & [= <-] & E'). congruence.
  - right. split; [intros (? & ? & _ & ? & _); done|]. by destruct (member "value" fs), (m !! name).
Qed.

Lemma load_settings_put_over fp e : forall m m', load_settings fp false e m = Ok m' -> put_over fp e m m'.
Proof.
  enough ((forall m m', load_settings fp false e m = Ok m' -> put_over fp e m m')
          /\ (forall fields, e = JObject fields -> Forall (fun x => forall m m', load_settings fp false x.2 m = Ok m' -> put_over fp x.2 m m') fields)) by tauto.
  induction e as [ | | | | l IH|ms IH] using json_ind'; (split; [|try done]); try (intros m m' H; discriminate H).
  2: { intros fields [= <-]. eapply Forall_impl; [exact IH|]. intros x [H _]. exact H. }
  intros m m'. rewrite load_settings_members. revert m m'.
  induction ms as [|[name v] r IHr]; intros m m' E.
  - injection E as <-. intros k. right. split; [|done]. intros (w & H). inversion H; subst; done.
  - cbn [load_members] in E. apply rbind_ok in E as (m1 & E1 & E). inversion IH as [|? ? [_ Hv] IH']; subst. cbn in Hv.
    specialize (IHr IH' _ _ E). clear IH IH' E.
    (* the first member *)
    assert (F : forall k,
      (exists w, m1 !! k = Some w /\ ((exists fs d, v = JObject fs /\ k = name /\ (member "children" fs = None \/ fp = true)
                                            /\ member "default_value" fs = Some d /\ to_str d "" = (true, w))
                                   \/ (exists fs c, v = JObject fs /\ member "children" fs = Some c /\ defines fp c k w)))
      \/ (m1 !! k = m !! k
          /\ (forall w fs d, v = JObject fs -> k = name -> (member "children" fs = None \/ fp = true) ->
                member "default_value" fs = Some d -> to_str d "" = (true, w) -> False)
          /\ (forall w fs c, v = JObject fs -> member "children" fs = Some c -> defines fp c k w -> False))).
    { intros k. destruct v as [| | | | |fs]; try (injection E1 as <-; right; split_and!; intros; done).
      destruct (member "children" fs) as [x|] eqn:Ex.
      - apply rbind_ok in E1 as (m2 & E2 & E1).
        assert (P : put_over fp x m m2).
        { specialize (Hv fs eq_refl). rewrite Forall_forall in Hv. eapply (Hv ("children", x)); [|exact E2].
          apply elem_of_list_In. by apply member_in. }
        specialize (P k). destruct fp.
        + injection E1 as <-. destruct (read_setting_spec name fs m2 k) as [(d & w & -> & Hd & Ht & ->)|[N ->]].
          * left. exists w. split; [done|]. left. exists fs, d. split_and!; try done. by right.
          * destruct P as [(w & D & Hw)|[N2 Hw]].
            -- left. exists w. split; [done|]. right. by exists fs, x.
            -- right. split_and!; [done| |].
               ++ intros w fs' d [= <-] -> _ Hd Ht. apply N. by exists d, w.
               ++ intros w fs' c [= <-] Hc Hw'. assert (c = x) as -> by congruence. apply N2. by exists w.
        + injection E1 as <-. destruct P as [(w & D & Hw)|[N2 Hw]].
          * left. exists w. split; [done|]. right. by exists fs, x.
          * right. split_and!; [done| |].
            -- intros w fs' d [= <-] -> [?|?]; congruence.
            -- intros w fs' c [= <-] Hc Hw'. assert (c = x) as -> by congruence. apply N2. by exists w.
      - injection E1 as <-. destruct (read_setting_spec name fs m k) as [(d & w & -> & Hd & Ht & ->)|[N ->]].
        + left. exists w. split; [done|]. left. exists fs, d. split_and!; try done. by left.
        + right. split_and!; [done| |].
          * intros w fs' d [= <-] -> _ Hd Ht. apply N. by exists d, w.
          * intros w fs' c [= <-] Hc. congruence. }
    intros k. destruct (IHr k) as [(w & D & Hw)|[N Hw]].
    + left. exists w. split; [|done]. inversion D; subst; [eapply defines_here|eapply defines_child]; eauto; by right.
    + rewrite Hw. destruct (F k) as [(w & Hm & [(fs & d & -> & -> & Hc & Hd & Ht)|(fs & c & -> & Hc & D)])|(Hm & N1 & N2)].
      * left. exists w. split; [|done]. eapply defines_here; eauto. by left.
      * left. exists w. split; [|done]. eapply defines_child; eauto. by left.
      * right. split; [|done]. intros (w & D). inversion D as [ms' k' fs d w' Hin Hc Hd Ht|ms' n fs c k' w' Hin Hc Hd]; subst.
        -- destruct Hin as [[= -> ->]|Hin]; [by eapply N1|]. apply N. exists w. by eapply defines_here.
        -- destruct Hin as [[= -> ->]|Hin]; [by eapply N2|]. apply N. exists w. by eapply defines_child.
Qed.

(** ** What does not change *)

(** [s'] came out of [s] by creating extruders and writing settings. *)
Record ext (s s' : st) : Prop := {
  ext_groups : groups s' = groups s; ext_group : group s' = group s; ext_meshes : meshes s' = meshes s;
  ext_last : last_settings s' = last_settings s; ext_le : last_extruder s' = last_extruder s;
  ext_fp : force_parent s' = force_parent s; ext_fn : force_nondefault s' = force_nondefault s;
  ext_len : (length (extruders s) <= length (extruders s'))%nat;
  ext_room : (length (extruders s') <= capacity s)%nat -> capacity s' = capacity s /\ moved s' = moved s
}.

Lemma ext_refl s : ext s s.
Proof. by constructor. Qed.
Lemma ext_trans s s1 s2 : ext s s1 -> ext s1 s2 -> ext s s2.
Proof.
  intros [] []. constructor; try congruence; try lia.
Qed.
Lemma ext_values s c m : ext s (set_values s c m).
Proof. by constructor. Qed.
Lemma ext_emplace s n : ext s (emplace s n).
Proof.
  unfold emplace. destruct (Nat.ltb_spec (length (extruders s)) (capacity s)); constructor; cbn; rewrite ?app_length; cbn; try done; lia.
Qed.
Lemma values_emplace s n : values (emplace s n) = values s.
Proof. unfold emplace. by destruct (Nat.ltb _ _). Qed.
Lemma len_emplace s n : length (extruders (emplace s n)) = S (length (extruders s)).
Proof. unfold emplace. destruct (Nat.ltb _ _); cbn; rewrite app_length; cbn; lia. Qed.
Lemma create_ext count nr s : ext s (create count nr s) /\ values (create count nr s) = values s
  /\ length (extruders (create count nr s)) = (count + length (extruders s))%nat.
Proof.
  revert s. induction count as [|k IH]; intros s; cbn [create]; [split_and!; [apply ext_refl|done..]|].
  destruct (IH (emplace s (nr (length (extruders s))))) as (E & V & L). split_and!.
  - eapply ext_trans; [apply ext_emplace|exact E].
  - by rewrite V, values_emplace.
  - rewrite L, len_emplace. lia.
Qed.

(** The container at an address, wherever the extruders are. *)
Definition cont_at (p : ptr) : cont :=
  match p with PScene => CScene | PExtruder a => CExtruder a.2 | PGroup g => CGroup g | PMesh g i => CMesh g i end.
Lemma deref_at s p c : deref s p = Ok c -> c = cont_at p.
Proof.
  destruct p as [|a| |]; cbn; try by intros [= <-]. unfold deref_extruder. destruct (Nat.eqb _ _); cbn; [by intros [= <-]|done].
Qed.

Section json_files.
  Context (file : string -> option json) (definition_file : string -> option string).

  (** Besides the target, JSON files only write to extruders. *)
  Definition writes (target : ptr) (s s' : st) : Prop :=
    forall c, c <> cont_at target -> (forall i, c <> CExtruder i) -> values s' c = values s c.

  Lemma load_sections_frame d target s s' :
    load_sections d target s = Ok s' -> ext s s' /\ (forall c, c <> cont_at target -> values s' c = values s c).
  Proof.
    unfold load_sections.
    enough (H : forall name s s',
      match member name d with
      | Some (JObject ms) =>
        let! c := deref s target in
        let! m := load_settings (force_parent s) (force_nondefault s) (JObject ms) (values s c) in
        Ok (set_values s c m)
      | _ => Ok s
      end = Ok s' -> ext s s' /\ (forall c, c <> cont_at target -> values s' c = values s c)).
    { intros E. apply rbind_ok in E as (s1 & E1 & E2). apply H in E1 as [X1 V1]. apply H in E2 as [X2 V2].
      split; [by eapply ext_trans|]. intros c Hc. rewrite V2, V1 by done. done. }
    clear. intros name s s' E. destruct (member name d) as [[| | | | |ms]|]; try (injection E as <-; split; [apply ext_refl|done]).
    apply rbind_ok in E as (c & Ec & E). apply rbind_ok in E as (m & Em & E). injection E as <-.
    split; [apply ext_values|]. intros c' Hc. cbn. apply deref_at in Ec as ->. by rewrite decide_False.
  Qed.

  Lemma load_trains_frame load trains :
    (forall f p s r, load f p s = Ok r -> ext s r.2 /\ writes p s r.2) ->
    forall s s', load_trains definition_file load trains s = Ok s' ->
    ext s s' /\ (forall c, (forall i, c <> CExtruder i) -> values s' c = values s c).
  Proof.
    intros Hl. induction trains as [|[name id] r IH]; intros s s' E; cbn [load_trains] in E.
    { injection E as <-. split; [apply ext_refl|done]. }
    apply rbind_ok in E as (s1 & E1 & E). apply IH in E as [X V].
    assert (H : ext s s1 /\ (forall c, (forall i, c <> CExtruder i) -> values s1 c = values s c)).
    2: { destruct H as [X1 V1]. split; [by eapply ext_trans|]. intros c Hc. rewrite V, V1 by done. done. }
    destruct (Z.ltb _ _); [injection E1 as <-; split; [apply ext_refl|done]|].
    unfold create_upto in E1.
    destruct (create_ext (S (Z.to_nat (atoi name)) - length (extruders s)) (fun size => size) s) as (X2 & V2 & _).
    set (s2 := create _ _ s) in *.
    assert (D : s1 = s2 \/ exists f p r, load f (PExtruder p) s2 = Ok r /\ s1 = r.2).
    { destruct id; try (injection E1 as <-; by left). destruct (definition_file s0); [|injection E1 as <-; by left].
      apply rbind_ok in E1 as (q & Eq & E1). injection E1 as <-. right. eauto 6. }
    destruct D as [->|(f & p & q & Eq & ->)].
    - split; [done|]. intros c _. by rewrite V2.
    - apply Hl in Eq as [X3 V3]. split; [by eapply ext_trans|]. intros c Hc. rewrite V3; [by rewrite V2|apply Hc|apply Hc].
  Qed.

  Lemma load_json_frame fuel : forall f target s r,
    load_json file definition_file fuel f target s = Ok r -> ext s r.2 /\ writes target s r.2.
  Proof.
    induction fuel as [|fuel IH]; intros f target s r E; cbn [load_json] in E; [done|].
    destruct (file f) as [[| | | | |d]|]; try done.
    2: { injection E as <-. split; [apply ext_refl|by intros c]. }
    apply rbind_ok in E as (r1 & E1 & E).
    assert (H1 : ext s r1.2 /\ writes target s r1.2).
    { destruct (member "inherits" d) as [[id| | | | |]|]; try (injection E1 as <-; split; [apply ext_refl|by intros c]).
      destruct (definition_file id); [by apply IH in E1|]. injection E1 as <-. split; [apply ext_refl|by intros c]. }
    clear E1. destruct H1 as [X1 V1]. destruct (negb r1.1); [by injection E as <-|].
    apply rbind_ok in E as (s2 & E2 & E). apply rbind_ok in E as (s3 & E3 & E). injection E as <-. cbn.
    assert (H2 : ext r1.2 s2 /\ (forall c, (forall i, c <> CExtruder i) -> values s2 c = values r1.2 c)).
    { destruct (member "metadata" d) as [[| | | | |md]|]; try (injection E2 as <-; split; [apply ext_refl|done]).
      destruct (member "machine_extruder_trains" md) as [[| | | | |trains]|]; try (injection E2 as <-; split; [apply ext_refl|done]).
      eapply load_trains_frame; [|exact E2]. intros. by eapply IH. }
    destruct H2 as [X2 V2]. apply load_sections_frame in E3 as [X3 V3].
    split; [eapply ext_trans; [exact X1|eapply ext_trans; [exact X2|exact X3]]|].
    intros c Hc He. rewrite V3, V2, V1 by done. done.
  Qed.
End json_files.

(** ** Steps of the command line *)

Lemma split_equals k v : (forall a b, k <> a ++ "=" ++ b) -> split_at_equals (k ++ "=" ++ v) = Some (k, v).
Proof.
  induction k as [|c k IH]; intros H; [done|].
  change (split_at_equals (String c (k ++ "=" ++ v)) = Some (String c k, v)). cbn [split_at_equals].
  destruct (Ascii.eqb_spec c "=") as [->|N]; [by destruct (H "" k)|].
  rewrite IH; [done|]. intros a b ->. by apply (H (String c a) b).
Qed.

Section steps.
  Context (file : string -> option json) (definition_file : string -> option string)
          (model_ok output_ok : string -> bool) (fuel : nat).
  Notation parse := (parse file definition_file model_ok output_ok fuel).
  Notation slice_next := (slice_next file definition_file model_ok output_ok fuel).
  Notation load_json := (load_json file definition_file).

  (** One item. *)
  Definition step (i : item) (s : st) : res (option st) :=
    match i with
    | ISet k v => let! s := add_at s (last_settings s) k v in Ok (Some s)
    | IExtruder t => do_extruder t s
    | ILoad f => do_load model_ok f s
    | IGroup => Ok (Some (set_last s (PGroup (group s))))
    | INext => if Nat.ltb (S (group s)) (groups s) then Ok (Some (set_last (set_group s (S (group s))) (PGroup (S (group s))))) else UB
    | IJson f => do_json file definition_file fuel f s
    | IOut f => if output_ok f then Ok (Some s) else Ok None
    | IDirs _ | IVerbose | IProgress => Ok (Some s)
    | IForceParent => Ok (Some (set_force s true (force_nondefault s)))
    | IForceNondefault => Ok (Some (set_force s (force_parent s) true))
    | IEndForce => Ok (Some (set_force s false false))
    end.

  Lemma parse_item i rest s : item_ok i ->
    parse (app (render i) rest) s = let! r := step i s in match r with Some s => parse rest s | None => Ok None end.
  Proof.
    intros H. destruct i; try done.
    - cbn [app render CmdLine_Model.parse step]. cbn in H. rewrite split_equals by done. cbn [fst snd].
      by destruct (add_at _ _ _ _).
    - cbn [app render CmdLine_Model.parse step]. cbn -[Nat.ltb CmdLine_Model.parse]. by destruct (Nat.ltb _ _).
    - cbn [app render CmdLine_Model.parse step]. by destruct (output_ok _).
  Qed.

  Lemma parse_items l : forall rest s, Forall item_ok l ->
    forall r, parse (app (written l) rest) s = Ok r -> r = None \/ exists s', parse (written l) s = Ok (Some s') /\ parse rest s' = Ok r.
  Proof.
    induction l as [|i l IH]; intros rest s Hl r E; [right; by exists s|]. inversion Hl as [|? ? Hi Hl']; subst.
    change (written (i :: l)) with (app (render i) (written l)) in *. rewrite <- (assoc_L app), parse_item in E by done.
    rewrite parse_item by done. apply rbind_ok in E as ([s1|] & E1 & E); [|injection E as <-; by left].
    rewrite E1. cbn [rbind]. by apply IH.
  Qed.

  Lemma do_json_frame f s s' : do_json file definition_file fuel f s = Ok (Some s') -> ext s s' /\ writes (last_settings s) s s'.
  Proof.
    unfold do_json. intros E. apply rbind_ok in E as (r & Er & E). apply load_json_frame in Er as [X V].
    destruct (negb r.1); [done|]. apply rbind_ok in E as (o & Eo & E).
    assert (H : match o with Some s2 => ext r.2 s2 /\ values s2 = values r.2 | None => True end).
    { destruct (last_settings r.2); try (injection Eo as <-; split; [apply ext_refl|done]).
      destruct (values r.2 CScene !! _); [|by injection Eo as <-]. destruct (stoul _); [|by injection Eo as <-].
      injection Eo as <-. split; eapply create_ext. }
    destruct o as [s2|]; [|done]. destruct H as [X2 V2].
    assert (X12 : ext s s2) by (by eapply ext_trans). assert (V12 : writes (last_settings s) s s2).
    { intros c Hc He. rewrite V2. by apply V. }
    assert (L : last_settings s2 = last_settings s) by apply X12.
    destruct (last_settings s2) as [|a| |] eqn:El; try by injection E as <-.
    destruct (decide _); [|by injection E as <-].
    apply rbind_ok in E as (i & Ei & E). apply rbind_ok in E as (nr & _ & E). apply rbind_ok in E as (s3 & E3 & E). injection E as <-.
    unfold add_at in E3. apply rbind_ok in E3 as (c & Ec & E3). injection E3 as <-.
    split; [eapply ext_trans; [exact X12|apply ext_values]|].
    intros c' Hc He. cbn. rewrite decide_False; [by apply V12|]. apply deref_at in Ec as ->. by rewrite <- L in Hc.
  Qed.

  (** ** The invariant: [l] are the items so far, latest first *)

  Record inv_room (l : list item) (s : st) (cap : nat) : Prop := {
    r_moved : moved s = 0%nat; r_cap : capacity s = cap;
    r_le : last_extruder s = (0%nat, named_extruder l); r_le_lt : (named_extruder l < length (extruders s))%nat;
    r_last : deref s (last_settings s) = Ok (named l);
    r_mesh : forall g i, last_settings s = PMesh g i -> (i < length (meshes s g))%nat;
    r_meshes : forall l1 f l2, l = app l1 (ILoad f :: l2) -> meshes s (nexts l2) !! loads l2 = Some (0%nat, named_extruder l2);
    r_zero : forall g i a, meshes s g !! i = Some a -> a.1 = 0%nat;
    r_values : forall c k, match last_set c k l with
                           | Value v => values s c !! k = Some v
                           | NoValue => values s c !! k = None
                           | FromFile => True
                           end
  }.
  Record inv (l : list item) (s : st) (cap ngroups : nat) : Prop := {
    i_groups : groups s = ngroups; i_group : group s = nexts l;
    i_beyond : forall g, (group s < g)%nat -> meshes s g = [];
    i_loads : length (meshes s (group s)) = loads l;
    i_ext : forall t, In (IExtruder t) l -> (number t < length (extruders s))%nat;
    i_room : (length (extruders s) <= cap)%nat -> inv_room l s cap
  }.

  Lemma deref_moved s s' p : moved s' = moved s -> deref s' p = deref s p.
  Proof. intros E. unfold deref, deref_extruder. by rewrite E. Qed.

  Lemma step_inv i l s s' cap ng : step i s = Ok (Some s') -> inv l s cap ng -> inv (i :: l) s' cap ng.
  Proof.
    intros E [G1 G2 G3 G4 G5 R].
    assert (D : forall j l1 f l2, (forall f, j <> ILoad f) -> j :: l = app l1 (ILoad f :: l2) -> exists l1', l = app l1' (ILoad f :: l2)).
    { intros j l1 f l2 Hj Hl. destruct l1 as [|x l1]; [by injection Hl as -> _; destruct (Hj f)|]. injection Hl as _ ->. by exists l1. }
    (* items that change nothing the invariant is about *)
    assert (Q : forall s1, groups s1 = groups s -> group s1 = group s -> extruders s1 = extruders s -> capacity s1 = capacity s ->
              moved s1 = moved s -> meshes s1 = meshes s -> values s1 = values s -> last_settings s1 = last_settings s ->
              last_extruder s1 = last_extruder s -> nexts (i :: l) = nexts l -> loads (i :: l) = loads l ->
              (forall t, i <> IExtruder t) -> (forall f, i <> ILoad f) -> named_extruder (i :: l) = named_extruder l -> named (i :: l) = named l ->
              (forall c k, last_set c k (i :: l) = last_set c k l) -> inv (i :: l) s1 cap ng).
    { intros s1 E1 E2 E3 E4 E5 E6 E7 E8 E9 N1 N2 N3 N4 N5 N6 N7.
      constructor; rewrite ?E1, ?E2, ?E3, ?E6, ?N1, ?N2; try done.
      - intros t [->|Ht]; [by destruct (N3 t)|by apply G5].
      - intros Hr. destruct (R Hr) as [R1 R2 R3 R4 R5 R6 R7 R8 R9].
        constructor; rewrite ?E3, ?E4, ?E5, ?E6, ?E7, ?E8, ?E9, ?N5, ?N6; try done.
        + by rewrite (deref_moved s) by done.
        + intros l1 f l2 Hl. apply D in Hl as [l1' Hl]; [|done]. by eapply R7.
        + intros c k. rewrite N7. apply R9. }
    destruct i as [k v|t|f| | |f|f|d| | | | |]; cbn [step] in E;
      try (injection E as <-; by apply Q).
    - (* -s *)
      apply rbind_ok in E as (s1 & E1 & E). injection E as <-. unfold add_at in E1. apply rbind_ok in E1 as (c & Ec & E1). injection E1 as <-.
      constructor; cbn; try done.
      + intros t [?|Ht]; [done|by apply G5].
      + intros Hr. destruct (R Hr) as [R1 R2 R3 R4 R5 R6 R7 R8 R9]. constructor; cbn; try done.
        * intros l1 f l2 Hl. apply D in Hl as [l1' Hl]; [|done]. by eapply R7.
        * intros c' k'. assert (c = named l) as -> by congruence. specialize (R9 c' k').
          destruct (decide (c' = named l)) as [->|N].
          -- destruct (decide (k = k')) as [->|N'].
             ++ rewrite decide_True by done. apply lookup_insert.
             ++ rewrite decide_False by tauto. by rewrite lookup_insert_ne.
          -- rewrite decide_False; [done|]. intros [_ ?]. congruence.
    - (* -e *)
      unfold do_extruder in E. destruct (stoul t) as [n|] eqn:En; [|done].
      destruct (create_ext (S n - length (extruders s)) (fun _ => n) s) as (X & V & L).
      unfold create_upto in E. set (s2 := create _ _ s) in *. destruct X as [X1 X2 X3 X4 X5 X6 X7 X8 X9].
      apply rbind_ok in E as (s3 & E3 & E). injection E as <-. unfold add_at in E3. apply rbind_ok in E3 as (c & Ec & E3).
      cbn in Ec. unfold deref_extruder in Ec. cbn in Ec. rewrite Nat.eqb_refl in Ec. cbn in Ec. injection Ec as <-. injection E3 as <-.
      assert (Hn : number t = n) by (unfold number; by rewrite En).
      constructor; cbn; try congruence.
      + intros g Hg. rewrite X3. apply G3. congruence.
      + intros t' [[= ->]|Ht]; [rewrite Hn; lia|]. apply G5 in Ht. lia.
      + intros Hr. destruct R as [R1 R2 R3 R4 R5 R6 R7 R8 R9]; [lia|].
        destruct X9 as [C M]; [by rewrite R2|].
        assert (M0 : moved s2 = 0%nat) by congruence.
        constructor; cbn; rewrite ?M0, ?Hn; try done.
        * congruence.
        * lia.
        * unfold deref_extruder. cbn. by rewrite M0.
        * intros l1 f l2 Hl. apply D in Hl as [l1' Hl]; [|done]. rewrite X3. by eapply R7.
        * intros g i. rewrite X3. apply R8.
        * intros c' k'. specialize (R9 c' k').
          destruct (decide (c' = CExtruder n)) as [->|N].
          -- destruct (decide ("extruder_nr" = k')) as [<-|N'].
             ++ rewrite decide_True by done. apply lookup_insert.
             ++ rewrite decide_False by tauto. rewrite lookup_insert_ne by done. by rewrite V.
          -- rewrite decide_False; [by rewrite V|]. intros [_ ?]. congruence.
    - (* -l *)
      unfold do_load in E. apply rbind_ok in E as ([tv|] & Et & E); [|done]. apply rbind_ok in E as (e & Ee & E).
      destruct (model_ok f); [|done]. injection E as <-.
      constructor; cbn; try done.
      + intros g Hg. destruct (Nat.eqb_spec g (group s)); [lia|]. by apply G3.
      + rewrite Nat.eqb_refl, app_length, G4. cbn. lia.
      + intros t' [?|Ht]; [done|by apply G5].
      + intros Hr. destruct (R Hr) as [R1 R2 R3 R4 R5 R6 R7 R8 R9]. constructor; cbn; try done.
        * rewrite Nat.eqb_refl, app_length, G4, G2. cbn. do 2 f_equal. lia.
        * intros g i [= <- <-]. rewrite !Nat.eqb_refl, !app_length. cbn. lia.
        * intros l1 f' l2 Hl. destruct l1 as [|x l1].
          -- injection Hl as -> <-. rewrite <- G2, Nat.eqb_refl, <- G4. rewrite lookup_app_r by done. by rewrite Nat.sub_diag, R3.
          -- injection Hl as _ Hl. specialize (R7 _ _ _ Hl). destruct (Nat.eqb _ _); [|done]. by apply lookup_app_l_Some.
        * intros g i a. destruct (Nat.eqb _ _); [|by apply R8]. rewrite lookup_app_Some.
          intros [H|[_ H]]; [by eapply R8|]. apply list_lookup_singleton_Some in H as [_ <-]. by rewrite R3.
    - (* -g *)
      injection E as <-. constructor; cbn; try done.
      + intros t' [?|Ht]; [done|by apply G5].
      + intros Hr. destruct (R Hr) as [R1 R2 R3 R4 R5 R6 R7 R8 R9]. constructor; cbn; try done.
        * by rewrite G2.
        * intros l1 f l2 Hl. apply D in Hl as [l1' Hl]; [|done]. by eapply R7.
    - (* --next *)
      destruct (Nat.ltb _ _); [|done]. injection E as <-. constructor; cbn; try done.
      + by rewrite G2.
      + intros g Hg. apply G3. lia.
      + by rewrite G3 by lia.
      + intros t' [?|Ht]; [done|by apply G5].
      + intros Hr. destruct (R Hr) as [R1 R2 R3 R4 R5 R6 R7 R8 R9]. constructor; cbn; try done.
        * by rewrite G2.
        * intros l1 f l2 Hl. apply D in Hl as [l1' Hl]; [|done]. by eapply R7.
    - (* -j *)
      apply do_json_frame in E as [[X1 X2 X3 X4 X5 X6 X7 X8 X9] _]. constructor; cbn; rewrite ?X1, ?X2, ?X3; try done.
      + intros t' [?|Ht]; [done|]. apply G5 in Ht. lia.
      + intros Hr. destruct R as [R1 R2 R3 R4 R5 R6 R7 R8 R9]; [lia|]. destruct X9 as [C M]; [by rewrite R2|].
        constructor; cbn; rewrite ?X3, ?X4, ?X5; try done; try congruence.
        * lia.
        * by rewrite (deref_moved s).
        * intros l1 f' l2 Hl. apply D in Hl as [l1' Hl]; [|done]. by eapply R7.
    - (* -o *)
      destruct (output_ok f); [|done]. injection E as <-. by apply Q.
  Qed.

  Lemma start_inv args : inv [] (start args) (Nat.div (2 + length args) 2) (S (length (List.filter (String.prefix "--next") args))).
  Proof.
    constructor; cbn [start groups group meshes extruders nexts loads]; try done.
    intros _. constructor; cbn [start moved capacity last_extruder last_settings meshes values extruders]; try done.
    - cbn. lia.
    - intros [|? l1] f l2 Hl; done.
  Qed.

  Lemma parse_inv pre : forall l s s' cap ng, Forall item_ok pre -> parse (written pre) s = Ok (Some s') -> inv l s cap ng ->
    inv (app (rev pre) l) s' cap ng.
  Proof.
    induction pre as [|i pre IH]; intros l s s' cap ng Hok E I; [injection E as <-; done|].
    inversion Hok; subst. change (written (i :: pre)) with (app (render i) (written pre)) in E. rewrite parse_item in E by done.
    apply rbind_ok in E as ([s1|] & E1 & E); [|done]. cbn [rev]. rewrite <- (assoc_L app). cbn [app].
    eapply IH; [done|exact E|]. by eapply step_inv.
  Qed.

  (** ** Theorems *)

  (** The command line [written items] leaves room for this many extruders without moving
      them. *)
  Definition room (items : list item) : nat := Nat.div (2 + length (written items)) 2.

  (** Every key in every container has the value that the command line gave it last since
      the last -j, where a value belongs to the scene, extruder, mesh group or model named
      last before it; and no value if it was given none and there was no -j. *)
  Theorem C45_values items s :
    Forall item_ok items -> slice_next (written items) = Ok (Some s) -> (length (extruders s) <= room items)%nat ->
    forall c k, match last_set c k (rev items) with
                | Value v => values s c !! k = Some v
                | NoValue => values s c !! k = None
                | FromFile => True
                end.
  Proof.
    intros Hok E Hr. pose proof (parse_inv _ _ _ _ _ _ Hok E (start_inv _)) as I. rewrite app_nil_r in I.
    exact (r_values _ _ _ (i_room _ _ _ _ I Hr)).
  Qed.

  (** Every model inherits from the extruder named last before it. *)
  Theorem C45_mesh_extruder pre f post s :
    let items := app pre (ILoad f :: post) in
    Forall item_ok items -> slice_next (written items) = Ok (Some s) -> (length (extruders s) <= room items)%nat ->
    exists a, meshes s (nexts (rev pre)) !! loads (rev pre) = Some a /\ deref_extruder s a = Ok (named_extruder (rev pre)).
  Proof.
    intros items Hok E Hr. pose proof (parse_inv _ _ _ _ _ _ Hok E (start_inv _)) as I. rewrite app_nil_r in I.
    destruct (i_room _ _ _ _ I Hr) as [R1 R2 R3 R4 R5 R6 R7 R8 R9].
    exists (0%nat, named_extruder (rev pre)). split.
    - apply (R7 (rev post) f (rev pre)). unfold items. rewrite rev_app_distr. cbn [rev]. by rewrite <- (assoc_L app).
    - unfold deref_extruder. by rewrite R1.
  Qed.

  (** Every extruder that was named exists. *)
  Theorem C45_extruders items s t :
    Forall item_ok items -> slice_next (written items) = Ok (Some s) -> In (IExtruder t) items ->
    (number t < length (extruders s))%nat.
  Proof.
    intros Hok E Ht. pose proof (parse_inv _ _ _ _ _ _ Hok E (start_inv _)) as I. rewrite app_nil_r in I.
    apply (i_ext _ _ _ _ I). by apply in_rev in Ht.
  Qed.

  (** -j changes nothing but the container named last and extruders. *)
  Theorem C45_json_scope pre f post s s' :
    let items := app pre (IJson f :: post) in
    Forall item_ok items -> parse (written pre) (start (written items)) = Ok (Some s) -> parse ["-j"; f] s = Ok (Some s') ->
    (length (extruders s) <= room items)%nat ->
    forall c, c <> named (rev pre) -> (forall i, c <> CExtruder i) -> values s' c = values s c.
  Proof.
    intros items Hok E Ej Hr c Hc He.
    assert (Hp : Forall item_ok pre) by (by apply Forall_app in Hok as [? _]).
    pose proof (parse_inv _ _ _ _ _ _ Hp E (start_inv _)) as I. rewrite app_nil_r in I.
    pose proof (r_last _ _ _ (i_room _ _ _ _ I Hr)) as L.
    change ["-j"; f] with (app (render (IJson f)) []) in Ej. rewrite parse_item in Ej by done.
    apply rbind_ok in Ej as ([s1|] & E1 & Ej); [|done]. injection Ej as <-. cbn [step] in E1.
    apply do_json_frame in E1 as [_ W]. apply W; [|done]. intros ->. apply Hc. by apply deref_at in L.
  Qed.

  (** No undefined behaviour as long as there is room for the extruders, leaving aside what
      -j itself does. *)
  Lemma nexts_count items : (nexts items <= length (List.filter (String.prefix "--next") (written (rev items))))%nat.
  Proof.
    assert (A : forall a b, written (app a b) = app (written a) (written b)).
    { intros a b. unfold written. by rewrite map_app, concat_app. }
    assert (F : forall (p : string -> bool) a b, List.filter p (app a b) = app (List.filter p a) (List.filter p b)) by (intros; apply List.filter_app).
    induction items as [|i r IH]; [cbn; lia|]. cbn [rev]. rewrite A, F, app_length.
    destruct i; cbn [nexts]; try lia. change (written [INext]) with ["--next"]. cbn [List.filter String.prefix]. cbn. lia.
  Qed.

  Theorem C45_defined pre i post s :
    let items := app pre (i :: post) in
    Forall item_ok items -> parse (written pre) (start (written items)) = Ok (Some s) -> (length (extruders s) <= room items)%nat ->
    (forall f, i <> IJson f) -> exists r, parse (render i) s = Ok r.
  Proof.
    intros items Hok E Hr Hi.
    assert (Hp : Forall item_ok pre /\ item_ok i) by (apply Forall_app in Hok as [? Hok]; by inversion Hok). destruct Hp as [Hp Hoki].
    pose proof (parse_inv _ _ _ _ _ _ Hp E (start_inv _)) as I. rewrite app_nil_r in I.
    destruct I as [G1 G2 G3 G4 G5 R]. destruct (R Hr) as [R1 R2 R3 R4 R5 R6 R7 R8 R9].
    rewrite <- (app_nil_r (render i)), parse_item by done.
    enough (H : exists r, step i s = Ok r).
    { destruct H as [[s1|] ->]; cbn; eauto. }
    destruct i as [k v|t|f| | |f|f|d| | | | |]; cbn [step]; eauto.
    - unfold add_at. rewrite R5. cbn. eauto.
    - unfold do_extruder. destruct (stoul t); [|eauto]. unfold add_at. cbn. unfold deref_extruder. cbn. rewrite Nat.eqb_refl. cbn. eauto.
    - unfold do_load.
      assert (Hl : exists t, lookup s (last_settings s) "mesh_rotation_matrix" = Ok t).
      { unfold lookup. destruct (last_settings s) as [|a|g|g i] eqn:El; cbn in *; eauto.
        - unfold deref_extruder in *. destruct (Nat.eqb _ _); [|done]. cbn. eauto.
        - destruct (values s _ !! _); [eauto|]. destruct (lookup_lt_is_Some_2 (meshes s g) i (R6 _ _ eq_refl)) as [a Ha].
          rewrite Ha. cbn. unfold deref_extruder. rewrite R1, (R8 _ _ _ Ha). cbn. eauto. }
      destruct Hl as [[t|] ->]; cbn; [|eauto]. rewrite R3. unfold deref_extruder. rewrite R1. cbn. destruct (model_ok f); eauto.
    - enough (H : Nat.ltb (S (group s)) (groups s) = true) by (rewrite H; eauto). apply Nat.ltb_lt. rewrite G1, G2.
      assert (N : (nexts (INext :: rev pre) <= length (List.filter (String.prefix "--next") (written (app pre [INext]))))%nat).
      { etrans; [apply nexts_count|]. cbn [rev]. by rewrite rev_involutive. }
      cbn [nexts] in N. unfold items.
      replace (app pre (INext :: post)) with (app (app pre [INext]) post) by (by rewrite <- (assoc_L app)).
      unfold written at 1. rewrite map_app, concat_app. fold (written (app pre [INext])).
      rewrite List.filter_app, app_length. lia.
    - by destruct (Hi f).
    - destruct (output_ok f); eauto.
  Qed.

  (** A definition's overrides go over its settings, and those over what it inherits. *)
  Definition section_of (name : string) (d : list (string * json)) : json :=
    match member name d with Some (JObject ms) => JObject ms | _ => JObject [] end.

  Lemma put_over_nothing fp m : put_over fp (JObject []) m m.
  Proof. intros k. right. split; [|done]. intros (v & H). inversion H; subst; done. Qed.

  Theorem C45_json n f d target s s' c :
    file f = Some (JObject d) -> member "metadata" d = None -> force_nondefault s = false ->
    load_json (S n) f target s = Ok (true, s') -> deref s' target = Ok c ->
    exists s1 m1,
      (match member "inherits" d with
       | Some (JString id) => exists p, definition_file id = Some p /\ load_json n p target s = Ok (true, s1)
       | _ => s1 = s
       end)
      /\ put_over (force_parent s) (section_of "settings" d) (values s1 c) m1
      /\ put_over (force_parent s) (section_of "overrides" d) m1 (values s' c).
  Proof.
    intros Hf Hm Hn E Hc. cbn [CmdLine_Model.load_json] in E. rewrite Hf in E. apply rbind_ok in E as ([b s1] & E1 & E). cbn [fst snd] in E.
    destruct b; cbn [negb] in E; [|done]. rewrite Hm in E. cbn [rbind] in E. apply rbind_ok in E as (s2 & E2 & E). injection E as ->.
    assert (X1 : ext s s1).
    { destruct (member "inherits" d) as [[id| | | | |]|]; try (injection E1 as <-; apply ext_refl).
      destruct (definition_file id); [|done]. by apply load_json_frame in E1 as [? _]. }
    assert (Hs1 : force_parent s1 = force_parent s /\ force_nondefault s1 = false).
    { destruct X1. by rewrite <- Hn. }
    assert (S : forall name t t', match member name d with
      | Some (JObject ms) =>
        let! c := deref t target in
        let! m := load_settings (force_parent t) (force_nondefault t) (JObject ms) (values t c) in
        Ok (set_values t c m)
      | _ => Ok t
      end = Ok t' -> force_nondefault t = false -> deref t' target = Ok c ->
      deref t target = Ok c /\ put_over (force_parent t) (section_of name d) (values t c) (values t' c)
      /\ force_parent t' = force_parent t /\ force_nondefault t' = false).
    { intros name t t' Et Ht Ht'. unfold section_of.
      destruct (member name d) as [[| | | | |ms]|]; try (injection Et as <-; split_and!; [done|apply put_over_nothing|done..]).
      apply rbind_ok in Et as (c' & Ec & Et). apply rbind_ok in Et as (m & Em & Et). injection Et as <-.
      change (deref t target = Ok c) in Ht'. assert (c' = c) as -> by congruence.
      split_and!; try done. cbn. rewrite decide_True by done. rewrite Ht in Em. by apply load_settings_put_over. }
    unfold load_sections in E2. apply rbind_ok in E2 as (t & Et & E2). destruct Hs1 as [Hfp Hfn].
    assert (Ht : force_nondefault t = false).
    { destruct (member "settings" d) as [[| | | | |ms]|]; try by injection Et as <-.
      apply rbind_ok in Et as (c' & Ec & Et). apply rbind_ok in Et as (m & Em & Et). by injection Et as <-. }
    destruct (S _ _ _ E2 Ht Hc) as (Dt & P2 & _ & _). destruct (S _ _ _ Et Hfn Dt) as (D1 & P1 & F1 & _).
    exists s1, (values t c). split_and!.
    - destruct (member "inherits" d) as [[id| | | | |]|]; try by injection E1.
      destruct (definition_file id) as [p|]; [|done]. by exists p.
    - by rewrite <- Hfp.
    - by rewrite <- Hfp, <- F1.
  Qed.
End steps.

(** ** Witnesses *)

(** A machine definition with [n] extruders, and files for the examples. *)
Definition machine (n : string) : json :=
  JObject [("settings", JObject [("machine", JObject [("children", JObject [
              ("machine_extruder_count", JObject [("default_value", JNumber n)]);
              ("mesh_rotation_matrix", JObject [("default_value", JString "[[1,0,0],[0,1,0],[0,0,1]]")]);
              ("layer_height", JObject [("default_value", JNumber "0.1")])])])]);
           ("overrides", JObject [("layer_height", JObject [("default_value", JNumber "0.2")])])].
Definition disk (f : string) : option json :=
  if String.eqb f "eight.json" then Some (machine "8.000000") else if String.eqb f "two.json" then Some (machine "2.000000")
  else if String.eqb f "empty.json" then Some (JObject []) else None.

(** "No address is used after the extruders have moved" is false: the room is half the
    number of arguments, and a machine definition can create more extruders. *)
Theorem C45_defined_refuted :
  slice_next disk (fun _ => None) (fun _ => true) (fun _ => true) 3 ["-j"; "eight.json"; "-l"; "model.stl"; "-o"; "out.gcode"] = UB.
Proof. vm_compute. reflexivity. Qed.

(** "The setting extruder_nr of an extruder is its number" is false: -e2 creates extruders
    1 and 2 as number 2, and -j on extruder 1 then overwrites its setting. *)
Theorem C45_extruder_nr_refuted :
  exists s, slice_next disk (fun _ => None) (fun _ => true) (fun _ => true) 3 ["-v"; "-v"; "-e2"; "-e1"; "-j"; "empty.json"] = Ok (Some s)
    /\ values s (CExtruder 1) !! "extruder_nr" = Some "2".
Proof. eexists. vm_compute. done. Qed.

(** "An array's value is the values of its elements" is false: an element that is no text,
    number, truth value or array is taken to be like the one before it. *)
Theorem C45_array_refuted : to_str (JArray [JNumber "1"; JNull; JNumber "2"]) "" = (true, "[1,1,2]").
Proof. vm_compute. reflexivity. Qed.

Lemma no_equals k : split_at_equals k = None -> forall a b, k <> a ++ "=" ++ b.
Proof.
  intros H a b ->. revert H. induction a as [|c a IH]; [done|].
  change (split_at_equals (String c (a ++ "=" ++ b)) = None -> False). cbn [split_at_equals].
  destruct (Ascii.eqb c "="); [done|]. destruct (split_at_equals (a ++ "=" ++ b)); [done|]. by intros _; apply IH.
Qed.

(** The theorems apply: two extruders, three models in two groups. *)
Definition example_items : list item :=
  [IJson "two.json"; IExtruder "0"; ISet "material" "PLA"; ILoad "a.stl"; ISet "infill" "20"; IExtruder "1"; ISet "material" "PVA";
   ILoad "b.stl"; ISet "infill" "30"; ISet "infill" "40"; IGroup; ISet "adhesion" "brim"; INext; ISet "adhesion" "none"; ILoad "c.stl"; IOut "o.gcode"].
Example C45_example :
  exists s, slice_next disk (fun _ => None) (fun _ => true) (fun _ => true) 3 (written example_items) = Ok (Some s)
    /\ Forall item_ok example_items
    /\ (length (extruders s) <= room example_items)%nat
    /\ last_set (CMesh 0 1) "infill" (rev example_items) = Value "40"
    /\ last_set (CExtruder 1) "material" (rev example_items) = Value "PVA"
    /\ last_set (CGroup 1) "adhesion" (rev example_items) = Value "none"
    /\ last_set CScene "layer_height" (rev example_items) = FromFile
    /\ values s CScene !! "layer_height" = Some "0.2"
    /\ values s (CMesh 0 1) !! "infill" = Some "40".
Proof.
  eexists. split; [vm_compute; reflexivity|]. split.
  { unfold example_items. repeat (apply List.Forall_cons; [first [exact I | cbn [item_ok]; apply no_equals; reflexivity]|]); constructor. }
  split_and!; vm_compute; try reflexivity; lia.
Qed.

Print Assumptions C45_values.
Print Assumptions C45_mesh_extruder.
Print Assumptions C45_extruders.
Print Assumptions C45_json_scope.
Print Assumptions C45_defined.
Print Assumptions C45_json.
Print Assumptions C45_defined_refuted.
Print Assumptions C45_extruder_nr_refuted.
Print Assumptions C45_array_refuted.
Print Assumptions C45_example.

(** A setting without a default value takes its value field, if that was asked for and
    the setting has no value yet; otherwise it is left alone. *)
Theorem C45_nondefault fp name fs v text m :
  member "default_value" fs = None -> member "children" fs = None -> member "value" fs = Some v -> to_str v "" = (true, text) ->
  load_settings fp true (JObject [(name, JObject fs)]) m =
    Ok (match m !! name with None => <[name := text]> m | Some _ => m end)
  /\ load_settings fp false (JObject [(name, JObject fs)]) m = Ok m.
Proof.
  intros Hd Hc Hv Ht. cbn [load_settings].
  assert (forall b, (fix find (l : list (string * json)) := match l with
                 | [] => None
                 | (k, x) :: l => if String.eqb k "children" then Some (load_settings fp b x) else find l
                 end) fs = None) as Hfind.
  { intros b. clear Hd Hv. induction fs as [|[k x] fs IH]; [done|]. cbn in Hc |- *.
    destruct (String.eqb k "children"); [done|]. by apply IH. }
  rewrite !Hfind. unfold read_setting. rewrite Hd, Hv, Ht. cbn. by destruct (m !! name).
Qed.
Example C45_nondefault_example : exists m,
  load_settings false true (JObject [("speed", JObject [("value", JNumber "60")])]) ∅ = Ok m /\ m !! "speed" = Some "60".
Proof. eexists. split; [reflexivity|]. reflexivity. Qed.

(** A mesh inherits from its extruder and that from the scene; a mesh group and an
    extruder inherit from the scene. *)
Theorem C45_mesh_inherits s g i key e :
  meshes s g !! i = Some (moved s, e) ->
  lookup s (PMesh g i) key = Ok (match values s (CMesh g i) !! key with
                                 | Some v => Some v
                                 | None => match values s (CExtruder e) !! key with
                                           | Some v => Some v
                                           | None => values s CScene !! key
                                           end
                                 end).
Proof.
  intros H. unfold lookup. cbn. destruct (values s (CMesh g i) !! key); [done|]. rewrite H. cbn.
  unfold deref_extruder. cbn. rewrite Nat.eqb_refl. done.
Qed.
Theorem C45_inherits s c p key : (p = PScene /\ c = CScene) \/ (exists g, p = PGroup g /\ c = CGroup g) \/ (exists e, p = PExtruder (moved s, e) /\ c = CExtruder e) ->
  lookup s p key = Ok (match values s c !! key with Some v => Some v | None => values s CScene !! key end).
Proof.
  intros [[-> ->]|[(g & -> & ->)|(e & -> & ->)]]; unfold lookup; cbn; try done.
  unfold deref_extruder. cbn. rewrite Nat.eqb_refl. done.
Qed.
Print Assumptions C45_nondefault.
Print Assumptions C45_mesh_inherits.
Print Assumptions C45_inherits.
