(** * C44: setting lookup *)
From stdpp Require Import strings gmap list.
From Verif Require Import Common Settings_Model.

(** ** Specification *)

(** Container [c] inherits from [d], or is it. *)
Inductive inherits (s : store) : nat -> nat -> Prop :=
| Inh_self c : inherits s c c
| Inh_up c p d : parent s c = Some p -> inherits s p d -> inherits s c d.

(** The value in the nearest container that [c] inherits from and that has one. *)
Inductive nearest (s : store) (key : string) : nat -> option string -> Prop :=
| Near_own c v : own s c !! key = Some v -> nearest s key c (Some v)
| Near_up c p r : own s c !! key = None -> parent s c = Some p -> nearest s key p r -> nearest s key c r
| Near_none c : own s c !! key = None -> parent s c = None -> nearest s key c None.

(** Parents do not go round in circles. *)
Definition ranked (s : store) (rank : nat -> nat) : Prop := forall c p, parent s c = Some p -> (rank p < rank c)%nat.

(** ** Proofs *)

Lemma get_unfold fuel s c key : get (S fuel) s c key =
  match own s c !! key with
  | Some v => Ok (Some v)
  | None => match limited s !! key with
            | Some x => match own s x !! key with Some v => Ok (Some v)
                        | None => match parent s x with Some p => get fuel s p key | None => Ok None end end
            | None => match parent s c with Some p => get fuel s p key | None => Ok None end
            end
  end.
Proof. done. Qed.

Lemma get_S fuel s c key r : get fuel s c key = Ok r -> get (S fuel) s c key = Ok r.
Proof.
  revert c. induction fuel as [|fuel IH]; intros c H; [done|]. rewrite get_unfold in H.
  rewrite get_unfold.
  destruct (own s c !! key); [done|]. destruct (limited s !! key) as [x|].
  - destruct (own s x !! key); [done|]. destruct (parent s x); [by apply IH|done].
  - destruct (parent s c); [by apply IH|done].
Qed.
Lemma get_mono f g s c key r : (f <= g)%nat -> get f s c key = Ok r -> get g s c key = Ok r.
Proof. induction 1; [done|]. intros. apply get_S. auto. Qed.

(** The container's own value comes first. *)
Theorem C44_own s c key v fuel : own s c !! key = Some v -> get (S fuel) s c key = Ok (Some v).
Proof. intros H. rewrite get_unfold. by rewrite H. Qed.

(** A key that is not limited to an extruder: the nearest ancestor's value, or exit if
    there is none; and the lookup comes to an end. *)
Theorem C44_nearest s rank c key r : ranked s rank -> limited s !! key = None ->
  nearest s key c r <-> get (S (rank c)) s c key = Ok r.
Proof.
  intros Hr Hl. split.
  - intros H. assert (exists f, (f <= rank c)%nat /\ get (S f) s c key = Ok r) as (f & Hf & H').
    { induction H as [c v H|c p r H Hp H1 IH|c H Hp].
      - exists 0%nat. split; [lia|]. rewrite get_unfold. by rewrite H.
      - destruct IH as (f & Hf & IH). exists (S f). split; [specialize (Hr _ _ Hp); lia|].
        rewrite get_unfold, H, Hl, Hp. exact IH.
      - exists 0%nat. split; [lia|]. rewrite get_unfold. by rewrite H, Hl, Hp. }
    eapply get_mono; [|exact H']. lia.
  - generalize (S (rank c)) as f. intros f. revert c. induction f as [|f IH]; intros c H; [done|]. rewrite get_unfold in H. rewrite Hl in H.
    destruct (own s c !! key) eqn:E; [injection H as <-; by apply Near_own|].
    destruct (parent s c) as [p|] eqn:Ep; [|injection H as <-; by apply Near_none].
    eapply Near_up; [done|done|]. by apply IH.
Qed.
Theorem C44_ends s rank c key : ranked s rank -> limited s !! key = None -> exists r, get (S (rank c)) s c key = Ok r.
Proof.
  intros Hr Hl. assert (exists r, nearest s key c r) as [r H]; [|exists r; by apply C44_nearest].
  remember (rank c) as n eqn:E. revert c E. induction (lt_wf n) as [n _ IH]. intros c ->.
  destruct (own s c !! key) eqn:E; [eexists; by apply Near_own|].
  destruct (parent s c) as [p|] eqn:Ep; [|eexists; by apply Near_none].
  destruct (IH (rank p)) with (c := p) as [r H]; [by apply Hr|done|]. exists r. by eapply Near_up.
Qed.

(** A key limited to extruder [x] and not stored in the container itself: the extruder's
    value, or that of the extruder's parent. *)
Theorem C44_limited s c key x fuel : own s c !! key = None -> limited s !! key = Some x ->
  (forall v, own s x !! key = Some v -> get (S fuel) s c key = Ok (Some v)) /\
  (forall p v, own s x !! key = None -> parent s x = Some p -> own s p !! key = Some v ->
     get (S (S fuel)) s c key = Ok (Some v)) /\
  (own s x !! key = None -> parent s x = None -> get (S fuel) s c key = Ok None).
Proof.
  intros Hc Hl. split; [|split].
  - intros v Hx. rewrite get_unfold. by rewrite Hc, Hl, Hx.
  - intros p v Hx Hp Hv. rewrite get_unfold. rewrite Hc, Hl, Hx, Hp. by apply C44_own.
  - intros Hx Hp. rewrite get_unfold. by rewrite Hc, Hl, Hx, Hp.
Qed.

(** But if neither the extruder nor its parent stores the value, the lookup never ends,
    wherever else the value is stored. *)
Theorem C44_limited_endless s c key x p : own s c !! key = None -> limited s !! key = Some x ->
  own s x !! key = None -> parent s x = Some p -> own s p !! key = None ->
  forall fuel, get fuel s c key = NoFuel.
Proof.
  intros Hc Hl Hx Hp Hv.
  assert (H : forall fuel d, own s d !! key = None -> get fuel s d key = NoFuel).
  { induction fuel as [|fuel IH]; intros d Hd; [done|]. rewrite get_unfold. rewrite Hd, Hl, Hx, Hp. by apply IH. }
  intros. by apply H.
Qed.

(** So the documented rule - "takes the setting value from that extruder", "applies the
    limiting only once at most" - fails for an extruder that gets the value from the
    scene through a mesh group. *)
Theorem C44_limited_refuted : exists s rank c key x v,
  ranked s rank /\ limited s !! key = Some x /\ nearest s key x (Some v) /\ nearest s key c (Some v) /\
  forall fuel, get fuel s c key = NoFuel.
Proof.
  (* 0: the scene; 1: a mesh group; 2: an extruder; 3: a mesh *)
  set (s := Store (fun c => match c with 1 => Some 0 | 2 => Some 1 | 3 => Some 2 | _ => None end)%nat
                  (fun c => if Nat.eqb c 0 then {["infill_angle" := "45"]} else ∅) {["infill_angle" := 2%nat]}).
  exists s, (fun c => c), 3%nat, "infill_angle", 2%nat, "45". split.
  { intros [|[|[|[|c]]]] p; cbn; intros [=]; subst; lia. }
  split; [done|].
  assert (H2 : nearest s "infill_angle" 2 (Some "45")).
  { eapply Near_up; [done|reflexivity|]. eapply Near_up; [done|reflexivity|]. by apply Near_own. }
  split; [exact H2|]. split.
  - by eapply Near_up; [done|reflexivity|].
  - by eapply (C44_limited_endless s 3 "infill_angle" 2 1).
Qed.

(** Storing or removing a value changes no other key, and no lookup but those of
    containers that inherit from the container or, for a limited key, are led there
    through the extruder. *)
Definition concerned (s : store) (key : string) (c d : nat) : Prop :=
  c = d \/
  match limited s !! key with
  | None => inherits s c d
  | Some x => inherits s x d
  end.

Lemma set_own_other s d key m fuel c key' :
  (forall c, own (set_own s d m) c !! key' = own s c !! key' \/ c = d /\ key' = key) ->
  key' <> key \/ ~ concerned s key' c d ->
  get fuel (set_own s d m) c key' = get fuel s c key'.
Proof.
  intros Hm Hk. assert (Hm' : key' <> key -> forall c, own (set_own s d m) c !! key' = own s c !! key').
  { intros Hn e. by destruct (Hm e) as [?|[_ ?]]. }
  assert (Hne : forall e, e <> d -> own (set_own s d m) e !! key' = own s e !! key').
  { intros e He. by destruct (Hm e) as [?|[? _]]. }
  destruct Hk as [Hn|Hc].
  - revert c. induction fuel as [|fuel IH]; intros c; [done|]. rewrite !get_unfold. rewrite Hm' by done.
    destruct (own s c !! key'); [done|]. cbn [set_own limited parent]. destruct (limited s !! key') as [x|].
    + rewrite Hm' by done. destruct (own s x !! key'); [done|]. by destruct (parent s x).
    + by destruct (parent s c).
  - unfold concerned in Hc. assert (c <> d) as Hcd by tauto.
    destruct (limited s !! key') as [x|] eqn:El.
    + assert (Hx : ~ inherits s x d) by tauto. assert (x <> d) as Hxd by (intros ->; apply Hx; constructor).
      assert (Hp : forall p, parent s x = Some p -> p <> d).
      { intros p Hp ->. apply Hx. eapply Inh_up; [done|constructor]. }
      clear Hc. revert c Hcd. induction fuel as [|fuel IH]; intros c Hcd; [done|]. rewrite !get_unfold. rewrite Hne by done.
      destruct (own s c !! key'); [done|]. cbn [set_own limited parent]. rewrite El, Hne by done.
      destruct (own s x !! key'); [done|]. destruct (parent s x) as [p|] eqn:Ep; [|done]. apply IH. by apply Hp.
    + assert (Hi : ~ inherits s c d) by tauto. clear Hc Hcd. revert c Hi.
      induction fuel as [|fuel IH]; intros c Hi; [done|]. rewrite !get_unfold. assert (c <> d) by (intros ->; apply Hi; constructor).
      rewrite Hne by done. destruct (own s c !! key'); [done|]. cbn [set_own limited parent]. rewrite El.
      destruct (parent s c) as [p|] eqn:Ep; [|done]. apply IH. intros H'. apply Hi. by eapply Inh_up.
Qed.

Theorem C44_add_changes_only s d key value fuel c key' :
  key' <> key \/ ~ concerned s key' c d ->
  get fuel (add s d key value) c key' = get fuel s c key' /\
  get fuel (remove s d key) c key' = get fuel s c key'.
Proof.
  intros H. split.
  - unfold add. assert (get fuel (set_own s d (<[key:=value]> (own s d))) c key' = get fuel s c key') as E; [|by destruct (own s d !! key)].
    apply (set_own_other s d key); [|done]. intros e. cbn. destruct (Nat.eqb_spec e d) as [->|]; [|by left].
    destruct (decide (key' = key)) as [->|Hn]; [by right|left]. by rewrite lookup_insert_ne.
  - apply (set_own_other s d key); [|done]. intros e. cbn. destruct (Nat.eqb_spec e d) as [->|]; [|by left].
    destruct (decide (key' = key)) as [->|Hn]; [by right|left]. by rewrite lookup_delete_ne.
Qed.

Lemma add_own s d key value e k : own (add s d key value) e !! k =
  if decide (e = d /\ k = key) then Some value else own s e !! k.
Proof.
  assert (own (set_own s d (<[key:=value]> (own s d))) e !! k = if decide (e = d /\ k = key) then Some value else own s e !! k) as E.
  { cbn. destruct (Nat.eqb_spec e d) as [->|Hn].
    - destruct (decide (k = key)) as [->|Hk].
      + rewrite lookup_insert. by rewrite decide_True.
      + rewrite lookup_insert_ne by done. by rewrite decide_False by tauto.
    - by rewrite decide_False by tauto. }
  unfold add. by destruct (own s d !! key).
Qed.

(** The last value stored is the one found, by the container itself and by those that
    inherit it without a nearer one. *)
Theorem C44_add s d key value fuel : get (S fuel) (add s d key value) d key = Ok (Some value).
Proof. apply C44_own. by rewrite add_own, decide_True. Qed.
Theorem C44_add_inherited s rank d key value c : ranked s rank -> limited s !! key = None ->
  inherits s c d -> (forall e, inherits s c e -> inherits s e d -> e <> d -> own s e !! key = None) ->
  get (S (rank c)) (add s d key value) c key = Ok (Some value).
Proof.
  intros Hr Hl Hi Hn. assert (Hp : parent (add s d key value) = parent s) by (unfold add; by destruct (own s d !! key)).
  apply (C44_nearest _ rank).
  - intros a p. rewrite Hp. apply Hr.
  - unfold add. by destruct (own s d !! key).
  - induction Hi as [c|c p d Hcp Hi IH].
    + apply Near_own. by rewrite add_own, decide_True.
    + assert (c <> d) as Hcd.
      { intros ->. assert (Hrk : forall a b, inherits s a b -> (rank b <= rank a)%nat).
        { induction 1 as [|a q b Haq _ IHa]; [lia|]. specialize (Hr _ _ Haq). lia. }
        specialize (Hrk _ _ Hi). specialize (Hr _ _ Hcp). lia. }
      eapply Near_up; [|by rewrite Hp|].
      * rewrite add_own, decide_False by (intros [? _]; congruence).
        apply Hn; [constructor|by eapply Inh_up|done].
      * apply IH; [|exact Hp]. intros e He1 He2 He3. apply Hn; [by eapply Inh_up|done|done].
Qed.

(** [has] with parent lookup agrees with [get] for keys that are not limited; for a
    limited key that the extruder does not store itself it never ends, although [get]
    may find the value in the extruder's parent. *)
Theorem C44_has s rank c key : ranked s rank -> limited s !! key = None ->
  has (S (rank c)) s c key true = Ok true <-> exists v, get (S (rank c)) s c key = Ok (Some v).
Proof.
  intros _ Hl. generalize (S (rank c)) as f. intros f. revert c. induction f as [|f IH]; intros c.
  - cbn. split; [done|by intros [? ?]].
  - cbn [has get]. rewrite Hl. destruct (own s c !! key) as [v|]; cbn.
    + split; [intros _; by exists v|done].
    + destruct (parent s c) as [p|]; [apply IH|]. split; [done|by intros [? ?]].
Qed.
(** Without parent lookup it looks at the container's own values only. *)
Theorem C44_has_own s c key fuel :
  has (S fuel) s c key false = Ok true <-> exists v, own s c !! key = Some v.
Proof.
  cbn [has]. destruct (own s c !! key) as [v|]; cbn.
  - split; [intros _; by exists v|done].
  - split; [done|by intros [? ?]].
Qed.
Theorem C44_has_own_not s c key fuel :
  has (S fuel) s c key false = Ok false <-> own s c !! key = None.
Proof. cbn [has]. by destruct (own s c !! key). Qed.
Theorem C44_has_refuted : exists s c key v,
  get 2 s c key = Ok (Some v) /\ forall fuel, has fuel s c key true = NoFuel.
Proof.
  set (s := Store (fun c => match c with 1 => Some 0 | 2 => Some 1 | _ => None end)%nat
                  (fun c => if Nat.eqb c 0 then {["infill_angle" := "45"]} else ∅) {["infill_angle" := 1%nat]}).
  exists s, 2%nat, "infill_angle", "45". split; [reflexivity|].
  assert (H : forall fuel, has fuel s 1 "infill_angle" true = NoFuel).
  { induction fuel as [|fuel IH]; [done|]. exact IH. }
  intros [|fuel]; [done|]. exact (H fuel).
Qed.

(** The flattened settings give the keys of the outermost container their values; keys
    stored only further in are missing. *)
Lemma get_keys_root s rank c : ranked s rank -> exists root,
  inherits s c root /\ parent s root = None /\ get_keys (S (rank c)) s c = Ok (map fst (map_to_list (own s root))).
Proof.
  intros Hr. assert (forall f, (rank c < f)%nat -> exists root,
    inherits s c root /\ parent s root = None /\ get_keys f s c = Ok (map fst (map_to_list (own s root)))) as H; [|apply H; lia].
  remember (rank c) as n eqn:E. revert c E. induction (lt_wf n) as [n _ IH]. intros c -> f Hf.
  destruct f as [|f]; [lia|]. cbn [get_keys]. destruct (parent s c) as [p|] eqn:Ep.
  - pose proof (Hr _ _ Ep). destruct (IH (rank p) H p eq_refl f) as (root & H1 & H2 & H3); [lia|].
    exists root. split; [by eapply Inh_up|done].
  - exists c. split; [constructor|done].
Qed.
Lemma flatten_spec f s c keys m : flatten f s c keys = Ok (Some m) ->
  forall k v, m !! k = Some v <-> k ∈ keys /\ get f s c k = Ok (Some v).
Proof.
  revert m. induction keys as [|k0 r IH]; intros m H k v; cbn [flatten] in H.
  - injection H as <-. rewrite lookup_empty. split; [done|]. by intros [?%elem_of_nil _].
  - apply rbind_ok in H as ([v0|] & H1 & H2); [|done]. apply rbind_ok in H2 as ([m0|] & H2 & H3); [|done].
    injection H3 as <-. rewrite elem_of_cons. destruct (decide (k = k0)) as [->|Hn].
    + rewrite lookup_insert. split; [intros [= ->]; auto|]. intros [_ H]. congruence.
    + rewrite lookup_insert_ne by done. rewrite (IH _ H2). naive_solver.
Qed.
Theorem C44_flattened s rank c m : ranked s rank -> flattened (S (rank c)) s c = Ok (Some m) ->
  exists root, inherits s c root /\ parent s root = None /\
  forall k v, m !! k = Some v <-> is_Some (own s root !! k) /\ get (S (rank c)) s c k = Ok (Some v).
Proof.
  intros Hr H. unfold flattened in H. apply rbind_ok in H as (ks & Hk & H).
  destruct (get_keys_root s rank c Hr) as (root & H1 & H2 & H3). rewrite H3 in Hk. injection Hk as <-.
  exists root. split; [done|]. split; [done|]. intros k v. rewrite (flatten_spec _ _ _ _ _ H).
  assert (k ∈ map fst (map_to_list (own s root)) <-> is_Some (own s root !! k)) as ->; [|done].
  split.
  - intros ((k' & v') & -> & Hin)%elem_of_list_fmap. apply elem_of_map_to_list in Hin. eauto.
  - intros [v' Hv]. apply elem_of_list_fmap. exists (k, v'). split; [done|]. by apply elem_of_map_to_list.
Qed.
Theorem C44_flattened_refuted : exists s rank c m key v,
  ranked s rank /\ flattened (S (rank c)) s c = Ok (Some m) /\ get (S (rank c)) s c key = Ok (Some v) /\ m !! key = None.
Proof.
  exists (Store (fun c => match c with 1 => Some 0 | _ => None end)%nat
                (fun c => if Nat.eqb c 1 then {["extruder_nr" := "0"]} else ∅) ∅), (fun c => c), 1%nat, ∅, "extruder_nr", "0".
  split; [intros [|[|c]] p; cbn; intros [=]; subst; lia|]. split; [reflexivity|]. split; [reflexivity|done].
Qed.

(** A scene, a mesh group, two extruders and a mesh. *)
Example C44_example :
  let s0 := Store (fun c => match c with 0 => None | 1 => Some 0 | 2 | 3 => Some 1 | _ => Some 2 end)%nat (fun _ => ∅) {["infill_angle" := 3%nat]} in
  let s := add (add (add (add (add s0 0 "layer_height" "0.1") 1 "infill_angle" "45") 2 "layer_height" "0.2") 3 "layer_height" "0.3") 4 "color" "red" in
  ranked s (fun c => match c with 0 => 0 | 1 => 1 | 2 | 3 => 2 | _ => 3 end)%nat /\
  get 4 s 4 "layer_height" = Ok (Some "0.2") /\ get 4 s 3 "layer_height" = Ok (Some "0.3") /\
  get 4 s 4 "infill_angle" = Ok (Some "45") /\ get 4 (remove s 2 "layer_height") 4 "layer_height" = Ok (Some "0.1") /\
  get 4 s 4 "speed" = Ok None.
Proof.
  cbv zeta. split; [intros [|[|[|[|c]]]] p; cbn; intros [=]; subst; vm_compute; lia|].
  split; [vm_compute; reflexivity|]. split; [vm_compute; reflexivity|]. split; [vm_compute; reflexivity|].
  split; vm_compute; reflexivity.
Qed.

Print Assumptions C44_own.
Print Assumptions C44_nearest.
Print Assumptions C44_ends.
Print Assumptions C44_limited.
Print Assumptions C44_limited_endless.
Print Assumptions C44_limited_refuted.
Print Assumptions C44_add_changes_only.
Print Assumptions C44_add.
Print Assumptions C44_add_inherited.
Print Assumptions C44_has.
Print Assumptions C44_has_refuted.
Print Assumptions C44_flattened.
Print Assumptions C44_flattened_refuted.
Print Assumptions C44_has_own.
Print Assumptions C44_has_own_not.
