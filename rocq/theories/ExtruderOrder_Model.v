(** Which extruders are used on which layer, in which order, and when they are primed:
    src/FffGcodeWriter.cpp (getStartExtruder, calculateExtruderOrderPerLayer,
    calculatePrimeLayerPerExtruder, getUsedExtrudersOnLayer, findUsedExtruderIndex, the extruder loop
    of processLayer, setExtruder_addPrime), src/sliceDataStorage.cpp (getExtrudersUsed) and the
    getExtruderPrime functions of src/PrimeTower.

    Extruder numbers are [nat], layer numbers [Z].  A [std::vector<bool>] indexed by extruder is a
    [list bool]; an access outside of it is [UB].  Settings that are read by name are fields of
    [scene].  What a mesh uses (SliceMeshStorage::getExtruderIsUsed, both overloads) is a pair of
    arbitrary predicates; which parts of the support of a layer are empty is data. *)
From Coq Require Import ZArith.
From stdpp Require Import list list_numbers.
From Verif Require Import Common Math_Model Layers_Model.
Open Scope Z_scope.

(** settings/EnumSettings.h, EPlatformAdhesion (the other values behave as NONE here) *)
Inductive adhesion := A_NONE | A_SKIRT | A_BRIM | A_RAFT.

(** include/PrimeTower/ExtruderPrime.h *)
Inductive eprime := PNone | PSupport | PPrime.
Global Instance eprime_eq_dec : EqDecision eprime.
Proof. solve_decision. Defined.

(** PrimeTower::createPrimeTower: no tower, PrimeTowerNormal, PrimeTowerInterleaved *)
Inductive tower := T_None | T_Normal | T_Interleaved.

(** SupportLayer: whether each of its three sets of areas is non-empty *)
Record support_layer := SupportLayer {
  sup_infill : bool;
  sup_bottom : bool;
  sup_roof : bool
}.

Record mesh_use := MeshUse {
  used_any : nat → bool;          (* getExtruderIsUsed(extruder_nr), sliceDataStorage.cpp:111-160 *)
  used_on : nat → Z → bool        (* getExtruderIsUsed(extruder_nr, layer_nr), :162-258 *)
}.

Record scene := Scene {
  n_extruders : nat;
  adhesion_type : adhesion;
  raft_set : raft_settings;
  raft_base_ex : nat;
  raft_interface_ex : nat;
  raft_surface_ex : nat;
  skirt_brim_ex : Z;              (* get<int>("skirt_brim_extruder_nr") *)
  skirt_brim : nat → bool;        (* skirt_brim[extruder] is not empty *)
  blob_enable : nat → bool;       (* prime_blob_enable of the train *)
  need_blob : bool;               (* GCodeExport::needPrimeBlob *)
  support_used : bool;            (* some mesh has support_enable or support_mesh, or painted support *)
  roof_enable : bool;
  bottom_enable : bool;
  sup_l0_ex : nat;                (* support_extruder_nr_layer_0 *)
  sup_infill_ex : nat;
  sup_roof_ex : nat;
  sup_bottom_ex : nat;
  support_layers : list support_layer;
  meshes : list mesh_use;
  prime_tower : tower;
  max_height_second : Z;          (* max_print_height_second_to_last_extruder *)
  layer_count : nat               (* print_layer_count *)
}.

Record extruder_use := Use { ex_nr : nat; ex_prime : eprime }.

(** [v[i] = true] *)
Definition mark (i : nat) (v : list bool) : res (list bool) :=
  if decide (i < length v)%nat then Ok (<[i := true]> v) else UB.

(** [if (b) v[i] = true] *)
Definition mark_if (b : bool) (i : nat) (v : list bool) : res (list bool) :=
  if b then mark i v else Ok v.

(** [v[i]] *)
Definition at_bool (v : list bool) (i : nat) : res bool := of_opt (v !! i).

(** sliceDataStorage.cpp:427-501 *)
Definition extruders_used (s : scene) : res (list bool) :=
  let v := replicate (n_extruders s) false in
  let! v :=
    match adhesion_type s with
    | A_SKIRT | A_BRIM =>
        let v := imap (λ e b, b || skirt_brim s e) v in
        if 0 <=? skirt_brim_ex s then mark (Z.to_nat (skirt_brim_ex s)) v else Ok v
    | A_RAFT =>
        let! v := mark (raft_base_ex s) v in
        let! v := mark_if (0 <? raft_interface_layers (raft_set s))%nat (raft_interface_ex s) v in
        mark_if (0 <? raft_surface_layers (raft_set s))%nat (raft_surface_ex s) v
    | A_NONE => Ok v
    end in
  let! v :=
    if support_used s then
      let! v := mark (sup_l0_ex s) v in
      let! v := mark (sup_infill_ex s) v in
      let! v := mark_if (roof_enable s) (sup_roof_ex s) v in
      mark_if (bottom_enable s) (sup_bottom_ex s) v
    else Ok v in
  Ok (foldl (λ v m, imap (λ e b, b || used_any m e) v) v (meshes s)).

(** sliceDataStorage.cpp:503-611 *)
Definition extruders_used_on (s : scene) (layer : Z) : res (list bool) :=
  let! filler := getFillerLayerCount (raft_set s) in
  let is_raft := match adhesion_type s with A_RAFT => true | _ => false end in
  let include_models := negb (layer <? 0) in
  let include_helper := negb ((layer <? 0) && (layer <? - filler)) in
  let include_adhesion := (layer <? 0) || negb ((0 <? layer) || is_raft) in
  let v := replicate (n_extruders s) false in
  let! v :=
    if include_adhesion then
      match adhesion_type s with
      | A_SKIRT | A_BRIM => Ok (if layer =? 0 then imap (λ e b, b || skirt_brim s e) v else v)
      | A_RAFT =>
          let! t := getLayerType (raft_set s) layer in
          match t with
          | RaftBase => let! v := mark (raft_base_ex s) v in Ok (imap (λ e b, b || blob_enable s e) v)
          | RaftInterface => mark (raft_interface_ex s) v
          | RaftSurface => mark (raft_surface_ex s) v
          | _ => Ok v
          end
      | A_NONE => Ok v
      end
    else Ok v in
  let! v :=
    if include_helper && (layer <? Z.of_nat (length (support_layers s))) then
      let! l := of_opt (support_layers s !! Z.to_nat (Z.max 0 layer)) in
      let! v := mark_if (sup_infill l) (if layer =? 0 then sup_l0_ex s else sup_infill_ex s) v in
      let! v := mark_if (sup_bottom l) (sup_bottom_ex s) v in
      mark_if (sup_roof l) (sup_roof_ex s) v
    else Ok v in
  Ok (if include_models then foldl (λ v m, imap (λ e b, b || used_on m e layer) v) v (meshes s) else v).

(** FffGcodeWriter.cpp:1294-1309, with getExtruderPrimeBlobEnabled (sliceDataStorage.cpp:613-622);
    the bounds checks make the reads total *)
Definition needs_blob (s : scene) (used : list bool) (e : nat) : bool :=
  need_blob s && default false (used !! e)
  && (if decide (e < n_extruders s)%nat then blob_enable s e else false).

(** PrimeTower.cpp (extruderRequiresPrime), PrimeTowerNormal.cpp and PrimeTowerInterleaved.cpp
    (getExtruderPrime) *)
Definition extruder_prime (s : scene) (used : list bool) (e last : nat) (layer : Z) : res eprime :=
  match prime_tower s with
  | T_None => Ok PNone
  | T_Normal =>
      let! u := at_bool used e in
      Ok (if u && negb (e =? last)%nat then PPrime
          else if layer <=? max_height_second s then PSupport else PNone)
  | T_Interleaved =>
      let! u := at_bool used e in
      Ok (if u && negb (e =? last)%nat then PPrime else PNone)
  end.

(** FffGcodeWriter.cpp:1662-1678, the loop over the potential extruders *)
Fixpoint choose (s : scene) (used : list bool) (layer : Z) (last : nat) (es : list nat)
  : res (list extruder_use) :=
  match es with
  | [] => Ok []
  | e :: es =>
      let! p := extruder_prime s used e last layer in
      let! u := at_bool used e in
      if u || negb (bool_decide (p = PNone)) then
        let! r := choose s used layer e es in Ok (Use e p :: r)
      else choose s used layer last es
  end.

(** FffGcodeWriter.cpp:1603-1682 *)
Definition used_extruders_on_layer (s : scene) (start : nat) (layer : Z) (global : list bool)
  : res (list extruder_use) :=
  let! used := extruders_used_on s layer in
  let! total := getTotalExtraLayers (raft_set s) in
  let! t := getLayerType (raft_set s) layer in
  match t with
  | RaftBase =>
      let others := if layer =? - total
        then List.filter (λ e, negb (e =? raft_base_ex s)%nat && needs_blob s global e) (seq 0 (length used))
        else [] in
      Ok (Use (raft_base_ex s) PNone :: map (λ e, Use e PNone) others)
  | _ =>
      let used := if layer =? - total then imap (λ e b, b || needs_blob s global e) used else used in
      let potential := start
        :: List.filter (λ e, negb (e =? start)%nat && default false (global !! e)) (seq 0 (length global)) in
      choose s used layer start potential
  end.

(** The last element of a layer's list, or the extruder active before it (FffGcodeWriter.cpp:1566-1569) *)
Definition active_after (before : nat) (order : list extruder_use) : nat :=
  match last order with Some u => ex_nr u | None => before end.

(** FffGcodeWriter.cpp:1562-1570, the loop over the layers *)
Fixpoint order_layers (s : scene) (global : list bool) (before : nat) (layers : list Z)
  : res (list (Z * list extruder_use)) :=
  match layers with
  | [] => Ok []
  | l :: ls =>
      let! order := used_extruders_on_layer s before l global in
      let! rest := order_layers s global (active_after before order) ls in
      Ok ((l, order) :: rest)
  end.

(** FffGcodeWriter.cpp:1542-1571, without the polishing by the prime tower (see PrimeTower_Model);
    [start] is the start extruder of the mesh group *)
Definition extruder_order_per_layer (s : scene) (start : nat) : res (list (Z * list extruder_use)) :=
  let! global := extruders_used s in
  let! total := getTotalExtraLayers (raft_set s) in
  order_layers s global start (seqZ (- total) (Z.of_nat (layer_count s) + total)).

(** FffGcodeWriter.cpp:1590-1600, the loop over the layers *)
Fixpoint lowest_use (s : scene) (e : nat) (acc : option Z) (ls : list Z) : res (option Z) :=
  match ls with
  | [] => Ok acc
  | l :: ls =>
      let! used := extruders_used_on s l in
      lowest_use s e
        (if default false (used !! e) then Some (match acc with None => l | Some a => Z.min a l end)
         else acc) ls
  end.

(** FffGcodeWriter.cpp:1578-1601 and :57, the layer on which an extruder is primed: the lowest one it
    is used on; None is the initial value, the largest int.  (:85, which stops the start extruder of
    the first mesh group from being primed again, is not modelled; MAX_EXTRUDERS is not either.) *)
Definition prime_layer (s : scene) (global : list bool) (e : nat) : res (option Z) :=
  let! total := getTotalExtraLayers (raft_set s) in
  let init := if needs_blob s global e then Some (- total) else None in
  lowest_use s e init (seqZ (- total) (Z.of_nat (layer_count s) + total)).

(** What the planning of a layer does with an extruder. *)
Inductive event := Select (layer : Z) (e : nat) | Prime (layer : Z) (e : nat).

(** FffGcodeWriter.cpp:1248-1253 with setExtruder_addPrime (:4193-4233) and LayerPlan::setExtruder
    (LayerPlan.cpp:263-268): the extruder is primed if the layer plan's extruder changes and this is
    the extruder's prime layer.  [current] is the layer plan's current extruder. *)
Fixpoint plan_uses (s : scene) (global : list bool) (layer : Z) (current : nat) (us : list extruder_use)
  : res (list event) :=
  match us with
  | [] => Ok []
  | u :: us =>
      let! pl := prime_layer s global (ex_nr u) in
      let! r := plan_uses s global layer (ex_nr u) us in
      Ok (Select layer (ex_nr u)
          :: (if negb (ex_nr u =? current)%nat && bool_decide (pl = Some layer) then [Prime layer (ex_nr u)] else [])
          ++ r)
  end.

(** FffGcodeWriter.cpp:1203-1223: the layer plan starts with the first extruder of the layer's order
    (findUsedExtruderIndex, :2516-2534; on an empty layer nothing is selected). *)
Definition plan_layer (s : scene) (global : list bool) (layer : Z) (us : list extruder_use) : res (list event) :=
  match us with
  | [] => Ok []
  | u :: _ => plan_uses s global layer (ex_nr u) us
  end.

(** The layers of a print without a raft, which are all planned by processLayer
    (FffGcodeWriter.cpp:158-171). *)
Fixpoint plan_events (s : scene) (g : list bool) (plan : list (Z * list extruder_use)) : res (list event) :=
  match plan with
  | [] => Ok []
  | (l, us) :: plan =>
      let! es := plan_layer s g l us in let! rest := plan_events s g plan in Ok (es ++ rest)
  end.

(** FffGcodeWriter.cpp:1239-1241 and 3563-3594: the extruders that print the support of a layer *)
Definition support_printers (s : scene) (layer : Z) (l : support_layer) : list nat :=
  (if sup_infill l then [if layer <=? 0 then sup_l0_ex s else sup_infill_ex s] else [])
  ++ (if sup_roof l then [sup_roof_ex s] else [])
  ++ (if sup_bottom l then [sup_bottom_ex s] else []).

(** FffGcodeWriter.cpp:382-430; [skirt_lines] and [brim_lines]: the train of skirt_brim_extruder_nr has
    lines or a minimal length; [tower_brim]: prime_tower_brim_enable; [support_brim]: support is
    enabled and has a brim.  With no extruders at all the variable stays uninitialised. *)
Definition start_extruder (s : scene) (skirt_lines brim_lines tower_brim support_brim : bool) : res nat :=
  let named := 0 <=? skirt_brim_ex s in
  let ad := adhesion_type s in
  if match ad with A_SKIRT => true | _ => false end && named && skirt_lines
  then Ok (Z.to_nat (skirt_brim_ex s))
  else if (match ad with A_BRIM => true | _ => false end || tower_brim) && named && brim_lines
  then Ok (Z.to_nat (skirt_brim_ex s))
  else if match ad with A_RAFT => true | _ => false end && named then Ok (raft_base_ex s)
  else if support_brim then Ok (sup_infill_ex s)
  else
    let! used := extruders_used s in
    match used with
    | [] => UB
    | _ => Ok (match list_find (λ b, b = true) used with
               | Some (i, _) => i
               | None => (length used - 1)%nat
               end)
    end.
