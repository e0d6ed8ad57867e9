(** * Setting containers

    Models [Settings::add], [remove], [get<std::string>], [getWithoutLimiting],
    [has], [setParent], [getKeys] and [getFlattendSettings]
    (/repo/src/settings/Settings.cpp:39-86, 872-935).  The conversion of the stored
    text to numbers and enumerations is left out. *)
From stdpp Require Import strings gmap list.
From Verif Require Import Common.

(** All containers of a slice, by number, each with a parent (or none) and its own
    values (/repo/include/settings/Settings.h:110-123); and the extruder's container
    that a key is limited to ([Scene::limit_to_extruder], /repo/include/Scene.h:29). *)
Record store := Store {
  parent : nat -> option nat;
  own : nat -> gmap string string;
  limited : gmap string nat
}.

Definition set_own (s : store) (c : nat) (m : gmap string string) : store :=
  Store (parent s) (fun d => if Nat.eqb d c then m else own s d) (limited s).

(** [add] (Settings.cpp:44-54): both branches store the value. *)
Definition add (s : store) (c : nat) (key value : string) : store :=
  match own s c !! key with
  | Some _ => set_own s c (<[key := value]> (own s c))
  | None => set_own s c (<[key := value]> (own s c))
  end.

(** [remove] (Settings.cpp:56-63). *)
Definition remove (s : store) (c : nat) (key : string) : store := set_own s c (delete key (own s c)).

(** [setParent] (Settings.cpp:894-897). *)
Definition set_parent (s : store) (c : nat) (p : option nat) : store :=
  Store (fun d => if Nat.eqb d c then p else parent s d) (own s) (limited s).

(** [get<std::string>] (Settings.cpp:66-86) and [getWithoutLimiting] (899-914), which
    call each other.  [Ok None]: the process ends with exit code 2.  [NoFuel]: the calls
    nest deeper than [fuel]. *)
Fixpoint get (fuel : nat) (s : store) (c : nat) (key : string) : res (option string) :=
  match fuel with
  | O => NoFuel
  | S fuel =>
    match own s c !! key with
    | Some v => Ok (Some v)
    | None =>
      match limited s !! key with
      | Some x =>
        match own s x !! key with
        | Some v => Ok (Some v)
        | None => match parent s x with Some p => get fuel s p key | None => Ok None end
        end
      | None => match parent s c with Some p => get fuel s p key | None => Ok None end
      end
    end
  end.

(** [has] (Settings.cpp:872-892). *)
Fixpoint has (fuel : nat) (s : store) (c : nat) (key : string) (parent_lookup : bool) : res bool :=
  match fuel with
  | O => NoFuel
  | S fuel =>
    let has_key := match own s c !! key with Some _ => true | None => false end in
    if has_key || negb parent_lookup then Ok has_key
    else match limited s !! key with
         | Some x => has fuel s x key parent_lookup
         | None => match parent s c with Some p => has fuel s p key parent_lookup | None => Ok false end
         end
  end.

(** [getKeys] (Settings.cpp:928-935). *)
Fixpoint get_keys (fuel : nat) (s : store) (c : nat) : res (list string) :=
  match fuel with
  | O => NoFuel
  | S fuel => match parent s c with Some p => get_keys fuel s p | None => Ok (map fst (map_to_list (own s c))) end
  end.

(** [getFlattendSettings] (Settings.cpp:916-926); [Ok None] if a lookup ends the process. *)
Fixpoint flatten (fuel : nat) (s : store) (c : nat) (keys : list string) : res (option (gmap string string)) :=
  match keys with
  | [] => Ok (Some ∅)
  | k :: r =>
    let! v := get fuel s c k in
    match v with
    | None => Ok None
    | Some v =>
      let! m := flatten fuel s c r in
      match m with Some m => Ok (Some (<[k := v]> m)) | None => Ok None end
    end
  end.
Definition flattened (fuel : nat) (s : store) (c : nat) : res (option (gmap string string)) :=
  let! ks := get_keys fuel s c in flatten fuel s c ks.
