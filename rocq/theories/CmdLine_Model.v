(** * Settings from the command line and from JSON definitions

    Models [CommandLine::sliceNext] up to the start of slicing, [loadJSON],
    [loadJSONSettings] and [jsonValue2Str]
    (/repo/src/communication/CommandLine.cpp:104-476, 501-687).  Left out: the option
    -r, plug-ins, the thread count of -m, and everything that is only logged. *)
From Coq Require Import ZArith Ascii String.
From stdpp Require Import strings gmap list.
From Verif Require Import Common.
Local Open Scope string_scope.

(** ** JSON *)

(** A parsed document; a number comes with the text that [std::to_string] makes of it. *)
Inductive json :=
| JString (s : string) | JBool (b : bool) | JNumber (text : string) | JNull
| JArray (l : list json) | JObject (l : list (string * json)).

(** [HasMember] and [operator[]]: the first member of that name. *)
Fixpoint member (name : string) (l : list (string * json)) : option json :=
  match l with
  | [] => None
  | (k, v) :: r => if String.eqb k name then Some v else member name r
  end.

(** [jsonValue2Str] (CommandLine.cpp:587-633).  [old] is what the output string holds
    before; it is left alone if the value has no known type. *)
Fixpoint to_str (v : json) (old : string) {struct v} : bool * string :=
  match v with
  | JString s => (true, s)
  | JBool b => (true, if b then "true" else "false")
  | JNumber t => (true, t)
  | JArray [] => (true, "[]")
  | JArray (x :: xs) =>
    let temp := (to_str x "").2 in
    (true, "[" ++ (fix go l converted temp :=
                     match l with
                     | [] => converted
                     | y :: l => let temp := (to_str y temp).2 in go l (converted ++ "," ++ temp) temp
                     end) xs temp temp ++ "]")
  | JNull | JObject _ => (false, old)
  end.

(** The end of the loop in [loadJSONSettings] (CommandLine.cpp:656-686). *)
Definition read_setting (force_read_nondefault : bool) (name : string) (fields : list (string * json))
    (m : gmap string string) : gmap string string :=
  let store v := let r := to_str v "" in if r.1 then <[name := r.2]> m else m in
  match member "default_value" fields with
  | Some v => store v
  | None =>
    match member "value" fields, m !! name with
    | Some v, None => if force_read_nondefault then store v else m
    | _, _ => m
    end
  end.

(** [loadJSONSettings] (CommandLine.cpp:635-687) on the settings' own values. *)
Fixpoint load_settings (force_read_parent force_read_nondefault : bool) (element : json) (m : gmap string string)
    {struct element} : res (gmap string string) :=
  match element with
  | JObject ms =>
    (fix each ms m {struct ms} :=
       match ms with
       | [] => Ok m
       | (name, v) :: r =>
         let! m := match v with
                   | JObject fields =>
                     let children :=
                       (fix find l := match l with
                                      | [] => None
                                      | (k, x) :: l =>
                                        if String.eqb k "children"
                                        then Some (load_settings force_read_parent force_read_nondefault x) else find l
                                      end) fields in
                     match children with
                     | Some load =>
                       let! m := load m in
                       if force_read_parent then Ok (read_setting force_read_nondefault name fields m) else Ok m
                     | None => Ok (read_setting force_read_nondefault name fields m)
                     end
                   | _ => Ok m
                   end in
         each r m
       end) ms m
  | _ => UB
  end.

(** ** The scene *)

(** Which container. *)
Inductive cont := CScene | CExtruder (i : nat) | CGroup (g : nat) | CMesh (g i : nat).
Global Instance cont_dec : EqDecision cont.
Proof. solve_decision. Defined.

(** Addresses of containers.  The extruders are in a vector that moves when it grows
    beyond its capacity: an address in it is an index and the number of moves so far. *)
Inductive ptr := PScene | PExtruder (a : nat * nat) | PGroup (g : nat) | PMesh (g i : nat).

(** The scene ([Scene.h]), and the local variables of [sliceNext]
    (CommandLine.cpp:118-128).  An extruder is its [extruder_nr_]; a mesh is the address
    of the extruder that it inherits from. *)
Record st := St {
  groups : nat; group : nat;
  extruders : list nat; capacity : nat; moved : nat;
  meshes : nat -> list (nat * nat);
  values : cont -> gmap string string;
  last_settings : ptr; last_extruder : nat * nat;
  force_parent : bool; force_nondefault : bool
}.
Definition set_values s c m := St (groups s) (group s) (extruders s) (capacity s) (moved s) (meshes s)
  (fun d => if decide (d = c) then m else values s d) (last_settings s) (last_extruder s) (force_parent s) (force_nondefault s).
Definition set_last s p := St (groups s) (group s) (extruders s) (capacity s) (moved s) (meshes s) (values s)
  p (last_extruder s) (force_parent s) (force_nondefault s).
Definition set_last_extruder s a := St (groups s) (group s) (extruders s) (capacity s) (moved s) (meshes s) (values s)
  (last_settings s) a (force_parent s) (force_nondefault s).
Definition set_group s g := St (groups s) g (extruders s) (capacity s) (moved s) (meshes s) (values s)
  (last_settings s) (last_extruder s) (force_parent s) (force_nondefault s).
Definition set_force s p n := St (groups s) (group s) (extruders s) (capacity s) (moved s) (meshes s) (values s)
  (last_settings s) (last_extruder s) p n.
Definition add_mesh s a := St (groups s) (group s) (extruders s) (capacity s) (moved s)
  (fun g => if Nat.eqb g (group s) then app (meshes s g) [a] else meshes s g) (values s)
  (last_settings s) (last_extruder s) (force_parent s) (force_nondefault s).

(** [scene.extruders.emplace_back(nr, ...)].  When the vector is full its elements move
    (to twice the room). *)
Definition emplace (s : st) (nr : nat) : st :=
  let n := length (extruders s) in
  if Nat.ltb n (capacity s)
  then St (groups s) (group s) (app (extruders s) [nr]) (capacity s) (moved s) (meshes s) (values s)
          (last_settings s) (last_extruder s) (force_parent s) (force_nondefault s)
  else St (groups s) (group s) (app (extruders s) [nr]) (Nat.max 1 (2 * n)) (S (moved s)) (meshes s) (values s)
          (last_settings s) (last_extruder s) (force_parent s) (force_nondefault s).

(** Following an address: [UB] if the extruders have moved since. *)
Definition deref_extruder (s : st) (a : nat * nat) : res nat :=
  if Nat.eqb a.1 (moved s) then Ok a.2 else UB.
Definition deref (s : st) (p : ptr) : res cont :=
  match p with
  | PScene => Ok CScene
  | PExtruder a => let! i := deref_extruder s a in Ok (CExtruder i)
  | PGroup g => Ok (CGroup g)
  | PMesh g i => Ok (CMesh g i)
  end.

(** [add] on the container at an address. *)
Definition add_at (s : st) (p : ptr) (key value : string) : res st :=
  let! c := deref s p in Ok (set_values s c (<[key := value]> (values s c))).

(** A lookup (Settings_Model.v, [get]) while no key is limited to an extruder: extruders
    and mesh groups inherit from the scene, meshes from their extruder. *)
Definition lookup_from (s : st) (key : string) (c : cont) : option string :=
  match values s c !! key with Some v => Some v | None => values s CScene !! key end.
Definition lookup (s : st) (p : ptr) (key : string) : res (option string) :=
  let! c := deref s p in
  match c with
  | CMesh g i =>
    match values s c !! key with
    | Some v => Ok (Some v)
    | None =>
      let! a := of_opt (meshes s g !! i) in
      let! e := deref_extruder s a in
      Ok (lookup_from s key (CExtruder e))
    end
  | _ => Ok (lookup_from s key c)
  end.

(** ** Numbers in text *)

Definition digit (c : ascii) : option nat :=
  let n := nat_of_ascii c in if (Nat.leb 48 n && Nat.leb n 57)%bool then Some (n - 48)%nat else None.
Fixpoint digits (acc : nat) (s : string) : nat :=
  match s with
  | EmptyString => acc
  | String c r => match digit c with Some d => digits (10 * acc + d) r | None => acc end
  end.
(** [std::stoul]; [None]: an exception.  White space and signs in front are left out. *)
Definition stoul (s : string) : option nat :=
  match s with
  | EmptyString => None
  | String c r => match digit c with Some d => Some (digits d r) | None => None end
  end.
(** [atoi]; white space in front is left out. *)
Definition atoi (s : string) : Z :=
  match s with
  | String "-" r => (- Z.of_nat (digits 0 r))%Z
  | String "+" r => Z.of_nat (digits 0 r)
  | _ => Z.of_nat (digits 0 s)
  end.
(** [std::to_string]. *)
Fixpoint to_string_aux (fuel n : nat) (acc : string) : string :=
  match fuel with
  | O => acc
  | S fuel =>
    let acc := String (ascii_of_nat (48 + n mod 10)) acc in
    if Nat.eqb (n / 10) 0 then acc else to_string_aux fuel (n / 10) acc
  end.
Definition to_string (n : nat) : string := to_string_aux (S n) n "".

(** The loops that create missing extruders: [count] of them, each with number [nr] of
    its index. *)
Fixpoint create (count : nat) (nr : nat -> nat) (s : st) : st :=
  match count with
  | O => s
  | S k => create k nr (emplace s (nr (length (extruders s))))
  end.
(** while (extruders.size() <= n), while (extruders.size() < n). *)
Definition create_upto (n : nat) (nr : nat -> nat) (s : st) : st := create (S n - length (extruders s)) nr s.
Definition create_count (n : nat) (nr : nat -> nat) (s : st) : st := create (n - length (extruders s)) nr s.

Section files.
  (** What is on disk: the document in a file ([None]: it cannot be opened or parsed),
      the file of a definition (CommandLine.cpp:740-751; the search path is taken to be
      fixed), whether a model can be loaded and a file be written to. *)
  Context (file : string -> option json) (definition_file : string -> option string)
          (model_ok output_ok : string -> bool).

  (** The part of [loadJSON] after inheritance and extruders (CommandLine.cpp:575-582). *)
  Definition load_sections (d : list (string * json)) (target : ptr) (s : st) : res st :=
    let section name s :=
      match member name d with
      | Some (JObject ms) =>
        let! c := deref s target in
        let! m := load_settings (force_parent s) (force_nondefault s) (JObject ms) (values s c) in
        Ok (set_values s c m)
      | _ => Ok s
      end in
    let! s := section "settings" s in section "overrides" s.

  (** The loop over the extruder trains (CommandLine.cpp:552-571), [load] being
      [loadJSON]; its result is not looked at. *)
  Fixpoint load_trains (load : string -> ptr -> st -> res (bool * st)) (trains : list (string * json)) (s : st) : res st :=
    match trains with
    | [] => Ok s
    | (name, id) :: r =>
      let n := atoi name in
      let! s :=
        if (n <? 0)%Z then Ok s
        else
          let s := create_upto (Z.to_nat n) (fun size => size) s in
          match id with
          | JString id =>
            match definition_file id with
            | Some f => let! r := load f (PExtruder (moved s, Z.to_nat n)) s in Ok r.2
            | None => Ok s
            end
          | _ => Ok s
          end in
      load_trains load r s
    end.

  (** [loadJSON] (CommandLine.cpp:501-585): whether it succeeded.  [NoFuel]: definitions
      inherit from each other more than [fuel] deep. *)
  Fixpoint load_json (fuel : nat) (f : string) (target : ptr) (s : st) : res (bool * st) :=
    match fuel with
    | O => NoFuel
    | S fuel =>
      match file f with
      | None => Ok (false, s)
      | Some (JObject d) =>
        let! r :=
          match member "inherits" d with
          | Some (JString id) =>
            match definition_file id with
            | Some parent => load_json fuel parent target s
            | None => Ok (false, s)
            end
          | _ => Ok (true, s)
          end in
        if negb r.1 then Ok r
        else
          let! s :=
            match member "metadata" d with
            | Some (JObject md) =>
              match member "machine_extruder_trains" md with
              | Some (JObject trains) => load_trains (load_json fuel) trains r.2
              | _ => Ok r.2
              end
            | _ => Ok r.2
            end in
          let! s := load_sections d target s in
          Ok (true, s)
      | Some _ => UB
      end
    end.

  (** ** The command line *)

  (** The position of the first '=' (CommandLine.cpp:331-338). *)
  Fixpoint split_at_equals (s : string) : option (string * string) :=
    match s with
    | EmptyString => None
    | String c r =>
      if Ascii.eqb c "=" then Some ("", r)
      else match split_at_equals r with Some p => Some (String c p.1, p.2) | None => None end
    end.

  (** -j (CommandLine.cpp:220-251).  [Ok None]: the process ends. *)
  Definition do_json (fuel : nat) (f : string) (s : st) : res (option st) :=
    let! r := load_json fuel f (last_settings s) s in
    if negb r.1 then Ok None
    else
      let s := r.2 in
      let! s :=
        match last_settings s with
        | PScene =>
          match values s CScene !! "machine_extruder_count" with
          | None => Ok None
          | Some t =>
            match stoul t with
            | None => Ok None
            | Some n => Ok (Some (create_count n (fun size => size) s))
            end
          end
        | _ => Ok (Some s)
        end in
      match s with
      | None => Ok None
      | Some s =>
        match last_settings s with
        | PExtruder a =>
          (* comparing the two addresses is taken to be harmless *)
          if decide (a = last_extruder s) then
            let! i := deref_extruder s a in
            let! nr := of_opt (extruders s !! i) in
            let! s := add_at s (last_settings s) "extruder_nr" (to_string nr) in
            Ok (Some s)
          else Ok (Some s)
        | _ => Ok (Some s)
        end
      end.

  (** -e (CommandLine.cpp:252-263). *)
  Definition do_extruder (text : string) (s : st) : res (option st) :=
    match stoul text with
    | None => Ok None
    | Some n =>
      let s := create_upto n (fun _ => n) s in
      let s := set_last s (PExtruder (moved s, n)) in
      let! s := add_at s (last_settings s) "extruder_nr" text in
      Ok (Some (set_last_extruder s (moved s, n)))
    end.

  (** -l (CommandLine.cpp:264-287). *)
  Definition do_load (f : string) (s : st) : res (option st) :=
    let! t := lookup s (last_settings s) "mesh_rotation_matrix" in
    match t with
    | None => Ok None
    | Some _ =>
      let! _ := deref_extruder s (last_extruder s) in
      if model_ok f then
        let s := add_mesh s (last_extruder s) in
        Ok (Some (set_last s (PMesh (group s) (length (meshes s (group s)) - 1))))
      else Ok None
    end.

  (** The loop over the arguments (CommandLine.cpp:130-473). *)
  Fixpoint parse (fuel : nat) (args : list string) (s : st) : res (option st) :=
    match args with
    | [] => Ok (Some s)
    | a :: rest =>
      match a with
      | String "-" (String "-" _) =>
        if String.prefix "--next" a then
          let g := S (group s) in
          if Nat.ltb g (groups s) then parse fuel rest (set_last (set_group s g) (PGroup g)) else UB
        else if String.prefix "--force-read-parent" a || String.prefix "--force_read_parent" a
        then parse fuel rest (set_force s true (force_nondefault s))
        else if String.prefix "--force-read-nondefault" a || String.prefix "--force_read_nondefault" a
        then parse fuel rest (set_force s (force_parent s) true)
        else if String.prefix "--end-force-read" a || String.prefix "--end_force_read" a
        then parse fuel rest (set_force s false false)
        else if String.prefix "--progress_cb" a || String.prefix "--slice_info_cb" a || String.prefix "--gcode_header_cb" a
                || String.prefix "--engine_info_cb" a
        then match rest with _ :: rest => parse fuel rest s | [] => UB end
        else parse fuel rest s
      | String "-" (String o text) =>
        match o with
        | "v" | "m" | "p" => parse fuel rest s
        | "d" => match rest with _ :: rest => parse fuel rest s | [] => Ok None end
        | "j" => match rest with f :: rest => let! s := do_json fuel f s in match s with Some s => parse fuel rest s | None => Ok None end | [] => Ok None end
        | "e" => let! s := do_extruder text s in match s with Some s => parse fuel rest s | None => Ok None end
        | "l" => match rest with f :: rest => let! s := do_load f s in match s with Some s => parse fuel rest s | None => Ok None end | [] => Ok None end
        | "o" => match rest with f :: rest => if output_ok f then parse fuel rest s else Ok None | [] => Ok None end
        | "g" => parse fuel rest (set_last s (PGroup (group s)))
        | "s" =>
          match rest with
          | kv :: rest =>
            match split_at_equals kv with
            | Some p => let! s := add_at s (last_settings s) p.1 p.2 in parse fuel rest s
            | None => Ok None
            end
          | [] => Ok None
          end
        | _ => Ok None
        end%char
      | _ => Ok None
      end
    end.

  (** The whole (CommandLine.cpp:108-128): [args] are the arguments after the program's
      name and the command, so [2 + length args] in all. *)
  Definition start (args : list string) : st :=
    St (S (length (List.filter (String.prefix "--next") args))) 0 [0%nat] (Nat.div (2 + length args) 2) 0
       (fun _ => []) (fun _ => ∅) PScene (0, 0)%nat false false.
  Definition slice_next (fuel : nat) (args : list string) : res (option st) := parse fuel args (start args).
End files.
