(** What a printer does with the commands: a specification that is independent of the exporter. *)
From Coq Require Import ZArith QArith Qminmax.
From stdpp Require Import list.
From Verif Require Import GCode_Model.

Global Instance pt3_eq_dec : EqDecision pt3.
Proof. solve_decision. Defined.

(** The state of a printer.  [px], [py], [pz]: the axes; [pe]: the E register, against which absolute E
    words are read; [fil n]: how far the feeder of extruder [n] has pushed filament forward in total (in E
    units); [peak n]: the largest value [fil n] ever had; [fw n]: retracted by a firmware retraction. *)
Record printer := Pr {
  px : Z; py : Z; pz : Z; pe : Q; tool : nat; fil : nat -> Q; peak : nat -> Q; fw : nat -> bool }.

Definition at_tool {A} (n : nat) (x : A) (f : nat -> A) : nat -> A := fun k => if Nat.eqb k n then x else f k.

(** The feeder pushes by [d]. *)
Definition push (p : printer) (d : Q) (register : Q) : printer :=
  let f := (fil p (tool p) + d)%Q in
  Pr (px p) (py p) (pz p) register (tool p) (at_tool (tool p) f (fil p)) (at_tool (tool p) (Qmax (peak p (tool p)) f) (peak p)) (fw p).

(** [rnd] is the rounding done by printing an E value as text; [relative] tells whether E words are relative. *)
Definition pstep (relative : bool) (rnd : Q -> Q) (p : printer) (c : cmd) : printer :=
  match c with
  | Move _ xy z e =>
      let p1 := match xy with Some v => Pr v.1 v.2 (pz p) (pe p) (tool p) (fil p) (peak p) (fw p) | None => p end in
      let p2 := match z with Some v => Pr (px p1) (py p1) v (pe p1) (tool p1) (fil p1) (peak p1) (fw p1) | None => p1 end in
      match e with
      | Some v => if relative then push p2 (rnd v) (pe p2) else push p2 (rnd v - pe p2) (rnd v)
      | None => p2
      end
  | ZeroE => Pr (px p) (py p) (pz p) 0 (tool p) (fil p) (peak p) (fw p)
  | FwRetract => Pr (px p) (py p) (pz p) (pe p) (tool p) (fil p) (peak p) (at_tool (tool p) true (fw p))
  | FwUnretract => Pr (px p) (py p) (pz p) (pe p) (tool p) (fil p) (peak p) (at_tool (tool p) false (fw p))
  | Tool n => Pr (px p) (py p) (pz p) (pe p) n (fil p) (peak p) (fw p)
  | Dwell _ => p
  end.
Definition prun (relative : bool) (rnd : Q -> Q) (p : printer) (l : list cmd) : printer := fold_left (pstep relative rnd) l p.

(** Where the nozzle of the selected tool is, the tools being mounted at [offset]. *)
Definition nozzle (offset : nat -> pt2) (p : printer) : pt3 :=
  P3 (px p + (offset (tool p)).1) (py p + (offset (tool p)).2) (pz p).

(** ** What the calls ask for *)
Definition diff3 (a b : pt3) : pt3 := P3 (x3 a - x3 b) (y3 a - y3 b) (z3 a - z3 b).
(** where a printing move starts: a z hop is taken down first *)
Definition start (st : gst) : pt3 := if (0 <? hop st)%Z then P3 (x3 (pos st)) (y3 (pos st)) (layer_z st) else pos st.
Definition emitted (st st' : gst) : bool := negb (length (out st') =? length (out st))%nat.

Section asked.
  Variables (relative volumetric : bool) (vlen : pt3 -> Q) (speed_z_hop : nat -> Q) (retraction_enable : nat -> bool).
  Notation apply_op := (apply_op relative volumetric vlen speed_z_hop retraction_enable).

  (** The volume that call [o] asks the current extruder to push out: the volume per mm times the length of
      a printing move; the extra prime volume that goes with every retraction that is written. *)
  Definition asked (st : gst) (o : op) : Q :=
    match o with
    | OExtrude p _ v _ => if bool_decide (pos st = p) then 0 else v * vlen (diff3 p (start st))
    | OAddPrime v => v
    | ORetract cfg force sw d => if emitted st (apply_op st o) then rprime_volume cfg else 0
    | OSwitch n cfg _ =>
        if negb (cur st =? n)%nat && retraction_enable (cur st) && emitted st (apply_op st (ORetract cfg true true None)) then rprime_volume cfg else 0
    | OWipe w => match w_retraction w with
                 | Some c => if emitted st (apply_op st (ORetract c false false None)) then rprime_volume c else 0
                 | None => 0 end
    | _ => 0
    end%Q.
  (** what a sequence of calls asks of extruder [n] *)
  Fixpoint requested (st : gst) (l : list op) (n : nat) : Q :=
    match l with
    | [] => 0
    | o :: l => (if (n =? cur st)%nat then asked st o else 0) + requested (apply_op st o) l n
    end%Q.

  (** A retraction that took place: the volume extruded until then, whether it was forced, and its settings. *)
  Record revent := REvent { rv_volume : Q; rv_forced : bool; rv_config : retraction_config }.
  Definition retraction_of (st : gst) (o : op) : option revent :=
    let total := getTotalFilamentUsed volumetric st (cur st) in
    match o with
    | ORetract cfg force sw d =>
        if (writeRetraction relative volumetric st cfg force sw d).1 then Some (REvent total force cfg) else None
    | OSwitch n cfg _ =>
        if negb (cur st =? n)%nat && retraction_enable (cur st) then Some (REvent total true cfg) else None
    | OWipe w => match w_retraction w with
                 | Some c => if (writeRetraction relative volumetric st c false false None).1 then Some (REvent total false c) else None
                 | None => None end
    | _ => None
    end.
  (** the retractions of extruder [n], the latest first *)
  Fixpoint retraction_log (st : gst) (l : list op) (n : nat) (log : list revent) : list revent :=
    match l with
    | [] => log
    | o :: l =>
        retraction_log (apply_op st o) l n
          (match retraction_of st o with Some ev => if (n =? cur st)%nat then ev :: log else log | None => log end)
    end.
End asked.
