(** Model of /repo/xo/utility/file_resource_cache.h. *)
From Coq Require Import List Arith Bool.
From Verif Require Import Base Conc CacheSpec.
Import ListNotations.

Section Cache.
  (** paths, file contents, resources; create_ makes a resource from the contents or throws; clone_ copies it *)
  Context {Path C T : Type} (eqb : Path -> Path -> bool) (create : C -> option T).

  (** 93-97; [it_valid] is for the record only: when the data was last known to be up to date *)
  Record item := Item { it_file : nat; it_checked : nat; it_data : T; it_valid : nat }.
  Fixpoint find_item (l : list (Path * item)) (p : Path) : option item :=
    match l with [] => None | (q, x) :: r => if eqb q p then Some x else find_item r p end.
  Fixpoint set_item (l : list (Path * item)) (p : Path) (x : item) : list (Path * item) :=
    match l with [] => [(p, x)] | (q, y) :: r => if eqb q p then (q, x) :: r else (q, y) :: set_item r p x end.

  (** shared state: clock and files now, earlier moments (for the record), cached_items_ *)
  Record cglobal := CG { cg_now : nat * @fsys Path C; cg_past : @moments Path C; cg_items : list (Path * item) }.
  Definition history (g : cglobal) : moments := cg_now g :: cg_past g.
  Definition clock (g : cglobal) : nat := fst (cg_now g).
  Definition file_at (g : cglobal) (p : Path) : option (nat * C) := snd (cg_now g) p.
  Definition with_items (g : cglobal) (l : list (Path * item)) : cglobal := CG (cg_now g) (cg_past g) l.

  (** where a call for [p] begun at clock [c0] is.  [wall] as in line 32; [ck]: the file was looked at during the call *)
  Inductive cpc :=
  | CIdle
  | CFind (p : Path) (c0 : nat)              (* read_lock held, 28 *)
  | CWantCheck (p : Path) (c0 wall : nat)    (* unlocked, before 40 *)
  | CCheck (p : Path) (c0 wall : nat)        (* write_lock held, 41 *)
  | CReload (p : Path) (c0 : nat)            (* write_lock held, 47: create_ runs *)
  | CWantNew (p : Path) (c0 : nat)           (* unlocked, before 64 *)
  | CNew (p : Path) (c0 : nat)               (* write_lock held, 66 *)
  | CCreate (p : Path) (c0 m t : nat)        (* write_lock held, 72: create_ runs; file time and check time of the new item *)
  | CRelock (p : Path) (c0 : nat)            (* unlocked, before 53 or 80 *)
  | CClone (p : Path) (c0 : nat) (ck : bool) (* read_lock held, 84 *).
  (** the calls still to make, and those made: path, clock at its start, whether the file was looked at, outcome *)
  Record cthread := CT { ct_pc : cpc; ct_todo : list Path; ct_done : list (Path * nat * bool * outcome T) }.
  Definition cholds (t : cthread) : hold :=
    match ct_pc t with
    | CIdle | CWantCheck _ _ _ | CWantNew _ _ | CRelock _ _ => Free
    | CFind _ _ | CClone _ _ _ => Shared
    | CCheck _ _ _ | CReload _ _ | CNew _ _ | CCreate _ _ _ _ => Exclusive
    end.

  Definition min_check_modified_interval : nat := 3.

  Inductive clocal : cglobal -> cthread -> cglobal -> cthread -> Prop :=
  | c_start g p r d : clocal g (CT CIdle (p :: r) d) g (CT (CFind p (clock g)) r d)
  (* 28-33: found, checked recently *)
  | c_recent g p c0 r d x : find_item (cg_items g) p = Some x -> clock g <= it_checked x + min_check_modified_interval ->
      clocal g (CT (CFind p c0) r d) g (CT (CClone p c0 false) r d)
  (* 28-36: found, not checked recently *)
  | c_old g p c0 r d x : find_item (cg_items g) p = Some x -> it_checked x + min_check_modified_interval < clock g ->
      clocal g (CT (CFind p c0) r d) g (CT (CWantCheck p c0 (clock g)) r d)
  (* 28, 59-61: not found *)
  | c_missing g p c0 r d : find_item (cg_items g) p = None -> file_at g p = None ->
      clocal g (CT (CFind p c0) r d) g (CT CIdle r (d ++ [(p, c0, true, Throw)]))
  | c_unknown g p c0 r d : find_item (cg_items g) p = None -> file_at g p <> None ->
      clocal g (CT (CFind p c0) r d) g (CT (CWantNew p c0) r d)
  (* 40 *)
  | c_lock_check g p c0 w r d : clocal g (CT (CWantCheck p c0 w) r d) g (CT (CCheck p c0 w) r d)
  (* 41-46, the item reached through the pointer found before; a file without time throws (50-52) *)
  | c_check_ub g p c0 w r d : find_item (cg_items g) p = None ->
      clocal g (CT (CCheck p c0 w) r d) g (CT CIdle r (d ++ [(p, c0, true, UB)]))
  | c_check_throw g p c0 w r d x : find_item (cg_items g) p = Some x -> file_at g p = None ->
      clocal g (CT (CCheck p c0 w) r d) (with_items g (set_item (cg_items g) p (Item (it_file x) w (it_data x) (it_valid x))))
        (CT CIdle r (d ++ [(p, c0, true, Throw)]))
  | c_check_same g p c0 w r d x v : find_item (cg_items g) p = Some x -> file_at g p = Some (it_file x, v) ->
      clocal g (CT (CCheck p c0 w) r d) (with_items g (set_item (cg_items g) p (Item (it_file x) w (it_data x) (clock g))))
        (CT (CRelock p c0) r d)
  | c_check_changed g p c0 w r d x m v : find_item (cg_items g) p = Some x -> file_at g p = Some (m, v) -> m <> it_file x ->
      clocal g (CT (CCheck p c0 w) r d) (with_items g (set_item (cg_items g) p (Item m w (it_data x) (it_valid x))))
        (CT (CReload p c0) r d)
  (* 47: the file is read now *)
  | c_reload g p c0 r d x m v t : find_item (cg_items g) p = Some x -> file_at g p = Some (m, v) -> create v = Some t ->
      clocal g (CT (CReload p c0) r d) (with_items g (set_item (cg_items g) p (Item (it_file x) (it_checked x) t (clock g))))
        (CT (CRelock p c0) r d)
  | c_reload_ub g p c0 r d : find_item (cg_items g) p = None ->
      clocal g (CT (CReload p c0) r d) g (CT CIdle r (d ++ [(p, c0, true, UB)]))
  | c_reload_throw g p c0 r d : (file_at g p = None \/ exists m v, file_at g p = Some (m, v) /\ create v = None) ->
      clocal g (CT (CReload p c0) r d) g (CT CIdle r (d ++ [(p, c0, true, Throw)]))
  (* 64 *)
  | c_lock_new g p c0 r d : clocal g (CT (CWantNew p c0) r d) g (CT (CNew p c0) r d)
  (* 66-71 *)
  | c_new_found g p c0 r d x : find_item (cg_items g) p = Some x -> clocal g (CT (CNew p c0) r d) g (CT (CRelock p c0) r d)
  | c_new_throw g p c0 r d : find_item (cg_items g) p = None -> file_at g p = None ->
      clocal g (CT (CNew p c0) r d) g (CT CIdle r (d ++ [(p, c0, true, Throw)]))
  | c_new g p c0 r d m v : find_item (cg_items g) p = None -> file_at g p = Some (m, v) ->
      clocal g (CT (CNew p c0) r d) g (CT (CCreate p c0 m (clock g)) r d)
  (* 72-74; the item is still missing, as found in 66 *)
  | c_create g p c0 m0 t0 r d m v t : file_at g p = Some (m, v) -> create v = Some t ->
      clocal g (CT (CCreate p c0 m0 t0) r d) (with_items g (set_item (cg_items g) p (Item m0 t0 t (clock g)))) (CT (CRelock p c0) r d)
  | c_create_throw g p c0 m0 t0 r d : (file_at g p = None \/ exists m v, file_at g p = Some (m, v) /\ create v = None) ->
      clocal g (CT (CCreate p c0 m0 t0) r d) g (CT CIdle r (d ++ [(p, c0, true, Throw)]))
  (* 53, 80 *)
  | c_relock g p c0 r d : clocal g (CT (CRelock p c0) r d) g (CT (CClone p c0 true) r d)
  (* 84 *)
  | c_clone g p c0 ck r d x : find_item (cg_items g) p = Some x ->
      clocal g (CT (CClone p c0 ck) r d) g (CT CIdle r (d ++ [(p, c0, ck, Ok (it_data x))]))
  | c_clone_ub g p c0 ck r d : find_item (cg_items g) p = None ->
      clocal g (CT (CClone p c0 ck) r d) g (CT CIdle r (d ++ [(p, c0, ck, UB)])).

  (** time passes and files change *)
  Inductive cenv : cglobal -> cglobal -> Prop :=
  | c_env g c f : clock g <= c -> cenv g (CG (c, f) (history g) (cg_items g)).

  Definition cache_start (now : nat * fsys) (calls : list (list Path)) : cglobal * list cthread :=
    (CG now [] [], map (fun l => CT CIdle l []) calls).
  Definition cache_reach (now : nat * fsys) (calls : list (list Path)) (g : cglobal) (ts : list cthread) : Prop :=
    csteps cholds clocal cenv (cache_start now calls) (g, ts).
End Cache.
