(** Specification of [#[stabby::import]]: what the block says. *)
From Coq Require Import String.
From Coq Require Import List Arith NArith Bool.
From Verif Require Import M_Canary M_ExtBlock.
Import ListNotations.

(** The items that are there. *)
Definition present (it : fitem) : bool := match it with IFn f => d_cfg f | IStatic _ _ => true end.
(** What an item of an extern block of convention [a] in module [m] is; with canaries, functions are unsafe to call as in any such block, otherwise if they are said to be. *)
Definition declared1 (w : world) (m : list N) (canaried : bool) (a : abi) (it : fitem) : option imp :=
  match it with
  | IFn f => match mapM (resolve_ty w m) (d_ins f), resolve_out w m (d_out f) with
             | Some i, Some o => Some (Imp (d_name f) (d_vis f) (if canaried then true else d_unsafe f) (abi_name a) i o (d_variadic f))
             | _, _ => None
             end
  | IStatic n t => option_map (ImpStatic n) (resolve_ty w m t)
  end.
Definition declared (w : world) (m : list N) (canaried : bool) (a : abi) (items : list fitem) : option (list imp) :=
  mapM (declared1 w m canaried a) (filter present items).

(** The arguments that are for the linker, and the last request for canaries. *)
Definition link_args (args : list (list N * list N)) : list (list N * list N) := filter (fun kv => negb (str_eqb (fst kv) (str "canaries"))) args.
Definition requests (args : list (list N * list N)) : list (list N) := map snd (filter (fun kv => str_eqb (fst kv) (str "canaries")) args).
Definition canaried (args : list (list N * list N)) : bool := match requests args with [] => false | _ => true end.

(** Nothing is in the module that is generated: its name has a random number of 128 bits. *)
Definition fresh (w : world) (m : list N) (i : N) : Prop := forall l, w_items w (m ++ i :: l) = None.
(** Paths that mean the same one module deeper. *)
Definition path_supported (w : world) (m : list N) (p : path) : Prop :=
  match p with
  | PCrate _ | PGlobal _ => True
  | PName l => w_items w (m ++ l) = None \/ w_items w (m ++ l) = w_prelude w l
  | PSelf _ => False
  | PSuper 0 l => w_items w (m ++ l) = w_items w (firstn (length m - 1) m ++ l)
  | PSuper (S k) l => w_items w (firstn (length m - S k) m ++ l) = w_items w (firstn (length m - S (S k)) m ++ l)
  end.
Definition types_of (f : fdecl) : list ty := d_ins f ++ match d_out f with Some t => [t] | None => [] end.
(** Symbols made for a function. *)
Definition symbols (e : env) (args : list (list N * list N)) (n : list N) : list (list N) :=
  match rev (requests args) with
  | [] => [n ++ str "_stabbied_v3_report"; n ++ str "_stabbied_v3"; n]
  | r :: _ => match from_str r with
              | Some c => match canaries c with
                          | Some l => n :: map (fun x => n ++ display e x) l ++ [n ++ str "_canaries_fn"; n ++ str "_canaried"]
                          | None => []
                          end
              | None => []
              end
  end.
(** Blocks that are supported: present functions without lifetimes, [async] and [...] whose types are named by paths that do not depend on the module; a name for the linker;
    requests that are known; names that do not clash.  With canaries, a convention of Rust; without, convention C and at most fifteen stable inputs. *)
Definition fn_supported (stable : rty -> bool) (w : world) (m : list N) (can : bool) (it : fitem) : Prop :=
  match it with
  | IStatic _ _ => False
  | IFn f => d_cfg f = true /\ d_async f = false /\ d_lts f = [] /\ d_variadic f = false /\ Forall (fun t => Forall (path_supported w m) (t_paths t)) (types_of f) /\
      if can then d_unsafe f = false
      else length (d_ins f) <= 15 /\ Forall (fun t => t_elided t = false /\ forall r, resolve_ty w m t = Some r -> stable r = true) (types_of f)
  end.
Definition names (items : list fitem) : list (list N) := map (fun it => match it with IFn f => d_name f | IStatic n _ => n end) items.
Definition supported (e : env) (stable : rty -> bool) (w : world) (m : list N) (args : list (list N * list N)) (a : abi) (items : list fitem) : Prop :=
  Forall (fun r => from_str r <> None) (requests args) /\ link_ok (link_args args) = true /\
  (if canaried args then In (abi_name a) rust_abis else items = [] /\ In (abi_name a) rust_abis \/ abi_name a = str "C") /\
  Forall (fn_supported stable w m (canaried args)) items /\ NoDup (flat_map (symbols e args) (names items)).
