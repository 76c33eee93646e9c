(** Specification of catalogs copied by value, by the history of the program (latest call
    first), without maps and addresses: which catalogs share their entries, what a catalog
    lists, and which header fields it has. *)
From Verif Require Import GoStr GoMap FileModel FileSpec PoModel PoSpec MoModel CatModel.
Local Open Scope nat_scope.

Section Histories.
Context {A : Type}.
Implicit Types (os r : list (cop A)) (o : cop A).
(** the catalog a call reads, if it does and succeeds *)
Definition got o : option file :=
  match o with
  | CReadPo c => match read_po c with PoOk g => Some g | _ => None end
  | CReadPot c => match read_pot c with PoOk g => Some g | _ => None end
  | CReadMo c => match read_mo c with MoOk g => Some g | _ => None end
  | _ => None
  end.
(** the number of catalogs made *)
Definition makes o : nat :=
  match o with
  | CNew | CCopy (Some _) => 1
  | _ => match got o with Some _ => 1 | None => 0 end
  end.
Fixpoint cats os : nat := match os with [] => 0 | o :: r => cats r + makes o end.
(** the catalog a call is about *)
Definition about o : option (option nat) :=
  match o with
  | CAdd f _ | CHeader f _ | CLang f | CX f _ _ _ | CXn f _ _ _ _ _ | CSave f | CCopy f => Some f
  | _ => None
  end.
(** the program uses catalogs it made *)
Definition known (n : nat) (f : option nat) : Prop := match f with Some f => f < n | None => True end.
Definition cuses r o : Prop :=
  match o with
  | CAssign f h => known (cats r) f /\ known (cats r) h
  | _ => match about o with Some f => known (cats r) f | None => True end
  end.
Fixpoint cproper os : Prop := match os with [] => True | o :: r => cproper r /\ cuses r o end.
(** a nil catalog is used, or a nil entry is added *)
Definition nil_used o : Prop :=
  about o = Some None \/ (exists f, o = CAdd f None) \/ (exists h, o = CAssign None h) \/ (exists f, o = CAssign f None).

(** ** Tables.  A catalog has a table from the first time an entry is added to it; a copy has
    the table of the original, if that has one by then.  The name of a table is the number of
    calls before the one that made it. *)
Fixpoint table os (f : nat) : option nat :=
  match os with
  | [] => None
  | o :: r =>
      match o with
      | CNew => if f =? cats r then None else table r f
      | CAdd (Some g) _ => if f =? g then match table r f with Some t => Some t | None => Some (length r) end else table r f
      | CAssign (Some g) (Some h) => if f =? g then table r h else table r f
      | CCopy (Some h) => if f =? cats r then table r h else table r f
      | _ =>
          match got o with
          | Some g => if f =? cats r then match f_entries g with [] => None | _ => Some (length r) end else table r f
          | None => table r f
          end
      end
  end.
(** two catalogs share their entries *)
Definition shares os (f g : nat) : bool :=
  match table os f, table os g with Some t, Some u => t =? u | _, _ => false end.
(** the entry a catalog lists under a name: the last one of that name added to it, or to a
    catalog while that shared its entries *)
Fixpoint listed os (f : nat) (k : bytes) : option entry :=
  match os with
  | [] => None
  | o :: r =>
      match o with
      | CNew => if f =? cats r then None else listed r f k
      | CAdd (Some g) (Some e) => if shares os f g && beq k (joined (e_ctxt e) (e_id e)) then Some e else listed r f k
      | CAssign (Some g) (Some h) => if f =? g then listed r h k else listed r f k
      | CCopy (Some h) => if f =? cats r then listed r h k else listed r f k
      | _ =>
          match got o with
          | Some g => if f =? cats r then mget k (f_entries g) else listed r f k
          | None => listed r f k
          end
      end
  end.
(** ** Header fields *)
Definition head_text os (f : nat) : bytes := match listed os f (joined [] []) with Some e => e_str e | None => [] end.
(** the calls that need them *)
Definition needs r o (f : nat) : bool :=
  match o with
  | CHeader (Some g) _ | CLang (Some g) => f =? g
  | CAdd (Some g) (Some e) => (f =? g) && is_empty (e_id e)
  | CXn (Some g) c i _ _ _ =>
      (f =? g) && match listed r f (joined c i) with
                  | Some e => negb (is_empty (e_id2 e) && match e_strn e with [] => true | _ => false end)
                  | None => false
                  end
  | _ => false
  end.
(** the fields a catalog keeps from the first call that needed them on, its own or one of the
    catalog it was copied from; [None]: not needed yet *)
Fixpoint kept os (f : nat) : option (bytes -> option bytes) :=
  match os with
  | [] => None
  | o :: r =>
      let before := match kept r f with
                    | Some v => Some v
                    | None => if needs r o f then Some (header_value (head_text os f)) else None
                    end in
      match o with
      | CNew => if f =? cats r then None else before
      | CAssign (Some g) (Some h) => if f =? g then kept r h else before
      | CCopy (Some h) => if f =? cats r then kept r h else before
      | _ =>
          match got o with
          | Some g => if f =? cats r then match f_headers g with Some _ => Some (fun k => fst (get_header k g)) | None => None end else before
          | None => before
          end
      end
  end.
Definition field os (f : nat) (k : bytes) : option bytes :=
  match kept os f with Some v => v k | None => header_value (head_text os f) k end.

(** the calls that change what catalog [f] answers or keeps *)
Definition concerns r o (f : nat) : bool :=
  match o with
  | CAdd (Some g) (Some _) => shares (o :: r) f g
  | CAssign (Some g) (Some _) => f =? g
  | CHeader (Some g) _ | CLang (Some g) | CXn (Some g) _ _ _ _ _ => f =? g
  | _ => false
  end.
(** the calls that ask *)
Definition asks o : Prop :=
  match o with CHeader _ _ | CLang _ | CX _ _ _ _ | CXn _ _ _ _ _ _ | CSave _ => True | _ => False end.
(** ** Programs without copies *)
Definition plain os : Prop := forall o, In o os -> (forall h, o <> CCopy h) /\ (forall g h, o <> CAssign g h) /\ ~ nil_used o.
(** how catalog [f] began and the calls that concern it, the first one first *)
Definition act o (f : nat) : list (fop A) :=
  match o with
  | CAdd (Some g) (Some e) => if f =? g then [OAdd e] else []
  | CHeader (Some g) k => if f =? g then [OHeader k] else []
  | CLang (Some g) => if f =? g then [OLang] else []
  | CX (Some g) c i args => if f =? g then [OX c i args] else []
  | CXn (Some g) c i i2 n args => if f =? g then [OXn c i i2 n args] else []
  | _ => []
  end.
Fixpoint acts os (f : nat) : file * list (fop A) :=
  match os with
  | [] => (new_file, [])
  | o :: r =>
      match o, got o with
      | CNew, _ => if f =? cats r then (new_file, []) else acts r f
      | _, Some g => if f =? cats r then (g, []) else acts r f
      | _, None => (fst (acts r f), snd (acts r f) ++ act o f)
      end
  end.
(** ** Catalogs that no call tells apart *)
Definition same_catalog (fmt : bytes -> list A -> bytes) (f g : file) : Prop :=
  (forall c i args, f_x fmt f c i args = f_x fmt g c i args)
  /\ (forall c i i2 n args, fst (f_xn64 fmt f c i i2 n args) = fst (f_xn64 fmt g c i i2 n args))
  /\ (forall k, fst (get_header k f) = fst (get_header k g))
  /\ fst (lang f) = fst (lang g)
  /\ (forall isp out, saves_po isp f out <-> saves_po isp g out)
  /\ (forall isp out, saves_pot isp f out <-> saves_pot isp g out)
  /\ (forall out, saves_mo f out <-> saves_mo g out).
End Histories.
