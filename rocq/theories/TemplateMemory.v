(** Model of templates.go once more, this time with memory: pointers, slices and maps refer to
    memory that they may share, and what they refer to may lead back to them.  Go's stack grows
    without bound here; the recursion is counted by a fuel, and [None] means that it was used up.
    Simplified as in [Template.v], except for its first point. *)
From Verif Require Import Base GoPath Types Imports Conv World Template.

(** An address: an allocated value, and the fields and elements that lead into it. *)
Definition place := (nat * list nat)%type.
Inductive hval :=
| HIface (t : string) (dyn : option hval)
| HStruct (t : string) (fields : list (bool * hval))
| HPtr (e : gty) (target : option place)
| HSlice (t : string) (array : place) (off len : nat)   (* array[off:off+len] *)
| HArray (t : string) (elems : list hval)
| HMap (t : string) (table : option nat)
| HLeaf (v : val)                                       (* a value without parts of its own *)
| HZero (t : gty).                                      (* in fresh memory: not set yet *)
Record hmem := mkHMem { hcells : list hval; htables : list (list (hval * hval)) }.

(** The values [HLeaf] is for. *)
Definition leaf (v : val) : bool :=
  match v with
  | VIface _ _ | VStruct _ _ | VPtr _ _ | VSlice _ _ | VArray _ _ | VMap _ _ => false
  | _ => true
  end.
(** reflect.Value.Type *)
Definition htypeof (v : hval) : gty :=
  match v with
  | HIface t _ => GIface t
  | HStruct t _ | HSlice t _ _ _ | HArray t _ | HMap t _ => GName t
  | HPtr e _ => GPtr e
  | HLeaf v => typeof v
  | HZero t => t
  end.
(** reflect.Value.Elem of a pointer, Field and Index *)
Fixpoint inside (v : hval) (path : list nat) : option hval :=
  match path with
  | [] => Some v
  | k :: r =>
      match v with
      | HStruct _ fs => match nth_error fs k with Some f => inside (snd f) r | None => None end
      | HArray _ l => match nth_error l k with Some x => inside x r | None => None end
      | _ => None
      end
  end.
Definition load (m : hmem) (p : place) : option hval :=
  match nth_error (hcells m) (fst p) with Some v => inside v (snd p) | None => None end.
Definition slice_elems (m : hmem) (array : place) (off len : nat) : option (list hval) :=
  if Nat.eqb len 0 then Some []          (* a nil slice refers to nothing *)
  else match load m array with
       | Some (HArray _ l) => if Nat.leb (off + len) (List.length l) then Some (firstn len (skipn off l)) else None
       | _ => None
       end.

(** Computations on memory and imports; [None]: the recursion goes too deep. *)
Definition HM (A : Type) := hmem -> Imports -> option (res A * hmem * Imports).
Definition hret {A} (a : A) : HM A := fun m i => Some (Ok a, m, i).
Definition hpanic {A} (e : string) : HM A := fun m i => Some (Panic e, m, i).
Definition hbind {A B} (x : HM A) (k : A -> HM B) : HM B :=
  fun m i => match x m i with
             | Some (Ok a, m', i') => k a m' i'
             | Some (Panic e, m', i') => Some (Panic e, m', i')
             | None => None
             end.
Definition hdeep {A} : HM A := fun _ _ => None.
Definition imports_only {A} (x : IM A) : HM A := fun m i => let '(r, i') := x i in Some (r, m, i').
Definition hres {A} (r : res A) : HM A := fun m i => Some (r, m, i).
Notation "'dm' x <- m ;; k" := (hbind m (fun x => k))
  (at level 200, x name, m at level 100, k at level 200, right associativity).
Notation "'dm' ' p <- m ;; k" := (hbind m (fun x => match x with p => k end))
  (at level 200, p pattern, m at level 100, k at level 200, right associativity).
(** What Go's memory safety rules out. *)
Definition bad_memory := "invalid memory address".
Definition opt_res {A} (o : option A) : res A := match o with Some a => Ok a | None => Panic bad_memory end.
Definition hload (p : place) : HM hval := fun m i => Some (opt_res (load m p), m, i).
Definition helems (array : place) (off len : nat) : HM (list hval) := fun m i => Some (opt_res (slice_elems m array off len), m, i).
Definition hentries (table : nat) : HM (list (hval * hval)) := fun m i => Some (opt_res (nth_error (htables m) table), m, i).
(** reflect.New, reflect.MakeMap *)
Definition hnew (v : hval) : HM nat := fun m i => Some (Ok (List.length (hcells m)), mkHMem (hcells m ++ [v]) (htables m), i).
Definition hnew_map : HM nat := fun m i => Some (Ok (List.length (htables m)), mkHMem (hcells m) (htables m ++ [[]]), i).
Fixpoint put {A} (k : nat) (a : A) (l : list A) : list A :=
  match l, k with
  | [], _ => []
  | _ :: r, O => a :: r
  | x :: r, S k => x :: put k a r
  end.
Definition hwrite (n : nat) (v : hval) : HM unit := fun m i => Some (Ok tt, mkHMem (put n v (hcells m)) (htables m), i).

(** Go's == on map keys *)
Definition place_eqb (p q : place) : bool := Nat.eqb (fst p) (fst q) && (if list_eq_dec Nat.eq_dec (snd p) (snd q) then true else false).
Fixpoint hsame_key (a b : hval) : bool :=
  let all := fix all (l m : list hval) : bool :=
    match l, m with
    | [], [] => true
    | x :: l', y :: m' => hsame_key x y && all l' m'
    | _, _ => false
    end in
  match a, b with
  | HIface _ None, HIface _ None => true
  | HIface _ (Some x), HIface _ (Some y) => hsame_key x y
  | HStruct t l, HStruct u m =>
      String.eqb t u &&
      (fix go (l m : list (bool * hval)) : bool :=
         match l, m with
         | [], [] => true
         | (_, x) :: l', (_, y) :: m' => hsame_key x y && go l' m'
         | _, _ => false
         end) l m
  | HArray t l, HArray u m => String.eqb t u && all l m
  | HPtr e None, HPtr f None => gty_eqb e f
  | HPtr e (Some p), HPtr f (Some q) => gty_eqb e f && place_eqb p q
  | HLeaf v, HLeaf w => same_key v w
  | _, _ => false
  end.
Fixpoint hset_entry (k v : hval) (m : list (hval * hval)) : list (hval * hval) :=
  match m with
  | [] => [(k, v)]
  | (k', v') :: r => if hsame_key k k' then (k', v) :: r else (k', v') :: hset_entry k v r
  end.

Section TemplateMemory.
Variable implements : gty -> string -> bool.
Variable unsafe : bool.
Variable parent_of : spec -> res (option Package).

(** reflect.Value.Set: the value that a slot of type [t] gets *)
Definition hbox (t : gty) (new : hval) : hval :=
  match t with
  | GIface s => match new with HIface _ d => HIface s d | _ => HIface s (Some new) end
  | _ => new
  end.
Definition hassign (t : gty) (new : hval) : res hval :=
  if assignable implements (htypeof new) t then Ok (hbox t new) else Panic p_assign.
(** newStruct.Field(k).Set(v) *)
Definition set_field (n k : nat) (v : hval) : HM unit :=
  dm x <- hload (n, []) ;;
  match x with
  | HStruct t fs =>
      match nth_error fs k with
      | Some (true, slot) => dm y <- hres (hassign (htypeof slot) v) ;; hwrite n (HStruct t (put k (true, y) fs))
      | Some (false, _) => hpanic p_readonly
      | None => hpanic bad_memory
      end
  | _ => hpanic bad_memory
  end.
(** newArray.Index(k).Set(v) *)
Definition set_elem (n k : nat) (v : hval) : HM unit :=
  dm x <- hload (n, []) ;;
  match x with
  | HArray t l =>
      match nth_error l k with
      | Some slot => dm y <- hres (hassign (htypeof slot) v) ;; hwrite n (HArray t (put k y l))
      | None => hpanic bad_memory
      end
  | _ => hpanic bad_memory
  end.
(** newMap.SetMapIndex(k, v), the types of keys and values being [tk] and [tv] *)
Definition set_index (n : nat) (tk tv : gty) (k v : hval) : HM unit :=
  dm k' <- hres (hassign tk k) ;;
  dm v' <- hres (hassign tv v) ;;
  dm es <- hentries n ;;
  fun m i => Some (Ok tt, mkHMem (hcells m) (put n (hset_entry k' v' es) (htables m)), i).

(** templates.go:163-165, 191: what was read before the first change is copied *)
Fixpoint copy_with {A} (set : nat -> A -> HM unit) (k : nat) (l : list A) : HM unit :=
  match l with
  | [] => hret tt
  | a :: r => dm _ <- set k a ;; copy_with set (S k) r
  end.
(** the result of qualifyTemplateData: the value, where it is if it is addressable and new, and
    whether it is changed *)
Definition outcome := (hval * option nat * bool)%type.

Section Loops.
Variable rec : bool -> hval -> HM outcome.
(** templates.go:148-172; [all]: the fields of data, [l]: those from the [k]-th on *)
Definition hgetField (addr exported : bool) (x : hval) : HM outcome :=
  if exported then rec addr x
  else if unsafe then (if addr then rec addr x else hpanic p_unaddressable)
  else hret (x, None, false).
Fixpoint hfields_loop (t : string) (addr : bool) (all : list (bool * hval)) (k : nat) (l : list (bool * hval)) (new : option nat)
  : HM (option nat) :=
  match l with
  | [] => hret new
  | (exported, x) :: r =>
      dm '(x', _, c) <- hgetField addr exported x ;;
      match new with
      | Some n => dm _ <- set_field n k x' ;; hfields_loop t addr all (S k) r (Some n)
      | None =>
          if c : bool then
            dm n <- hnew (HStruct t (map (fun f => (fst f, HZero (htypeof (snd f)))) all)) ;;
            dm _ <- copy_with (fun j f => set_field n j (snd f)) 0 (firstn k all) ;;
            dm _ <- set_field n k x' ;;
            hfields_loop t addr all (S k) r (Some n)
          else hfields_loop t addr all (S k) r None
      end
  end.
(** templates.go:182-201; [ok]: the outcome of data.Slice(0, i) *)
Fixpoint helems_loop (t : string) (ok : res unit) (addr : bool) (all : list hval) (k : nat) (l : list hval) (new : option nat) : HM (option nat) :=
  match l with
  | [] => hret new
  | x :: r =>
      dm '(x', _, c) <- rec addr x ;;
      match new with
      | Some n => dm _ <- set_elem n k x' ;; helems_loop t ok addr all (S k) r (Some n)
      | None =>
          if c : bool then
            dm n <- hnew (HArray t (map (fun y => HZero (htypeof y)) all)) ;;
            dm _ <- hres ok ;;
            dm _ <- copy_with (set_elem n) 0 (firstn k all) ;;
            dm _ <- set_elem n k x' ;;
            helems_loop t ok addr all (S k) r (Some n)
          else helems_loop t ok addr all (S k) r None
      end
  end.
(** templates.go:203-226; [seen]: seenKeys, with their values *)
Fixpoint hmap_loop (l seen : list (hval * hval)) (new : option nat) : HM (option nat) :=
  match l with
  | [] => hret new
  | (k, x) :: r =>
      dm '(k', _, ck) <- rec false k ;;
      dm '(x', _, cx) <- rec false x ;;
      match new with
      | Some n => dm _ <- set_index n (htypeof k) (htypeof x) k' x' ;; hmap_loop r [] (Some n)
      | None =>
          if ck || cx then
            dm n <- hnew_map ;;
            dm _ <- copy_with (fun _ e => set_index n (htypeof (fst e)) (htypeof (snd e)) (fst e) (snd e)) 0 seen ;;
            dm _ <- set_index n (htypeof k) (htypeof x) k' x' ;;
            hmap_loop r [] (Some n)
          else hmap_loop r (seen ++ [(k, x)]) None
      end
  end.
End Loops.

(** A changed leaf is the element of a fresh pointer; a MethodReference for a go/types object is
    a pointer. *)
Definition new_leaf (x : val) : HM outcome := dm n <- hnew (HLeaf x) ;; hret (HLeaf x, Some n, true).
Definition new_reference (x : val) : HM outcome :=
  match x with
  | VPtr e (Some y) => dm n <- hnew (HLeaf y) ;; hret (HPtr e (Some (n, [])), None, true)
  | _ => hret (HLeaf x, None, true)
  end.

(** templates.go:8-230 qualifyTemplateData; what does not look at memory is as in [Template.v] *)
Fixpoint qualifyMemory (fuel : nat) (addr : bool) (v : hval) {struct fuel} : HM outcome :=
  match fuel with
  | O => hdeep
  | S fuel =>
      let rec := qualifyMemory fuel in
      let same := hret (v, None, false) in
      match v with
      | HIface t None => same
      | HIface t (Some d) =>
          match d with
          | HLeaf l =>
              match replacement implements t (VIface t (Some l)) l with
              | Some x => dm '(y, c) <- imports_only x ;; if c : bool then new_reference y else same
              | None => rec false d
              end
          | _ => rec false d
          end
      | HStruct t fs =>
          dm new <- hfields_loop rec t addr fs 0 fs None ;;
          match new with
          | Some n => dm x <- hload (n, []) ;; hret (x, Some n, true)
          | None => same
          end
      | HPtr e None => same
      | HPtr e (Some p) =>
          dm x <- hload p ;;
          dm '(x', at_, c) <- rec true x ;;
          if c : bool then
            match at_ with
            | Some n => hret (HPtr (htypeof x') (Some (n, [])), None, true)
            | None => dm n <- hnew x' ;; hret (HPtr (htypeof x') (Some (n, [])), None, true)
            end
          else same
      | HSlice t p off len =>
          dm l <- helems p off len ;;
          dm new <- helems_loop rec "" (Ok tt) true l 0 l None ;;
          match new with
          | Some n => hret (HSlice t (n, []) 0 len, None, true)
          | None => same
          end
      | HArray t l =>
          dm new <- helems_loop rec t (if addr then Ok tt else Panic p_slice) addr l 0 l None ;;
          match new with
          | Some n => dm x <- hload (n, []) ;; hret (x, Some n, true)
          | None => same
          end
      | HMap t None => same
      | HMap t (Some n) =>
          dm es <- hentries n ;;
          dm new <- hmap_loop rec es [] None ;;
          match new with
          | Some n => hret (HMap t (Some n), None, true)
          | None => same
          end
      | HLeaf l =>
          if leaf l then
            dm '(x, c) <- imports_only (qualifyTemplateData implements unsafe parent_of addr l) ;;
            if c : bool then new_leaf x else same
          else hpanic bad_memory
      | HZero _ => hpanic bad_memory
      end
  end.
(** imports.go:326-336 QualifyTemplateData *)
Definition hinterface_of (v : hval) : option hval := match v with HIface _ d => d | _ => Some v end.
Definition QualifyMemory (fuel : nat) (data : option hval) : HM (option hval) :=
  match data with
  | None => hret None
  | Some d =>
      dm '(v, _, _) <- qualifyMemory fuel true (HIface "interface {}" (Some d)) ;;
      hret (hinterface_of v)
  end.
End TemplateMemory.
