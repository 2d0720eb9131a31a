(* The priority queue of the sweep line, the support vector, the closest pair of two curves and the colour class: Model of
   /repo/mmcore/numeric/algorithms/sweep_line/priority_queue.py, /repo/mmcore/geom/vec/svm.py (lines 12-49),
   /repo/mmcore/numeric/intersection/ccx/ccd.py and /repo/mmcore/api/color.py.

   heapq is not part of the project; heappush and heappop are modelled by the algorithm of the standard library
   (_siftdown and _siftup).  Keys and coordinates are exact rationals, find_all_minima is a function argument. *)
From Coq Require Import List Arith ZArith Bool QArith Qcanon.
From Verif Require Import Common QcLib ListLib LuModel.
Import ListNotations.
Local Open Scope Qc_scope.

Section Queue.
(* what a node carries beside its key, priority_queue.py:5-8 *)
Variable V : Type.
(* priority_queue.py:5-8 QueueNode *)
Definition node := (Qc * V)%type.
(* priority_queue.py:12-13 QueueNode.__lt__ *)
Definition node_lt (a b : node) : bool := qlt (fst a) (fst b).
(* heapq._siftdown(heap, 0, pos) with newitem = x; the step heap[pos] = parent; for insert, priority_queue.py:46 *)
Fixpoint siftdown (fuel : nat) (heap : list node) (x : node) (pos : nat) : res (list node) :=
  match fuel with
  | O => Err OutOfFuel
  | S fuel' =>
      if (0 <? pos)%nat then
        let parentpos := ((pos - 1) / 2)%nat in
        do parent <- getR heap parentpos ;
        if node_lt x parent then do heap' <- wr heap pos parent ; siftdown fuel' heap' x parentpos
        else wr heap pos x
      else wr heap pos x
  end.
(* the loop of heapq._siftup: the smaller child moves up; the heap and the place left free; for delMin, priority_queue.py:68 *)
Fixpoint siftup (fuel : nat) (heap : list node) (pos : nat) : res (list node * nat) :=
  match fuel with
  | O => Err OutOfFuel
  | S fuel' =>
      let childpos := (2 * pos + 1)%nat in
      if (childpos <? length heap)%nat then
        do a <- getR heap childpos ;
        let rightpos := (childpos + 1)%nat in
        do c <- (if (rightpos <? length heap)%nat then do b <- getR heap rightpos ; Ok (if node_lt a b then childpos else rightpos) else Ok childpos) ;
        do v <- getR heap c ;
        do heap' <- wr heap pos v ;
        siftup fuel' heap' c
      else Ok (heap, pos)
  end.
(* heapq.heappush, priority_queue.py:46 *)
Definition heappush (heap : list node) (x : node) : res (list node) := siftdown (length heap + 1) (heap ++ [x]) x (length heap).
(* heapq.heappop, priority_queue.py:68 *)
Definition heappop (heap : list node) : res (node * list node) :=
  match rev heap with
  | [] => Err IndexError
  | lastelt :: _ =>
      let heap := removelast heap in
      match heap with
      | [] => Ok (lastelt, [])
      | top :: _ =>
          do heap' <- wr heap 0 lastelt ;
          do (h, pos) <- siftup (length heap') heap' 0 ;
          do h1 <- wr h pos lastelt ;
          do h2 <- siftdown (length h1) h1 lastelt pos ;
          Ok (top, h2)
      end
  end.
(* priority_queue.py:40-47 insert *)
Definition insert (q : list node) (key : Qc) (v : V) : res (list node * node) := do q' <- heappush q (key, v) ; Ok (q', (key, v)).
(* priority_queue.py:51-59 min *)
Definition qmin (q : list node) : option node := match q with [] => None | x :: _ => Some x end.
(* priority_queue.py:61-68 delMin *)
Definition delMin (q : list node) : res (node * list node) := heappop q.
(* priority_queue.py:70-74 size *)
Definition qsize (q : list node) : nat := length q.
(* priority_queue.py:78-83 empty *)
Definition qempty (q : list node) : bool := match q with [] => true | _ => false end.
(* calls of a program on one queue: insert and delMin; priority_queue.py:40-68 *)
Inductive call := CInsert (key : Qc) (v : V) | CDelMin.
(* a run: the queue and the nodes that delMin returned, last first; priority_queue.py:40-68 *)
Fixpoint run (q : list node) (out : list node) (calls : list call) : res (list node * list node) :=
  match calls with
  | [] => Ok (q, out)
  | CInsert k v :: r => do (q', _) <- insert q k v ; run q' out r
  | CDelMin :: r => do (x, q') <- delMin q ; run q' (x :: out) r
  end.
End Queue.

(* dot of two vectors, svm.py:43 *)
Definition vdot (a b : list Qc) : Qc := fold_right Qcplus 0 (map (fun p => fst p * snd p) (combine a b)).
(* svm.py:42-49, the loop of support_vector *)
Fixpoint support_loop (d : list Qc) (vertices : list (list Qc)) (highest : Qc) (support : list Qc) : list Qc :=
  match vertices with
  | [] => support
  | v :: r => if qlt highest (vdot v d) then support_loop d r (vdot v d) v else support_loop d r highest support
  end.
(* svm.py:12-49 support_vector; `lowest` is -sys.float_info.max *)
Definition support_vector (lowest : Qc) (vertices : list (list Qc)) (d : list Qc) : list Qc := support_loop d vertices lowest (repeat 0 (length d)).

(* ccd.py:41-46 ccd: the squared distance given to find_all_minima *)
Definition ccd_fun (c1 c2 : Qc -> list Qc) (t s : Qc) : Qc := let d := map (fun p => fst p - snd p) (combine (c1 t) (c2 s)) in vdot d d.
(* ccd.py:5-46 ccd *)
Definition ccd (minima : (Qc -> Qc -> Qc) -> list (Qc * Qc * Qc)) (c1 c2 : Qc -> list Qc) : list (Qc * Qc * Qc) := minima (ccd_fun c1 c2).
(* Python's min(l, key=...), ccd.py:80 *)
Fixpoint min_by (best : Qc * Qc * Qc) (l : list (Qc * Qc * Qc)) : Qc * Qc * Qc :=
  match l with [] => best | x :: r => min_by (if qlt (snd x) (snd best) then x else best) r end.
(* ccd.py:49-80 proximity_points_curve_curve *)
Definition proximity_points (minima : (Qc -> Qc -> Qc) -> list (Qc * Qc * Qc)) (c1 c2 : Qc -> list Qc) : res (Qc * Qc * Qc) :=
  match ccd minima c1 c2 with [] => Err ValueError | x :: r => Ok (min_by x r) end.

(* color.py:6-18, a Color carries nothing *)
Inductive color := Color.
(* color.py:20-30 Color.create *)
Definition color_create (red green blue opacity : Z) : color := Color.
(* color.py:32-42 get_color *)
Definition get_color (c : color) : bool * Z * Z * Z * Z := (false, 0, 0, 0, 0)%Z.
(* color.py:44-55 set_color: the colour afterwards and the value *)
Definition set_color (c : color) (red green blue opacity : Z) : color * bool := (c, false).
(* color.py:57-109 the properties red, green, blue, opacity *)
Definition get_component (c : color) : Z := 0%Z.
Definition set_component (c : color) (v : Z) : color := c.
