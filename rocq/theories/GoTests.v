(* Small Go programs, as text, and what the Go specification says they compute.
   They are read by GoParse.v and GoElab.v and run by GoLang.v, the same
   definitions that read and run the files of /repo: tests of the reading of Go
   that C61 and C63 to C71 rest on, not proofs about it. *)
From Verif Require Import GoBase Cnf GoLang GoParse GoElab GoText.
Local Open Scope string_scope.
Local Open Scope Z_scope.
Local Open Scope list_scope.

(* The value of t.F() in the package of the given lines. *)
Definition go (body : list string) : option (res (list val)) :=
  match translate [("t.go", lines ("package t" :: "" :: body))] with
  | Some (fs, gs, em) => Some (fst (call_func (mkProgram fs em (init_globals gs)) 60 "t.F" [] []))
  | None => None
  end.
Definition ints (l : list Z) : option (res (list val)) := Some (Ok (map VInt l)).
Definition strs (l : list string) : option (res (list val)) := Some (Ok (map VStr l)).

(* ---- lexical matters ---- *)

(* semicolons after identifiers, literals, return, break, continue, ++ and closing
   brackets; none after an operator, a comma or an opening bracket *)
Example test_semicolons :
  go ["func F() int {"; "	x :="; "		1 +"; "			2"; "	x++"; "	y := []int{"; "		x,"; "		x,"; "	}"; "	for {"; "		x++"; "		if x > 7 {"; "			break"; "		}"; "		continue"; "	}"; "	return x + len("; "		y,"; "	)"; "}"] = ints [10] /\
  go ["func set(p *int) {"; "	*p = 1"; "	if *p == 1 {"; "		return"; "	}"; "	*p = 2"; "}"; "";
      "func F() int { var x int; set(&x); return x }"] = ints [1] /\
  go ["func set(p *int) {"; "	if *p == 0 {"; "		return"; "	}"; "	*p = 2"; "}"; "";
      "func F() int {"; "	var x int"; "	set(&x)"; "	return x"; "}"] = ints [0].
Proof. vm_compute. repeat split. Qed.

(* comments and strings *)
Example test_strings :
  go ["func F() (string, string, int) { // two // comments"; "	s := ""a // b"""; "	return s, ""x\ty\n\\\""z"", len(s) // the end"; "}"]
  = Some (Ok [VStr "a // b"; VStr ("x	y" ++ newline ++ "\""z")%string; VInt 6]).
Proof. vm_compute. repeat split. Qed.

(* ---- expressions ---- *)

(* || below && below comparison below + below *; operators of a level from the left *)
Example test_precedence :
  go ["func F() (int, int, int, int, int) {"; "	return 10 - 3 - 2, 2 + 3*4, (2 + 3) * 4, -2 * 3, 2 * -3 + 1"; "}"] = ints [5; 14; 20; -6; -5] /\
  go ["func F() (bool, bool, bool, bool) {"; "	t, f := true, false"; "	return t || f && f, (t || f) && f, !f && f, 1+1 == 2 && 3 > 2"; "}"]
    = Some (Ok [VBool true; VBool false; VBool false; VBool true]).
Proof. vm_compute. repeat split. Qed.

(* && and || do not evaluate more than they need *)
Example test_short_circuit :
  go ["func tick(p *int) bool {"; "	*p += 1"; "	return true"; "}"; "";
      "func F() int {"; "	var n int"; "	if false && tick(&n) {"; "		n = 10"; "	}"; "	if true || tick(&n) {"; "		n += 100"; "	}"; "	if tick(&n) && tick(&n) {"; "		n += 1000"; "	}"; "	return n"; "}"] = ints [1102] /\
  go ["func F() int {"; "	var s []int"; "	if len(s) == 0 || s[0] == 1 {"; "		return 5"; "	}"; "	return 6"; "}"] = ints [5].
Proof. vm_compute. repeat split. Qed.

(* operands and arguments are evaluated from the left; the right-hand sides of an
   assignment all before any of the left *)
Example test_order :
  go ["func put(p *[]int, x int) int {"; "	*p = append(*p, x)"; "	return x"; "}"; "";
      "func three(a, b, c int) int { return a*100 + b*10 + c }"; "";
      "func F() (int, []int) {"; "	var l []int"; "	r := three(put(&l, 1), put(&l, 2)+put(&l, 3), put(&l, 4))"; "	return r, l"; "}"]
    = Some (Ok [VInt 154; VLst (map VInt [1; 2; 3; 4])]) /\
  go ["func F() (int, int, int) {"; "	a, b, c := 1, 2, 3"; "	a, b, c = b, c, a"; "	return a, b, c"; "}"] = ints [2; 3; 1].
Proof. vm_compute. repeat split. Qed.

(* ---- variables and blocks ---- *)

(* := in an inner block declares a new variable, = assigns the outer one; with
   several names := reuses those of the same block *)
Example test_shadowing :
  go ["func F() (int, int) {"; "	x, y := 1, 1"; "	if true {"; "		x := 5"; "		x++"; "		y = x"; "	}"; "	return x, y"; "}"] = ints [1; 6] /\
  go ["func two() (int, int) { return 8, 9 }"; "";
      "func F() (int, int, int) {"; "	x := 1"; "	for i := 0; i < 3; i++ {"; "		x := x + i"; "		_ = x"; "	}"; "	x, y := two()"; "	z, y := two()"; "	return x, y, z"; "}"] = ints [8; 9; 8] /\
  go ["func two() (int, int) { return 8, 9 }"; "";
      "func F() int {"; "	x := 1"; "	if x, y := two(); y == 9 {"; "		return x"; "	} else if x == 8 {"; "		return 0"; "	}"; "	return x"; "}"] = ints [8] /\
  go ["func two() (int, int) { return 8, 9 }"; "";
      "func F() int {"; "	x := 1"; "	if x, y := two(); y != 9 {"; "		return x"; "	} else if x == 8 {"; "		return 7"; "	}"; "	return x"; "}"] = ints [7].
Proof. vm_compute. repeat split. Qed.

(* zero values *)
Example test_zero :
  go ["type P struct {"; "	n int"; "	s string"; "	b bool"; "	l []int"; "	q *P"; "}"; "";
      "func F() (int, string, bool, int, bool) {"; "	var p P"; "	var e error"; "	return p.n, p.s, p.b, len(p.l), p.q == nil && e == nil"; "}"]
    = Some (Ok [VInt 0; VStr ""; VBool false; VInt 0; VBool true]) /\
  go ["func F() (x int, s string, err error) {"; "	return"; "}"] = Some (Ok [VInt 0; VStr ""; VNil]).
Proof. vm_compute. repeat split. Qed.

(* ---- statements ---- *)

(* break and continue: the innermost loop *)
Example test_loops :
  go ["func F() (int, int) {"; "	n, m := 0, 0"; "	for i := 0; i < 4; i++ {"; "		if i == 1 {"; "			continue"; "		}"; "		for j := 0; j < 4; j++ {"; "			if j > i {"; "				break"; "			}"; "			n++"; "		}"; "		m += i"; "	}"; "	return n, m"; "}"] = ints [8; 5] /\
  go ["func F() int {"; "	n := 100"; "	for n > 10 {"; "		n -= 30"; "	}"; "	return n"; "}"] = ints [10] /\
  go ["func F() (int, int) {"; "	i := 5"; "	s := 0"; "	for i := 0; i < 3; i++ {"; "		s += i"; "	}"; "	return i, s"; "}"] = ints [5; 3].
Proof. vm_compute. repeat split. Qed.

(* range: the slice is evaluated once; key alone, value alone, neither *)
Example test_range :
  go ["func F() (int, int) {"; "	l := []int{1, 2, 3}"; "	s := 0"; "	for i, x := range l {"; "		if i == 0 {"; "			l = append(l, 50)"; "		}"; "		s += x * i"; "	}"; "	return s, len(l)"; "}"] = ints [8; 4] /\
  go ["func F() (int, int, int) {"; "	a, b, c := 0, 0, 0"; "	l := []int{7, 8}"; "	for i := range l {"; "		a += i"; "	}"; "	for _, x := range l {"; "		b += x"; "		x = 0"; "	}"; "	for range l {"; "		c++"; "	}"; "	return a, b, c + l[0]"; "}"] = ints [1; 15; 9] /\
  go ["func F() int {"; "	for i, x := range []int{4, 6, 8} {"; "		if x == 6 {"; "			return i"; "		}"; "	}"; "	return -1"; "}"] = ints [1].
Proof. vm_compute. repeat split. Qed.

(* switch: the first case that fits, no falling through, default wherever it is *)
Definition switch (x : string) : list string :=
  ["func f(x int) int {"; "	switch x {"; "	case 1, 2:"; "		x = 20"; "	case 3:"; "	case 20:"; "		return 1"; "	default:"; "		return 2"; "	}"; "	return x"; "}"; "";
   ("func F() int { return f(" ++ x ++ ") }")%string].
Example test_switch : go (switch "1") = ints [20] /\ go (switch "2") = ints [20] /\ go (switch "3") = ints [3] /\ go (switch "20") = ints [1] /\ go (switch "0") = ints [2].
Proof. vm_compute. repeat split. Qed.

(* ---- functions ---- *)

(* parameters are copies; results with names; functions as values *)
Example test_functions :
  go ["func f(x int) int {"; "	x++"; "	return x"; "}"; ""; "func F() (int, int) {"; "	x := 1"; "	y := f(x)"; "	return x, y"; "}"] = ints [1; 2] /\
  go ["func f(x int) (r int, err error) {"; "	r = x"; "	if x > 3 {"; "		return 9, nil"; "	}"; "	return"; "}"; "";
      "func F() (int, int) {"; "	a, _ := f(2)"; "	b, err := f(5)"; "	if err != nil {"; "		return 0, 0"; "	}"; "	return a, b"; "}"] = ints [2; 9] /\
  go ["func sum(k int, xs ...int) int {"; "	for _, x := range xs {"; "		k += x"; "	}"; "	return k"; "}"; "";
      "func F() (int, int, int) {"; "	l := []int{4, 5}"; "	return sum(1), sum(1, 2, 3), sum(1, l...)"; "}"] = ints [1; 6; 10] /\
  go ["func fac(n int) int {"; "	if n == 0 {"; "		return 1"; "	}"; "	return n * fac(n-1)"; "}"; ""; "func F() int { return fac(5) }"] = ints [120].
Proof. vm_compute. repeat split. Qed.

(* defers run last to first, after the results are set, and may change them *)
Example test_defer :
  go ["func F() (r int, err error) {"; "	defer func() {"; "		r = r * 2"; "	}()"; "	defer func() {"; "		r = r + 3"; "	}()"; "	r = 100"; "	return 1, nil"; "}"]
    = Some (Ok [VInt 8; VNil]) /\
  go ["func f(p *int) (r int, err error) {"; "	if *p == 1 {"; "		return 5, nil"; "	}"; "	defer func() {"; "		*p = 7"; "	}()"; "	return *p, nil"; "}"; "";
      "func F() (int, int, int) {"; "	var x int"; "	a, _ := f(&x)"; "	y := x"; "	x = 1"; "	b, _ := f(&x)"; "	return a*10 + b, y, x"; "}"] = ints [5; 7; 1].
Proof. vm_compute. repeat split. Qed.

(* ---- structs, pointers and methods ---- *)

(* structs are copied; a method with a pointer receiver changes the variable, one
   with a value receiver its copy *)
Example test_structs :
  go ["type P struct{ a, b int }"; ""; "func F() (int, int, int) {"; "	p := P{1, 2}"; "	q := p"; "	q.a = 10"; "	p.b = 20"; "	return p.a, p.b, q.a + q.b"; "}"] = ints [1; 20; 12] /\
  go ["type P struct{ a, b int }"; ""; "func (p *P) inc() { p.a++ }"; ""; "func (p P) twice() int {"; "	p.a = 2 * p.a"; "	return p.a"; "}"; "";
      "func (p *P) both() int {"; "	p.inc()"; "	p.inc()"; "	return p.a"; "}"; "";
      "func F() (int, int) {"; "	p := P{a: 3}"; "	r := p.both()"; "	return r + p.twice(), p.a"; "}"] = ints [15; 5] /\
  go ["func swap(p, q *int) { *p, *q = *q, *p }"; ""; "func F() (int, int) {"; "	var x, y int"; "	x = 1"; "	swap(&x, &y)"; "	r := &x"; "	*r += 5"; "	return x, y"; "}"] = ints [5; 1].
Proof. vm_compute. repeat split. Qed.

(* interfaces: the method of the value inside; embedded structs lend their methods *)
Example test_interfaces :
  go ["type A struct{ k int }"; ""; "type B struct{}"; ""; "type I interface {"; "	Get(x int) int"; "}"; ""; "func (a A) Get(x int) int { return a.k + x }"; "";
      "func (b B) Get(x int) int { return -x }"; ""; "func all(l ...I) int {"; "	s := 1"; "	for _, i := range l {"; "		s = s*10 + i.Get(2)"; "	}"; "	return s"; "}"; "";
      "func F() int { return all(A{1}, B{}, A{k: 4}) }"] = ints [1286] /\
  go ["type base struct{ n int }"; ""; "func (b base) Size() int { return b.n }"; ""; "type outer struct {"; "	base"; "	m int"; "}"; "";
      "func (o outer) Both() int { return o.Size()*10 + o.m }"; ""; "func F() (int, int) {"; "	o := outer{base: base{3}, m: 4}"; "	return o.Both(), o.Size()"; "}"] = ints [34; 3].
Proof. vm_compute. repeat split. Qed.

(* a nil pointer or interface has no methods, an index out of range no element *)
Example test_panics :
  go ["func F() int {"; "	l := []int{1}"; "	return l[1]"; "}"] = Some Panic /\
  go ["func F() int {"; "	l := []int{1}"; "	i := -1"; "	return l[i]"; "}"] = Some Panic /\
  go ["type I interface {"; "	Get() int"; "}"; ""; "func F() int {"; "	var i I"; "	return i.Get()"; "}"] = Some Panic /\
  go ["func F() int {"; "	l := []int{1, 2, 3}"; "	k := 4"; "	return len(l[k:])"; "}"] = Some Panic.
Proof. vm_compute. repeat split. Qed.

(* ---- slices and maps ---- *)

Example test_slices :
  go ["func F() ([]int, int, int) {"; "	l := []int{1, 2, 3, 4}"; "	a := l[1:3]"; "	b := append(l[:1], a...)"; "	return b, len(l[2:]), l[len(l)-1]"; "}"]
    = Some (Ok [VLst (map VInt [1; 2; 3]); VInt 2; VInt 4]) /\
  go ["func F() ([]int, int) {"; "	l := make([]int, 3)"; "	l[1] = 5"; "	copy(l, []int{8})"; "	return l, len(l)"; "}"] = Some (Ok [VLst (map VInt [8; 5; 0]); VInt 3]) /\
  go ["func F() []int {"; "	var l [][]int"; "	l = append(l, []int{1}, []int{2, 3})"; "	l[0] = append(l[0], 7)"; "	return append(l[0], l[1]...)"; "}"] = Some (Ok [VLst (map VInt [1; 7; 2; 3])]).
Proof. vm_compute. repeat split. Qed.

Example test_maps :
  go ["func F() (int, int, bool, bool, bool) {"; "	m := make(map[string]int)"; "	m[""a""] = 1"; "	m[""b""] = 2"; "	m[""a""] = 3"; "	_, ok1 := m[""c""]"; "	x, ok2 := m[""a""]"; "	delete(m, ""a"")"; "	_, ok3 := m[""a""]"; "	return x, m[""b""], ok1, ok2, ok3"; "}"]
    = Some (Ok [VInt 3; VInt 2; VBool false; VBool true; VBool false]) /\
  go ["func F() (bool, bool) {"; "	m := make(map[int]bool)"; "	m[4] = true"; "	return m[4], m[5]"; "}"] = Some (Ok [VBool true; VBool false]).
Proof. vm_compute. repeat split. Qed.

(* ---- the packages of Go used in the text ---- *)

Definition std (imports : list string) (body : list string) : option (res (list val)) :=
  go (map (fun i => "import """ ++ i ++ """")%string imports ++ body).
Example test_std :
  std ["strconv"] ["func F() (string, string, int, bool) {"; "	n, err := strconv.Atoi(""-42"")"; "	return strconv.Itoa(120), strconv.Itoa(-7), n, err == nil"; "}"]
    = Some (Ok [VStr "120"; VStr "-7"; VInt (-42); VBool true]) /\
  std ["strconv"] ["func F() (bool, bool) {"; "	_, e1 := strconv.Atoi("""")"; "	_, e2 := strconv.Atoi(""4x"")"; "	return e1 == nil, e2 == nil"; "}"] = Some (Ok [VBool false; VBool false]) /\
  std ["errors"; "fmt"] ["var E = errors.New(""e"")"; ""; "func F() (bool, bool, bool, string) {"; "	w := fmt.Errorf(""w: %w"", E)"; "	j := errors.Join(nil, w)"; "	return errors.Is(w, E), errors.Is(j, E), errors.Is(errors.New(""e""), E), fmt.Sprintf(""%s-%d"", ""a"", 3)"; "}"]
    = Some (Ok [VBool true; VBool true; VBool false; VStr "a-3"]).
Proof. vm_compute. repeat split. Qed.

(* errors are known by identity, not by their text *)
Example test_errors :
  std ["errors"; "fmt"] ["var E = errors.New(""e"")"; ""; "var G = errors.New(""e"")"; ""; "func F() (bool, bool, bool, bool) {"; "	w := fmt.Errorf(""w: %w"", E)"; "	return errors.Is(w, E), errors.Is(w, G), E == nil, nil != G"; "}"]
    = Some (Ok (map VBool [true; false; false; true])).
Proof. vm_compute. repeat split. Qed.

(* ---- more of the same, after wrong versions of GoLang.v passed the tests above ---- *)

(* more on statements: continue in range, scopes of if, blocks, statements after return,
   several assignments to one place, goto, loops that only return ends *)
Example test_statements :
  go ["func F() int {"; "	s := 0"; "	for _, x := range []int{1, 2, 3} {"; "		if x == 2 {"; "			continue"; "		}"; "		s += x"; "	}"; "	return s"; "}"] = ints [4] /\
  go ["func F() int {"; "	x := 1"; "	if x := 2; x == 2 {"; "		x++"; "	}"; "	return x"; "}"] = ints [1] /\
  go ["func F() int {"; "	x := 1"; "	{"; "		x := 2"; "		x++"; "	}"; "	return x"; "}"] = ints [1] /\
  go ["func F() (r int) {"; "	r = 3"; "	return"; "	r = 4"; "}"] = ints [3] /\
  go ["func F() (int, int) {"; "	x := 0"; "	x, x = 1, 2"; "	l := []int{0}"; "	l[0], l[0] = 3, 4"; "	return x, l[0]"; "}"] = ints [2; 4] /\
  go ["func F() int {"; "	n := 0"; "	if n == 0 {"; "		goto end"; "	}"; "	n = 5"; "	n = 6"; "	n += 2"; "end:"; "	n += 1"; "	return n"; "}"] = ints [1] /\
  go ["func f() (s string) {"; "	for i := 0; i < 3; i++ {"; "		s += ""a"""; "		if i == 1 {"; "			break"; "		}"; "	}"; "	for {"; "		s += ""b"""; "		if len(s) > 4 {"; "			return"; "		}"; "	}"; "}"; ""; "func F() string { return f() }"] = strs ["aabbb"] /\
  go ["func f(l [][]int) int {"; "	for i, r := range l {"; "		for j, x := range r {"; "			if x == 0 {"; "				break"; "			}"; "			if x < 0 {"; "				return 10*i + j"; "			}"; "		}"; "	}"; "	return 99"; "}"; ""; "func F() (int, int) {"; "	return f([][]int{{1, 0, -1}, {2, -1}}), f([][]int{{}, {0}})"; "}"] = ints [11; 99].
Proof. vm_compute. repeat split. Qed.

(* receivers that are no variables; embedded structs changed by promoted methods *)
Example test_receivers :
  go ["type P struct{ a int }"; ""; "func (p P) get() int { return p.a }"; ""; "func mk() P { return P{4} }"; ""; "func F() int { return mk().get() }"] = ints [4] /\
  go ["type base struct{ n int }"; ""; "func (b *base) inc() { b.n++ }"; ""; "func (b base) get() int { return b.n }"; ""; "type outer struct {"; "	base"; "}"; ""; "func F() int {"; "	var o outer"; "	o.inc()"; "	o.inc()"; "	return o.get()"; "}"] = ints [2].
Proof. vm_compute. repeat split. Qed.

(* lengths and pointers that are no good *)
Example test_more_panics :
  go ["func F() int {"; "	n := -1"; "	return len(make([]int, n))"; "}"] = Some Panic /\
  go ["func F() int {"; "	var p *int"; "	*p = 1"; "	return 0"; "}"] = Some Panic /\
  go ["func F() int {"; "	s := ""ab"""; "	i := 2"; "	return int(s[i])"; "}"] = Some Panic.
Proof. vm_compute. repeat split. Qed.

(* comparison of numbers, joining strings, comparison of structs *)
Example test_operators :
  go ["func F() (bool, bool, bool, bool, bool, bool) {"; "	a, b := 1, 1"; "	return a <= b, a >= b, a < b, a > b, a <= b-1, a >= b+1"; "}"] = Some (Ok (map VBool [true; true; false; false; false; false])) /\
  go ["func F() string {"; "	s := ""a"" + ""b"""; "	s += ""c"""; "	return s + s"; "}"] = strs ["abcabc"] /\
  go ["type K struct {"; "	a int"; "	s string"; "}"; ""; "func F() (bool, bool, bool) {"; "	k := K{1, ""x""}"; "	return k == K{1, ""x""}, k == K{2, ""x""}, k == K{1, ""y""}"; "}"] = Some (Ok (map VBool [true; false; false])) /\
  go ["type K struct {"; "	a int"; "	s string"; "}"; ""; "func F() (int, bool) {"; "	m := make(map[K]int)"; "	m[K{1, ""x""}] = 5"; "	m[K{1, ""y""}] = 6"; "	m[K{1, ""x""}] = 7"; "	_, ok := m[K{2, ""x""}]"; "	return m[K{1, ""x""}]*10 + len(m), ok"; "}"] = Some (Ok [VInt 72; VBool false]).
Proof. vm_compute. repeat split. Qed.

(* tests of the type inside an interface, structs without names, constants that count *)
Example test_types :
  go ["type I interface {"; "	Get() int"; "}"; ""; "type A struct{}"; ""; "type B struct{}"; ""; "func (a A) Get() int { return 1 }"; ""; "func (b B) Get() int { return 2 }"; ""; "func is(i I) bool {"; "	_, ok := i.(A)"; "	return ok"; "}"; ""; "func F() (bool, bool) { return is(A{}), is(B{}) }"] = Some (Ok (map VBool [true; false])) /\
  go ["const ("; "	A = iota"; "	B"; "	C"; ")"; ""; "var G = 40"; ""; "func F() (int, int, int, int) { return A, B, C, G + 2 }"] = ints [0; 1; 2; 42] /\
  go ["type T struct {"; "	v struct {"; "		x int"; "		b bool"; "	}"; "	l []struct{ k int }"; "}"; ""; "func F() (int, bool) {"; "	var t T"; "	t.v.x = 3"; "	l := make([]struct{ k int }, 2)"; "	l[1].k = 4"; "	return t.v.x + l[0].k + l[1].k, t.v.b"; "}"] = Some (Ok [VInt 7; VBool false]).
Proof. vm_compute. repeat split. Qed.

(* switch without a value, several results at once, maps of numbers, empty slices *)
Example test_conditions :
  go ["func F() (int, int) {"; "	m := make(map[string]int)"; "	m[""a""]++"; "	m[""a""] += 2"; "	return m[""a""], m[""b""]"; "}"] = ints [3; 0] /\
  go ["func f(x int, y bool) (r int) {"; "	switch {"; "	case x > 5 && y:"; "		r = 1"; "	case x > 5:"; "		r = 2"; "		if y {"; "			r = 9"; "		}"; "	default:"; "		r = 3"; "	}"; "	return"; "}"; ""; "func F() (int, int, int) { return f(6, true), f(6, false), f(5, true) }"] = ints [1; 2; 3] /\
  go ["func f(a int, b string, c int) (int, string) { return a - c, b }"; ""; "func F() (int, string) { return f(5, ""x"", 3) }"] = Some (Ok [VInt 2; VStr "x"]) /\
  go ["func F() (int, int) {"; "	m := make(map[int]int)"; "	m[1] = 10"; "	m[2] = 20"; "	k, s := 0, 0"; "	for i, x := range m {"; "		k += i"; "		s += x"; "	}"; "	return k, s"; "}"] = ints [3; 30] /\
  go ["func F() (int, bool) {"; "	l := []int{1, 2, 3}"; "	var n []int"; "	return len(l[1:2]) + len(l[:0]) + len(n[:]), l[1:][0] == 2"; "}"] = Some (Ok [VInt 1; VBool true]).
Proof. vm_compute. repeat split. Qed.

(* ---- what the reading refuses ---- *)

(* Nothing is claimed of programs that are not read (None) or that get stuck: errors
   compared with ==, fields of embedded structs by their short name, division, block
   comments. *)
Example test_refused :
  std ["errors"] ["var E = errors.New(""e"")"; ""; "func F() bool { return E == E }"] = Some stuck /\
  go ["type base struct{ n int }"; ""; "type outer struct {"; "	base"; "}"; ""; "func F() int {"; "	var o outer"; "	return o.n"; "}"] = Some stuck /\
  go ["func F() int { return 7 / 2 }"] = None /\
  go ["/* a comment */"; "func F() int { return 7 }"] = None.
Proof. vm_compute. repeat split. Qed.

(* ---- where the reading differs from Go ---- *)

(* Slices are values here, while in Go two slices may share an array: this function
   returns 5 in Go.  C71 lists every place of the repository that writes into a
   slice. *)
Example test_sharing_differs : go ["func F() int {"; "	a := []int{1}"; "	b := a"; "	b[0] = 5"; "	return a[0]"; "}"] = ints [1].
Proof. vm_compute. repeat split. Qed.
