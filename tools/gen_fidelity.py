#!/usr/bin/env python3
"""Translate the numeric expectations of the repository's own unit tests
(/repo/ink_stroke_modeler/stroke_modeler_test.cc and
internal/prediction/kalman_predictor_test.cc) into Coq checks of the IEEE
instance of the model.  Output: rocq/theories/Fidelity.v."""
import re, struct, sys
from fractions import Fraction

SRC = '/repo/ink_stroke_modeler/stroke_modeler_test.cc'
KSRC = '/repo/ink_stroke_modeler/internal/prediction/kalman_predictor_test.cc'

def dy(x):
    """double -> (m, e) with x = m * 2^e"""
    fr = Fraction(x); n, d = fr.numerator, fr.denominator
    e = -(d.bit_length() - 1)
    return n, e
def f32(x):
    return struct.unpack('f', struct.pack('f', x))[0]
def zz(n): return f'({n})' if n < 0 else str(n)
def F(x):
    m, e = dy(f32(x)); return f'(b32 {zz(m)} {zz(e)})'
def D(x):
    m, e = dy(x); return f'(b64 {zz(m)} {zz(e)})'
def num(s):
    s = s.strip().rstrip('f')
    if '/' in s:
        a, b = s.split('/'); return num(a) / num(b)
    return float(s)
def V(p): return f'(mkVec2 {F(p[0])} {F(p[1])})'

def balanced(s, i, op, cl):
    """s[i] == op; return index after the matching close"""
    d = 0
    while True:
        if s[i] == op: d += 1
        if s[i] == cl:
            d -= 1
            if d == 0: return i + 1
        i += 1

def split_top(s):
    out, d, cur = [], 0, ''
    for ch in s:
        if ch in '({': d += 1
        if ch in ')}': d -= 1
        if ch == ',' and d == 0:
            out.append(cur.strip()); cur = ''
        else: cur += ch
    if cur.strip(): out.append(cur.strip())
    return out

def vec(s):
    s = s.strip(); assert s[0] == '{', s
    return [num(x) for x in s[1:-1].split(',')]
def timev(s, env):
    s = s.strip()
    m = re.match(r'Time\s*[({](.*)[)}]$', s)
    if m: return num(m.group(1))
    return env['time']

POS = ['position', 'velocity', 'acceleration', 'time', 'pressure', 'tilt', 'orientation']
def fields(body, env):
    d = dict(position=[0, 0], velocity=[0, 0], acceleration=[0, 0], time=0.0,
             pressure=-1.0, tilt=-1.0, orientation=-1.0)
    for k, item in enumerate(split_top(body)):
        m = re.match(r'\.(\w+)\s*=\s*(.*)$', item, re.S)
        name, val = (m.group(1), m.group(2)) if m else (POS[k], item)
        if name in ('position', 'velocity', 'acceleration'): d[name] = vec(val)
        elif name == 'time': d[name] = timev(val, env)
        elif name == 'event_type': d[name] = val.split('::')[-1]
        else: d[name] = num(val)
    return d

EV = {'kDown': 'EDown', 'kMove': 'EMove', 'kUp': 'EUp'}
def res(d):
    return (f'mkResult {V(d["position"])} {V(d["velocity"])} {V(d["acceleration"])} {D(d["time"])} '
            f'{F(d["pressure"])} {F(d["tilt"])} {F(d["orientation"])}')
def inp(d):
    return (f'(mkInput {EV[d["event_type"]]} {V(d["position"])} {D(d["time"])} '
            f'{F(d["pressure"])} {F(d["tilt"])} {F(d["orientation"])})')

def run_test(text):
    env = {'time': 0.0, 'dt': 0.0}
    m = re.search(r'kDeltaTime\{(.*?)\};', text)
    if m: env['dt'] = num(m.group(1))
    tok = re.compile(r'Time time\{(?P<t0>[^}]*)\};|time \+= kDeltaTime;|results\.clear\(\)|\.Update\(|modeler\.Predict\(results\)|modeler\.Save\(\)|modeler\.Restore\(\)|EXPECT_THAT\(results,')
    steps, i, cleared = [], 0, True
    while True:
        m = tok.search(text, i)
        if not m: break
        i = m.end(); t = m.group(0)
        if m.group('t0') is not None: env['time'] = num(m.group('t0'))
        elif t.startswith('time +='): env['time'] = env['time'] + env['dt']
        elif t.startswith('results'): steps.append(('clear',))
        elif t.startswith('.Update'):
            j = text.index('{', i); k = balanced(text, j, '{', '}')
            steps.append(('update', fields(text[j+1:k-1], env))); i = k
        elif 'Predict' in t:
            fail = text[:m.start()].rstrip().endswith('EXPECT_EQ(')
            steps.append(('predictfail' if fail else 'predict',))
        elif 'Save' in t: steps.append(('save',))
        elif 'Restore' in t: steps.append(('restore',))
        else:
            k = balanced(text, m.start() + len('EXPECT_THAT'), '(', ')')
            body = text[i:k-1]; i = k
            if 'IsEmpty' in body: steps.append(('expect', []))
            else:
                exp, p = [], 0
                while True:
                    q = body.find('ResultNear(', p)
                    if q < 0: break
                    j = body.index('{', q); e = balanced(body, j, '{', '}')
                    exp.append(fields(body[j+1:e-1], env)); p = e
                steps.append(('expect', exp))
    return steps

def emit(steps):
    """state machine: vector contents are tracked by the Coq checker"""
    out = []
    for s in steps:
        if s[0] == 'clear': out.append('TClear')
        elif s[0] == 'update': out.append('TUpdate ' + inp(s[1]))
        elif s[0] == 'predict': out.append('TPredict')
        elif s[0] == 'predictfail': out.append('TPredictFail')
        elif s[0] == 'save': out.append('TSave')
        elif s[0] == 'restore': out.append('TRestore')
        else: out.append('TExpect [' + ';\n   '.join(res(d) for d in s[1]) + ']')
    return '[' + ';\n  '.join(out) + ']'

text = open(SRC).read()
parts = re.split(r'\nTEST\(StrokeModelerTest,\s*(\w+)\)', text)
tests = dict(zip(parts[1::2], parts[2::2]))

def sampling(rate='180'):
    return f'(mkSamplingParams {D(float(rate))} {F(.001)} 20 100000 {D(-1.0)})'
WOB = lambda en='true': f'(mkWobbleParams {en} {D(.04)} {F(1.31)} {F(1.44)})'
LOOP0 = f'(mkLoopParams false {F(-1)} {F(-1)} {F(-1)} {F(-1)} {D(0.0)} (-1))'
LOOP1 = f'(mkLoopParams true {F(0)} {F(10)} {F(1)} {F(0)} {D(20.0)} 10)'
def posp(loop=LOOP0):
    return f'(mkPositionParams (fdiv (b32 11 0) (b32 32400 0) : float32) {F(72)} {loop})'
STY = f'(mkStylusParams 20 false (-1) {D(-1.0)})'
STYN = f'(mkStylusParams 20 true 10 {D(.334)})'
def params(w=None, loop=LOOP0, rate='180', sty=STY, pred='PredStrokeEnd'):
    return f'mkParams {w or WOB()} {posp(loop)} {sampling(rate)} {sty} {pred}'

CASES = [
 ('InputRateSlowerThanMinOutputRate', params()),
 ('InputRateSlowerThanMinOutputRateNormalProjection', params(sty=STYN)),
 ('InputRateSlowerThanMinOutputRateNormalProjectionWithLoopMitigation', params(sty=STYN, loop=LOOP1)),
 ('InputRateFasterThanMinOutputRate', params()),
 ('WobbleSmoothed', params()),
 ('WobbleNotSmoothedIfNotEnabled', params(w=WOB('false'))),
 ('AlternateParams', params(rate='70')),
 ('GenerateOutputOnTUpEvenIfNoTimeDelta', params()),
 ('SaveAndRestore', params()),
]

print('''(** * Conformance of the IEEE instance with the repository's own unit tests.

    GENERATED by tools/gen_fidelity.py from
    /repo/ink_stroke_modeler/stroke_modeler_test.cc and
    /repo/ink_stroke_modeler/internal/prediction/kalman_predictor_test.cc.
    These are tests of the model, not theorems: each [Goal] replays a unit test on
    the model by computation and checks every expected value within the tolerances
    of the C++ test (kTol = 1e-4, kAccelTol = 1e-3); the build fails if one does
    not hold. *)
From Coq Require Import ZArith Bool List.
From Flocq Require Import IEEE754.BinarySingleNaN.
From Verif Require Import Modeler Ieee.
Import ListNotations.
Open Scope Z_scope.

#[local] Instance test_arith : Arith := ieee (fun x => x).

Definition tol : float64 := %s.
Definition acc_tol : float64 := %s.
Definition dnear (t a b : float64) : bool := Bleb (Babs (Bminus mode_NE a b)) t.
Definition fnear (t : float64) (a b : float32) : bool := dnear t (b32_to_b64 a) (b32_to_b64 b).
Definition vnear (t : float64) (a b : Vec2) : bool :=
  fnear t (vx a) (vx b) && fnear t (vy a) (vy b).
Definition rnear (a b : Result) : bool :=
  vnear tol (r_pos a) (r_pos b) && vnear tol (r_vel a) (r_vel b) &&
  vnear acc_tol (r_acc a) (r_acc b) && dnear tol (r_time a) (r_time b) &&
  fnear tol (r_pressure a) (r_pressure b) && fnear tol (r_tilt a) (r_tilt b) &&
  fnear tol (r_orient a) (r_orient b).
Fixpoint all2 {X} (f : X -> X -> bool) (a b : list X) : bool :=
  match a, b with
  | [], [] => true
  | x :: a', y :: b' => f x y && all2 f a' b'
  | _, _ => false
  end.

Inductive tstep :=
| TClear | TUpdate (i : Input) | TPredict | TPredictFail | TSave | TRestore | TExpect (rs : list Result).

Fixpoint replay (m : Modeler) (vec : list Result) (ts : list tstep) : bool :=
  match ts with
  | [] => true
  | TClear :: r => replay m [] r
  | TUpdate i :: r =>
      match update 10 m i vec with
      | Ret (m', OkStatus, vec') => replay m' vec' r
      | _ => false
      end
  | TPredict :: r =>
      match predict 10 m vec with
      | Ret (m', OkStatus, vec') => replay m' vec' r
      | _ => false
      end
  | TPredictFail :: r =>
      match predict 10 m vec with
      | Ret (m', FailedPrecondition _, []) => replay m' [] r
      | _ => false
      end
  | TSave :: r => replay (save m) vec r
  | TRestore :: r => replay (restore m) vec r
  | TExpect rs :: r => all2 rnear vec rs && replay m vec r
  end.
Definition replay_test (p : StrokeModelParams) (ts : list tstep) : bool :=
  match reset_params modeler0 p with
  | (m, OkStatus) => replay m [] ts
  | _ => false
  end.
''' % (D(1e-4), D(1e-3)))
for name, p in CASES:
    st = run_test(tests[name])
    n_exp = sum(len(s[1]) for s in st if s[0] == 'expect')
    print(f'(** StrokeModelerTest.{name}: {n_exp} expected results. *)')
    print(f'Definition steps_{name} : list tstep :=\n  {emit(st)}.')
    print(f'Goal replay_test ({p}) steps_{name} = true.\nProof. vm_compute. reflexivity. Abort.\n')

# ---- Kalman predictor tests
ktext = open(KSRC).read()
kparts = re.split(r'\nTEST\(KalmanPredictorTest,\s*(\w+)\)', ktext)
ktests = dict(zip(kparts[1::2], kparts[2::2]))
CONF = f'(mkConfidenceParams 20 {F(.04)} {F(3)} {F(15)} {F(.2)} {F(.4)})'
def kparams(aw=.5, jw=.1, pi=1./60):
    return (f'(mkKalmanParams {D(.00026458)} {D(.026458)} 4 20 {F(.01)} {F(aw)} {F(jw)} {D(pi)} {CONF})')
print('''Inductive kstep :=
| KUpdate (p : Vec2) (t : float64) | KReset
| KEstimate (e : option (Vec2 * Vec2 * Vec2 * Vec2))
| KPredictAt (tip : TipState) (expected : list TipState).
Definition rel_near (a b : float32) : bool :=
  let t := tol in
  if Beqb a (b32 0 0) || Beqb b (b32 0 0) then fnear t a b
  else Bltb (Babs (Bminus mode_NE (b32_to_b64 (Bdiv mode_NE a b)) (b64 1 0))) t.
Definition vrel (a b : Vec2) : bool := rel_near (vx a) (vx b) && rel_near (vy a) (vy b).
Definition tnear (a b : TipState) : bool :=
  vnear tol (t_pos a) (t_pos b) && vnear tol (t_vel a) (t_vel b) &&
  vnear tol (t_acc a) (t_acc b) && dnear tol (t_time a) (t_time b).
Fixpoint kreplay (k : KPredictor) (ts : list kstep) : bool :=
  match ts with
  | [] => true
  | KUpdate p t :: r =>
      match kpred_update k p t with Ret k' => kreplay k' r | _ => false end
  | KReset :: r => kreplay (kpred_reset k) r
  | KEstimate None :: r => match kpred_estimate k with None => kreplay k r | _ => false end
  | KEstimate (Some (p, v, a, j)) :: r =>
      match kpred_estimate k with
      | Some e => vrel p (ke_pos e) && vrel v (ke_vel e) && vrel a (ke_acc e) && vrel j (ke_jerk e) && kreplay k r
      | None => false
      end
  | KPredictAt tip ex :: r =>
      match kpred_predict k tip with Ret l => all2 tnear l ex && kreplay k r | _ => false end
  end.
''')
def tip(body):
    d = fields(body, {'time': 0.0})
    return f'(mkTip {V(d["position"])} {V(d["velocity"])} {V(d["acceleration"])} {D(d["time"])})'
def krun(text):
    tok = re.compile(r'predictor\.Update\(|predictor\.Reset\(\)|EXPECT_EQ\(predictor\.GetEstimatedState\(\), std::nullopt\)|EXPECT_THAT\(predictor\.GetEstimatedState\(\),|predictor\.ConstructPrediction\(|EXPECT_THAT\(prediction,|EXPECT_TRUE\(prediction\.empty\(\)\)')
    out, i, pend = [], 0, None
    while True:
        m = tok.search(text, i)
        if not m: break
        i = m.end(); t = m.group(0)
        if t.startswith('predictor.Update'):
            k = balanced(text, i - 1, '(', ')'); a = split_top(text[i:k-1]); i = k
            out.append(f'KUpdate {V(vec(a[0]))} {D(timev(a[1], {}))}')
        elif 'Reset' in t: out.append('KReset')
        elif 'nullopt' in t: out.append('KEstimate None')
        elif 'GetEstimatedState' in t:
            q = text.index('StateNear(', i); k = balanced(text, q + 9, '(', ')')
            a = split_top(text[q+10:k-1]); i = k
            out.append('KEstimate (Some (' + ', '.join(V(vec(x)) for x in a[:4]) + '))')
        elif 'ConstructPrediction' in t:
            j = text.index('{', i); k = balanced(text, j, '{', '}'); pend = tip(text[j+1:k-1]); i = k
        elif 'empty' in t: out.append(f'KPredictAt {pend} []')
        else:
            k = balanced(text, m.start() + len('EXPECT_THAT'), '(', ')'); body = text[i:k-1]; i = k
            ex, p = [], 0
            while True:
                q = body.find('TipStateNear(', p)
                if q < 0: break
                j = body.index('{', q); e = balanced(body, j, '{', '}'); ex.append(tip(body[j+1:e-1])); p = e
            out.append(f'KPredictAt {pend} [' + ';\n   '.join(ex) + ']')
    return '[' + ';\n  '.join(out) + ']'
for name in sys.argv[1:] or ['EmptyPrediction', 'TypicalCase', 'AlternateParams', 'Reset']:
    print(f'(** KalmanPredictorTest.{name}. *)')
    alt = name == 'AlternateParams'
    print(f'Goal kreplay (kpred_new {kparams(pi=.025 if alt else 1./60)} {sampling("200" if alt else "180")})\n {krun(ktests[name])} = true.')
    print('Proof. vm_compute. reflexivity. Abort.\n')
