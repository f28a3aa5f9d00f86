(** The templates of the generated files, as data of [Template.node].
    Transcribed from cvxpygen/templates by Jinja's rules for the options in utils.py 19-25: [lstrip_blocks] drops the
    blanks before a block tag that begins its line, [trim_blocks] the newline after a block tag, [keep_trailing_newline]
    keeps the last newline.  No text is left out. *)

From Coq Require Import String List.
From Verif Require Import Template.
Import ListNotations.
Open Scope string_scope.
Open Scope list_scope.

(** templates/CMakeLists.txt.jinja2 1-101. *)
Definition cmake_t : list node :=
 [Txt "
# Auto-generated by CVXPYgen ";
 Out (Nm "date");
 Txt ".
# Content: Instructions for build file generation.

cmake_minimum_required (VERSION 3.5)

project (cvxpygen)
";
 For ["defn"] "cmake_definitions" ([Out (Nm "defn");
 Txt "
"]);
 Txt "
";
 For ["package"] "packages" ([Txt "find_package(";
 Out (Nm "package");
 Txt " REQUIRED)
"]);
 Txt "
# compiler configuration
if (NOT ${CMAKE_SYSTEM_NAME} STREQUAL ""Windows"")
    set (CMAKE_C_FLAGS ""${CMAKE_C_FLAGS} -O3"")
    set (CMAKE_C_FLAGS_DEBUG ""${CMAKE_C_FLAGS_DEBUG} -O0 -g"")
    set (CMAKE_C_STANDARD_LIBRARIES ""${CMAKE_C_STANDARD_LIBRARIES} -lm"")
endif()
if(${CMAKE_SYSTEM_NAME} STREQUAL ""Darwin"" AND ${CMAKE_SYSTEM_PROCESSOR} STREQUAL ""arm64"")
    message(STATUS ""Apple Silicon detected: Configuring build for arm64"")
    set(ARM64 TRUE)
else()
    set(ARM64 FALSE)
endif()
set (CMAKE_POSITION_INDEPENDENT_CODE ON)  # -fPIC
set (LIBRARY_OUTPUT_PATH ${PROJECT_BINARY_DIR}/out)

# subdirectory with canonical solver code
add_subdirectory (solver_code)
";
 If (Nm "gradient_two_stage") ([Txt "add_subdirectory (osqp_code)
"]) ([]);
 Txt "
# list with all directories including header files, passed to parent scope
list (APPEND
      ";
 Out (Nm "prefix");
 Txt "cpg_include
      ${CMAKE_CURRENT_SOURCE_DIR}/include
      ";
 Out (Nm "solver_code_cmake_include_dir");
 Txt "
";
 For ["d"] "extra_cmake_include_dirs" ([Txt "      ";
 Out (Nm "d");
 Txt "
"]);
 Txt ")
set (";
 Out (Nm "prefix");
 Txt "cpg_include ""$";
 Out (Str "{");
 Out (Nm "prefix");
 Txt "cpg_include}"" PARENT_SCOPE)

# list with all header files, passed to parent scope
list (APPEND
      ";
 Out (Nm "prefix");
 Txt "cpg_head
      ${CMAKE_CURRENT_SOURCE_DIR}/include/cpg_workspace.h
      ${CMAKE_CURRENT_SOURCE_DIR}/include/cpg_solve.h
";
 If (Nm "gradient") ([Txt "      ${CMAKE_CURRENT_SOURCE_DIR}/include/cpg_gradient.h
";
 If (Not (Nm "explicit")) ([Txt "      ${CMAKE_CURRENT_SOURCE_DIR}/include/cpg_osqp_grad_compute.h
      ${CMAKE_CURRENT_SOURCE_DIR}/include/cpg_osqp_grad_workspace.h
";
 If (Nm "gradient_two_stage") ([Txt "      ${CMAKE_CURRENT_SOURCE_DIR}/include/cpg_gradient_workspace.h
      ${osqp_head}
"]) ([])]) ([])]) ([]);
 Txt "      ${solver_head}
)
set (";
 Out (Nm "prefix");
 Txt "cpg_head ""$";
 Out (Str "{");
 Out (Nm "prefix");
 Txt "cpg_head}"" PARENT_SCOPE)

# list with all source files, passed to parent scope
list (APPEND
      ";
 Out (Nm "prefix");
 Txt "cpg_src
      ${CMAKE_CURRENT_SOURCE_DIR}/src/cpg_workspace.c
      ${CMAKE_CURRENT_SOURCE_DIR}/src/cpg_solve.c
";
 If (Nm "gradient") ([Txt "      ${CMAKE_CURRENT_SOURCE_DIR}/src/cpg_gradient.c
";
 If (Not (Nm "explicit")) ([Txt "      ${CMAKE_CURRENT_SOURCE_DIR}/src/cpg_osqp_grad_compute.c
      ${CMAKE_CURRENT_SOURCE_DIR}/src/cpg_osqp_grad_workspace.c
";
 If (Nm "gradient_two_stage") ([Txt "      ${CMAKE_CURRENT_SOURCE_DIR}/src/cpg_gradient_workspace.c
      ${osqp_src}
"]) ([])]) ([])]) ([]);
 Txt "      ${solver_src}
)
set (";
 Out (Nm "prefix");
 Txt "cpg_src ""$";
 Out (Str "{");
 Out (Nm "prefix");
 Txt "cpg_src}"" PARENT_SCOPE)

# directories including header files
include_directories ($";
 Out (Str "{");
 Out (Nm "prefix");
 Txt "cpg_include})

# example executable target
add_executable (cpg_example $";
 Out (Str "{");
 Out (Nm "prefix");
 Txt "cpg_head} $";
 Out (Str "{");
 Out (Nm "prefix");
 Txt "cpg_src} ${CMAKE_CURRENT_SOURCE_DIR}/src/cpg_example.c)
";
 For ["lib"] "cmake_target_link_libs" ([Txt "target_link_libraries(cpg_example ";
 Out (Nm "lib");
 Txt ")
"]);
 Txt "
# static library target for python extension module
add_library (cpg STATIC $";
 Out (Str "{");
 Out (Nm "prefix");
 Txt "cpg_head} $";
 Out (Str "{");
 Out (Nm "prefix");
 Txt "cpg_src})
";
 For ["lib"] "cmake_target_link_libs" ([Txt "target_link_libraries(cpg ";
 Out (Nm "lib");
 Txt ")
"])].

(** templates/setup.py.jinja2 1-132. *)
Definition setup_t : list node :=
 [Txt "
""""""
Auto-generated by CVXPYgen ";
 Out (Nm "date");
 Txt ".
Content: Setuptools for compilation of Python wrapper.
""""""

import os
import sys
from glob import glob
from platform import system
from subprocess import call, check_output
from setuptools import setup, Extension
from setuptools.command.build_ext import build_ext


class get_pybind_include(object):

    def __init__(self, user=False):
        try:
            import pybind11
        except ImportError:
            raise RuntimeError(""pybind11 must be installed."")
        self.user = user

    def __str__(self):
        import pybind11
        return pybind11.get_include(self.user)


# Add parameters to cmake_args and define_macros
cmake_args = ['-DCMAKE_POSITION_INDEPENDENT_CODE=ON', '-Wno-dev']
if system() == 'Windows':
    cmake_args.append('-DCMAKE_PREFIX_PATH=C:/vcpkg/packages/eigen3_x64-windows/share/eigen3')
    # try to find installation of Visual Studio and set as CMake generator, otherwise let CMake choose default generator
    vs_versions = []
    vswhere_exe = 'C:\\Program Files (x86)\\Microsoft Visual Studio\\Installer\\vswhere.exe'
    if os.path.isfile(vswhere_exe):
        out = check_output(vswhere_exe)
        out = out.decode('utf-8')
        out = out.splitlines()
        for line in out:
            if 'installationName: VisualStudio' in line:
                line_split = line.split('/')
                vs_versions.append(int(line_split[1][:2]))
    if len(vs_versions) > 0:
        cmake_args += ['-G', 'Visual Studio %d' % max(vs_versions)]
    if sys.maxsize // 2 ** 32 > 0:
        cmake_args += ['-A', 'x64']
    else:
        cmake_args += ['-A', 'x86']
    cmake_build_flags = ['--config', 'Release']
    extra_compile_args = []
    lib_subdir = ['Release']
    lib_name = 'cpg.lib'
";
 If (Nm "extra_lib_names_windows") ([Txt "    ";
 Out (Nm "extra_lib_names_windows");
 Txt "
"]) ([]);
 Txt "elif system() == 'Linux' or system() == 'Darwin':
    cmake_args += ['-G', 'Unix Makefiles']
    cmake_build_flags = []
    extra_compile_args = ['-std=c++11', '-O3']
    lib_subdir = []
    lib_name = 'libcpg.a'
";
 If (Nm "extra_lib_names_unix") ([Txt "    ";
 Out (Nm "extra_lib_names_unix");
 Txt "
"]) ([]);
 Txt "else:
    raise OSError('Unknown operating system!')

# Compile CPG using CMake
current_dir = os.getcwd()
cpg_dir = os.path.join(current_dir, 'c',)
cpg_build_dir = os.path.join(cpg_dir, 'build')
cpg_lib = [cpg_build_dir, 'out'] + lib_subdir + [lib_name]
cpg_lib = os.path.join(*cpg_lib)


class build_ext_cpg(build_ext):
    def build_extensions(self):

        # Create build directory
        if not os.path.exists(cpg_build_dir):
            os.makedirs(cpg_build_dir)
        os.chdir(cpg_build_dir)

        try:
            check_output(['cmake', '--version'])
        except OSError:
            raise RuntimeError(""CMake must be installed."")

        # Compile static library with CMake
        call(['cmake'] + cmake_args + ['..'])
        call(['cmake', '--build', '.', '--target', 'cpg'] + cmake_build_flags)

        # Change directory back to the python interface
        os.chdir(current_dir)

        # Run extension
        build_ext.build_extensions(self)


cpg = Extension('cpg_module',
                sources=glob(os.path.join('cpp', 'src', '*.cpp')),
                include_dirs=['c',
                              os.path.join('cpp', 'include'),
";
 For ["d"] "extra_cpp_include_dirs" ([Txt "                              ";
 Out (Nm "d");
 Txt ",
"]);
 Txt "                              ";
 Out (Nm "solver_code_include_dir");
 Txt ",
";
 For ["d"] "extra_solver_include_dirs" ([Txt "                              ";
 Out (Nm "d");
 Txt ",
"]);
 Txt "                              get_pybind_include(),
                              get_pybind_include(user=False)],
                language='c++',
                extra_compile_args=extra_compile_args,
                extra_objects=[cpg_lib";
 For ["obj"] "extra_objects" ([Txt ", ";
 Out (Nm "obj")]);
 Txt "])


setup(name='cpg_module',
      description='Python wrapper around C/C++ code generated by CVXPYGEN',
      long_description='Python wrapper around C/C++ code generated by CVXPYGEN',
      long_description_content_type='text/markdown',
      package_dir={'cpg': 'module'},
      include_package_data=False,
      setup_requires=[""setuptools>=18.0"", ""pybind11""],
      install_requires=[""cvxpy >= 1.1"", ""numpy >= 1.7"", ""scipy >= 0.13.2""],
      license='";
 Out (Nm "license");
 Txt "',
      url=""https://github.com/cvxgrp/codegen"",
      cmdclass={'build_ext': build_ext_cpg},
      ext_modules=[cpg],
      )
"].

(** templates/cpg_example.c.jinja2 1-88. *)
Definition example_t : list node :=
 [Txt "
/*
Auto-generated by CVXPYgen ";
 Out (Nm "date");
 Txt ".
Content: Example program for updating parameters, solving, and inspecting the result.
*/

#include <stdio.h>
#include ""cpg_workspace.h""
#include ""cpg_solve.h""
";
 If (Nm "gradient") ([Txt "#include ""cpg_gradient.h""
"]) ([]);
 Txt "
static int i;

int main(int argc, char *argv[]){

  // Update first entry of every user-defined parameter
";
 For ["name"; "is_scalar"; "val_str"] "writable_params" ([If (Nm "is_scalar") ([Txt "  ";
 Out (Nm "prefix");
 Txt "cpg_update_";
 Out (Nm "name");
 Txt "(";
 Out (Nm "val_str");
 Txt ");
"]) ([Txt "  ";
 Out (Nm "prefix");
 Txt "cpg_update_";
 Out (Nm "name");
 Txt "(0, ";
 Out (Nm "val_str");
 Txt ");
"])]);
 Txt "
  // Solve the problem instance
  ";
 Out (Nm "prefix");
 Txt "cpg_solve();

";
 If (Not (Nm "explicit")) ([Txt "  // Print objective function value
  printf(""obj = %f\n"", ";
 Out (Nm "prefix");
 Txt "CPG_Result.info->obj_val);

"]) ([]);
 Txt "  // Print primal solution
";
 For ["name"; "size"] "prim_name_to_size" ([If (Eq (Nm "size") (Num 1)) ([Txt "  printf(""";
 Out (Nm "name");
 Txt " = %f\n"", ";
 Out (Nm "prefix");
 Txt "CPG_Result.prim->";
 Out (Nm "name");
 Txt ");
"]) ([Txt "  for(i=0; i<";
 Out (Nm "size");
 Txt "; i++) {
    printf(""";
 Out (Nm "name");
 Txt "[%d] = %f\n"", i, ";
 Out (Nm "prefix");
 Txt "CPG_Result.prim->";
 Out (Nm "name");
 Txt "[i]);
  }
"])]);
 Txt "
";
 If (Ne (Nm "explicit") (Num 1)) ([If (Nm "dual_name_to_size") ([Txt "  // Print dual solution
"]) ([]);
 For ["name"; "size"] "dual_name_to_size" ([If (Eq (Nm "size") (Num 1)) ([Txt "  printf(""";
 Out (Nm "name");
 Txt " = %f\n"", ";
 Out (Nm "prefix");
 Txt "CPG_Result.dual->";
 Out (Nm "name");
 Txt ");
"]) ([Txt "  for(i=0; i<";
 Out (Nm "size");
 Txt "; i++) {
    printf(""";
 Out (Nm "name");
 Txt "[%d] = %f\n"", i, ";
 Out (Nm "prefix");
 Txt "CPG_Result.dual->";
 Out (Nm "name");
 Txt "[i]);
  }
"])])]) ([]);
 Txt "
";
 If (Nm "gradient") ([Txt "  // Update first entry of every user-defined solution gradient
";
 For ["name"; "size"] "prim_name_to_size" ([If (Eq (Nm "size") (Num 1)) ([Txt "  ";
 Out (Nm "prefix");
 Txt "cpg_update_d";
 Out (Nm "name");
 Txt "(CPG_Result.prim->";
 Out (Nm "name");
 Txt "[i] / 10.0);
"]) ([Txt "  ";
 Out (Nm "prefix");
 Txt "cpg_update_d";
 Out (Nm "name");
 Txt "(0, CPG_Result.prim->";
 Out (Nm "name");
 Txt "[0] / 10.0);
"])]);
 Txt "
  // Compute the gradient
  ";
 Out (Nm "prefix");
 Txt "cpg_gradient();

  // Print gradient
";
 For ["name"; "size"] "param_name_to_size" ([If (Eq (Nm "size") (Num 1)) ([Txt "  printf(""d";
 Out (Nm "name");
 Txt " = %f\n"", ";
 Out (Nm "prefix");
 Txt "CPG_Delta.";
 Out (Nm "name");
 Txt "[0]);
"]) ([Txt "  for(i=0; i<";
 Out (Nm "size");
 Txt "; i++) {
    printf(""d";
 Out (Nm "name");
 Txt "[%d] = %f\n"", i, ";
 Out (Nm "prefix");
 Txt "CPG_Delta.";
 Out (Nm "name");
 Txt "[i]);
  }
"])])]) ([]);
 Txt "
  return 0;

}
"].

(** templates/cpg_module.hpp.jinja2 1-102. *)
Definition hpp_t : list node :=
 [Txt "
/*
Auto-generated by CVXPYgen ";
 Out (Nm "date");
 Txt ".
Content: Declarations for Python binding with pybind11.
*/

#include <array>

// User-defined parameters
struct ";
 Out (Nm "prefix");
 Txt "CPG_Params_cpp_t {
";
 For ["name"; "size"] "params" ([Txt "    ";
 Out (Cond (Cat (Cat (Str "std::array<double, ") (Nm "size")) (Str ">")) (Gt (Nm "size") (Num 1)) (Str "double"));
 Txt " ";
 Out (Nm "name");
 Txt ";
"]);
 Txt "};

// Flags for updated user-defined parameters
struct ";
 Out (Nm "prefix");
 Txt "CPG_Updated_cpp_t {
";
 For ["name"] "param_names" ([Txt "    bool ";
 Out (Nm "name");
 Txt ";
"]);
 Txt "};

// Primal solution
struct ";
 Out (Nm "prefix");
 Txt "CPG_Prim_cpp_t {
";
 For ["name"; "size"] "prim_vars" ([Txt "    ";
 Out (Cond (Cat (Cat (Str "std::array<double, ") (Nm "size")) (Str ">")) (Gt (Nm "size") (Num 1)) (Str "double"));
 Txt " ";
 Out (Nm "name");
 Txt ";
"]);
 Txt "};

";
 If (Ne (Nm "explicit") (Num 1)) ([If (Nm "dual_vars") ([Txt "// Dual solution
struct ";
 Out (Nm "prefix");
 Txt "CPG_Dual_cpp_t {
";
 For ["name"; "size"] "dual_vars" ([Txt "    ";
 Out (Cond (Cat (Cat (Str "std::array<double, ") (Nm "size")) (Str ">")) (Gt (Nm "size") (Num 1)) (Str "double"));
 Txt " ";
 Out (Nm "name");
 Txt ";
"]);
 Txt "};

"]) ([]);
 If (And (Nm "gradient") (Not (Nm "explicit"))) ([Txt "// Gradient standard form solution
struct ";
 Out (Nm "prefix");
 Txt "CPG_GSol_cpp_t {
    std::array<double, ";
 Out (Nm "n_grad_var");
 Txt "> primal;
    std::array<double, ";
 Out (Nm "n_grad_constr");
 Txt "> dual;
};

"]) ([])]) ([]);
 Txt "// Solver information
struct ";
 Out (Nm "prefix");
 Txt "CPG_Info_cpp_t {
";
 If (Not (Nm "explicit")) ([Txt "    double obj_val;
    int iter;
    ";
 Out (Cond (Str "int") (Nm "status_is_int") (Str "char*"));
 Txt " status;
    double pri_res;
    double dua_res;
"]) ([]);
 Txt "    double time;
";
 If (Nm "gradient") ([If (Nm "explicit") ([Txt "    int region;
"]) ([Txt "    std::array<double, ";
 Out (Nm "n_grad_var");
 Txt "> gradient_primal;
    std::array<double, ";
 Out (Nm "n_grad_constr");
 Txt "> gradient_dual;
"])]) ([]);
 Txt "};

// Solution and solver information
struct ";
 Out (Nm "prefix");
 Txt "CPG_Result_cpp_t {
    ";
 Out (Nm "prefix");
 Txt "CPG_Prim_cpp_t prim;
";
 If (And (Ne (Nm "explicit") (Num 1)) (Nm "dual_vars")) ([Txt "    ";
 Out (Nm "prefix");
 Txt "CPG_Dual_cpp_t dual;
"]) ([]);
 Txt "    ";
 Out (Nm "prefix");
 Txt "CPG_Info_cpp_t info;
};

// Main solve function
";
 Out (Nm "prefix");
 Txt "CPG_Result_cpp_t ";
 Out (Nm "prefix");
 Txt "solve_cpp(struct ";
 Out (Nm "prefix");
 Txt "CPG_Updated_cpp_t& CPG_Updated_cpp, struct ";
 Out (Nm "prefix");
 Txt "CPG_Params_cpp_t& CPG_Params_cpp);

";
 If (Nm "gradient") ([Txt "// Primal variable deltas
struct ";
 Out (Nm "prefix");
 Txt "CPG_VDelta_cpp_t {
";
 For ["name"; "size"] "prim_vars" ([Txt "    ";
 Out (Cond (Cat (Cat (Str "std::array<double, ") (Nm "size")) (Str ">")) (Gt (Nm "size") (Num 1)) (Str "double"));
 Txt " ";
 Out (Nm "name");
 Txt ";
"]);
 Txt "};

// Parameter deltas
struct ";
 Out (Nm "prefix");
 Txt "CPG_PDelta_cpp_t {
";
 For ["name"; "size"] "params" ([Txt "    ";
 Out (Cond (Cat (Cat (Str "std::array<double, ") (Nm "size")) (Str ">")) (Gt (Nm "size") (Num 1)) (Str "double"));
 Txt " ";
 Out (Nm "name");
 Txt ";
"]);
 Txt "};

// Derivative function
";
 If (Nm "explicit") ([Out (Nm "prefix");
 Txt "CPG_PDelta_cpp_t ";
 Out (Nm "prefix");
 Txt "gradient_cpp(struct ";
 Out (Nm "prefix");
 Txt "CPG_VDelta_cpp_t& CPG_VDelta_cpp, int region, bool use_sol);
"]) ([Out (Nm "prefix");
 Txt "CPG_PDelta_cpp_t ";
 Out (Nm "prefix");
 Txt "gradient_cpp(struct ";
 Out (Nm "prefix");
 Txt "CPG_VDelta_cpp_t& CPG_VDelta_cpp, struct ";
 Out (Nm "prefix");
 Txt "CPG_GSol_cpp_t& CPG_GSol_cpp, bool use_sol);
"])]) ([])].

(** templates/cpg_solver.py.jinja2 1-214. *)
Definition solver_t : list node :=
 [Txt "
""""""
Auto-generated by CVXPYgen ";
 Out (Nm "date");
 Txt ".
Content: Custom solve method for CVXPY interface.
""""""

import time
import warnings
import numpy as np
from cvxpy.reductions import Solution
from cvxpy.problems.problem import SolverStats
from ";
 Out (Nm "code_dir_module");
 Txt " import cpg_module


standard_settings_names = ";
 Out (Nm "stgs_translation");
 Txt "


def squeeze_scalar(val):
    if isinstance(val, np.ndarray):
        val = val.squeeze()
        if val.shape == ():
            return val.item()
    return val


def get_param_value(param):
    if param.size == 1:
        return squeeze_scalar(param.value)
    elif param.attributes[""diag""]:
        return list(np.diag(param.value))
    elif param._has_dim_reducing_attr:
        return list(param.value_sparse.data)
    else:
        return list(param.value.flatten(order=""F""))


";
 If (Nm "gradient") ([Txt "def cpg_solve_and_gradient_info(prob, updated_params=None, **kwargs):
"]) ([Txt "def cpg_solve(prob, updated_params=None, **kwargs):
"]);
 Txt "
    # set flags for updated parameters
    upd = cpg_module.";
 Out (Nm "prefix");
 Txt "cpg_updated()
    if updated_params is None:
        updated_params = [";
 Out (Nm "param_names_quoted");
 Txt "]
    for p in updated_params:
        try:
            setattr(upd, p, True)
        except AttributeError:
            raise AttributeError(f""{p} is not a parameter."")

";
 If (Not (Nm "explicit")) ([Txt "    # set solver settings
    cpg_module.set_solver_default_settings()
    for key, value in kwargs.items():
        try:
            eval(f'cpg_module.set_solver_{standard_settings_names.get(key, key)}(value)')
        except AttributeError:
            raise AttributeError(f'Solver setting ""{key}"" not available.')

"]) ([]);
 Txt "    # set parameter values
    par = cpg_module.";
 Out (Nm "prefix");
 Txt "cpg_params()
    param_dict = prob.param_dict
";
 For ["name"] "param_names" ([Txt "    par.";
 Out (Nm "name");
 Txt " = get_param_value(param_dict[""";
 Out (Nm "name");
 Txt """])
"]);
 Txt "
    # solve
    t0 = time.time()
    res = cpg_module.solve(upd, par)
    t1 = time.time()

    # store solution in problem object
    prob._clear_solution()
";
 For ["name"; "shape"] "var_name_to_shape" ([Txt "    prob.var_dict['";
 Out (Nm "name");
 Txt "'].save_value(np.array(res.cpg_prim.";
 Out (Nm "name");
 Txt ").reshape(";
 Out (Nm "shape");
 Txt ", order='F'))
"]);
 Txt "
";
 If (Ne (Nm "explicit") (Num 1)) ([For ["i"; "name"; "shape"; "reshape_str"] "dual_save_list" ([Txt "    prob.constraints[";
 Out (Nm "i");
 Txt "].save_dual_value(np.array(res.cpg_dual.";
 Out (Nm "name");
 Txt ")";
 Out (Nm "reshape_str");
 Txt ")
"])]) ([]);
 Txt "
";
 If (Nm "explicit") ([Txt "    return res.cpg_info.time";
 If (Nm "gradient") ([Txt ", res.cpg_info.region"]) ([]);
 Txt "

"]) ([Txt "    # store additional solver information in problem object
";
 If (Nm "status_is_int") ([Txt "    prob._status = """;
 Out (Nm "status_int_fmt");
 Txt """ % res.cpg_info.status
"]) ([Txt "    prob._status = res.cpg_info.status
"]);
 Txt "    if abs(res.cpg_info.obj_val) == 1e30:
        prob._value = np.sign(res.cpg_info.obj_val) * np.inf
    else:
        prob._value = res.cpg_info.obj_val
    primal_vars = {var.id: var.value for var in prob.variables()}
    dual_vars = {c.id: c.dual_value for c in prob.constraints}
    solver_specific_stats = {'obj_val': res.cpg_info.obj_val,
                             'status': prob._status,
                             'iter': res.cpg_info.iter,
                             'pri_res': res.cpg_info.pri_res,
                             'dua_res': res.cpg_info.dua_res,
                             'time': res.cpg_info.time}
    attr = {'solve_time': t1 - t0, 'solver_specific_stats': solver_specific_stats, 'num_iters': res.cpg_info.iter}
    prob._solution = Solution(prob.status, prob.value, primal_vars, dual_vars, attr)
    results_dict = {'solver_specific_stats': solver_specific_stats,
                    'num_iters': res.cpg_info.iter,
                    'solve_time': t1 - t0}
    prob._solver_stats = SolverStats.from_dict(results_dict, '";
 Out (Nm "solver_name");
 Txt "')

    return prob.value";
 If (Nm "gradient") ([Txt ", res.cpg_info.gradient_primal, res.cpg_info.gradient_dual"]) ([]);
 Txt "

"]);
 If (Nm "gradient") ([Txt "def cpg_solve(prob, updated_params=None, **kwargs):

";
 If (Nm "explicit") ([Txt "    val, _ = cpg_solve_and_gradient_info(prob, updated_params, **kwargs)
"]) ([Txt "    val, _, _ = cpg_solve_and_gradient_info(prob, updated_params, **kwargs)
"]);
 Txt "    return val


";
 If (Nm "explicit") ([Txt "def cpg_gradient(prob, region=None):
"]) ([Txt "def cpg_gradient(prob, gradient_sol_primal=None, gradient_sol_dual=None):
"]);
 Txt "
    # set solution info if provided
";
 If (Nm "explicit") ([Txt "    if region is not None:
        use_sol = True
    else:
        region = 0
        use_sol = False
"]) ([Txt "    gradient_sol = cpg_module.";
 Out (Nm "prefix");
 Txt "cpg_gsol()
    if gradient_sol_primal is not None and gradient_sol_dual is not None:
        gradient_sol.primal = list(gradient_sol_primal)
        gradient_sol.dual = list(gradient_sol_dual)
        use_sol = True
    else:
        gradient_sol.primal = [0] * ";
 Out (Nm "n_grad_var");
 Txt "
        gradient_sol.dual = [0] * ";
 Out (Nm "n_grad_constr");
 Txt "
        use_sol = False
"]);
 Txt "
    # set variable deltas
    vdelta = cpg_module.";
 Out (Nm "prefix");
 Txt "cpg_vdelta()
";
 For ["name"; "size"] "prim_name_to_size" ([If (Eq (Nm "size") (Num 1)) ([Txt "    vdelta.";
 Out (Nm "name");
 Txt " = squeeze_scalar(prob.var_dict[""";
 Out (Nm "name");
 Txt """].gradient)
"]) ([Txt "    vdelta.";
 Out (Nm "name");
 Txt " = list(prob.var_dict[""";
 Out (Nm "name");
 Txt """].gradient.flatten(order=""F""))
"])]);
 If (Nm "explicit") ([Txt "    pdelta = cpg_module.gradient(vdelta, region, use_sol)
"]) ([Txt "    pdelta = cpg_module.gradient(vdelta, gradient_sol, use_sol)
"]);
 For ["name"; "shape"] "param_name_to_shape" ([Txt "    prob.param_dict['";
 Out (Nm "name");
 Txt "'].gradient = np.array(pdelta.";
 Out (Nm "name");
 Txt ").reshape(";
 Out (Nm "shape");
 Txt ", order='F')
"]);
 Txt "

def forward(params, context):

    info = {}
    kwargs = context.solver_args.copy()
    prob = kwargs.pop(""problem"")
    parameters = prob.parameters()
    for pid, val in zip(context.param_ids, params):
        next(p for p in parameters if p.id == pid).value = val
    updated_params = kwargs.pop(""updated_params"", None)
";
 If (Nm "explicit") ([Txt "    _, info[""region""] = cpg_solve_and_gradient_info(prob, updated_params, **kwargs)
"]) ([Txt "    _, info[""gradient_primal""], info[""gradient_dual""] = cpg_solve_and_gradient_info(prob, updated_params, **kwargs)
"]);
 Txt "    info[""prob""] = prob

    vars = prob.variables()
    return [next(v for v in vars if v.id == variable.id).value for variable in context.variables], info


def backward(dvars, context):

    prob = context.info[""prob""]
    vars = prob.variables()
    for variable, dv in zip(context.variables, dvars):
        next(v for v in vars if v.id == variable.id).gradient = dv
";
 If (Nm "explicit") ([Txt "    region = context.info[""region""]
    cpg_gradient(prob, region)
"]) ([Txt "    gradient_primal = context.info[""gradient_primal""]
    gradient_dual = context.info[""gradient_dual""]
    cpg_gradient(prob, gradient_primal, gradient_dual)
"]);
 Txt "
    params = prob.parameters()
    return [next(p for p in params if p.id == pid).gradient for pid in context.param_ids], {}

"]) ([])].

(** templates/cpg_osqp_grad_compute.c.jinja2 1-531. *)
Definition gradc_t : list node :=
 [Txt "
#include <math.h>
";
 If (Nm "gradient_two_stage") ([Txt "#include ""cpg_gradient.h""
"]) ([]);
 Txt "#include ""qdldl.h""
#include ""cpg_osqp_grad_workspace.h""

const cpg_grad_int n = ";
 Out (Nm "n");
 Txt ";
const cpg_grad_int N = ";
 Out (Nm "N");
 Txt ";
cpg_grad_float cpg_grad_a, cpg_grad_a_bar, cpg_grad_gamma;


// Function to insert a non-zero entry into the sparse matrix
void insert_nonzero(cpg_grad_csc *L, cpg_grad_int row, cpg_grad_int col) {
    if (row < col) return; // Ensure lower triangular property

    cpg_grad_int start = L->p[col];
    cpg_grad_int end = L->p[col + 1];
    cpg_grad_int insert_pos = end;
    
    // Binary search for the row within the column
    while (start < end) {
        cpg_grad_int mid = start + (end - start) / 2;
        if (L->i[mid] == row) {
            return; // Non-zero already exists, no need to insert
        } else if (L->i[mid] < row) {
            start = mid + 1;
        } else {
            end = mid;
            insert_pos = mid; // Potential insertion position
        }
    }

    // Insert the new non-zero entry
    L->nnz++;

    // Move existing elements one step forward to make space for the new one
    for (cpg_grad_int p = L->nnz - 1; p > insert_pos; p--) {
        L->i[p] = L->i[p - 1];
        L->x[p] = L->x[p - 1];
    }

    // Insert the new row index
    L->i[insert_pos] = row;
    L->x[insert_pos] = 0.0;

    // Update the column pointers
    for (cpg_grad_int j = col + 1; j <= N; j++) {
        L->p[j]++;
    }
}

// Function to insert a non-zero entry into the sparse matrix
void insert_nonzero_and_value(cpg_grad_csc *L, cpg_grad_int row, cpg_grad_int col, cpg_grad_float value) {
    if (row < col) return; // Ensure lower triangular property

    cpg_grad_int start = L->p[col];
    cpg_grad_int end = L->p[col + 1];
    cpg_grad_int insert_pos = end;
    
    // Binary search for the row within the column
    while (start < end) {
        cpg_grad_int mid = start + (end - start) / 2;
        if (L->i[mid] == row) {
            L->x[mid] = value;
            return; // Non-zero already exists, no need to insert
        } else if (L->i[mid] < row) {
            start = mid + 1;
        } else {
            end = mid;
            insert_pos = mid; // Potential insertion position
        }
    }

    // Insert the new non-zero entry
    L->nnz++;

    // Move existing elements one step forward to make space for the new one
    for (cpg_grad_int p = L->nnz - 1; p > insert_pos; p--) {
        L->i[p] = L->i[p - 1];
        L->x[p] = L->x[p - 1];
    }

    // Insert the new row index
    L->i[insert_pos] = row;
    L->x[insert_pos] = value;

    // Update the column pointers
    for (cpg_grad_int j = col + 1; j <= N; j++) {
        L->p[j]++;
    }
}

// Function to remove a non-zero entry from the sparse matrix
void remove_nonzero(cpg_grad_csc *L, cpg_grad_int row, cpg_grad_int col) {
    if (row < col) return; // Ensure lower triangular property

    // Check if the entry exists and find its position
    cpg_grad_int remove_pos = -1;
    for (cpg_grad_int p = L->p[col]; p < L->p[col + 1]; p++) {
        if (L->i[p] == row) {
            if (fabs(L->x[p]) > 1e-6) {
                return; // Entry is numerically non-zero, do not remove
            }
            remove_pos = p;
            break;
        }
    }

    if (remove_pos == -1) {
        return; // Entry does not exist, nothing to remove
    }

    // Shift elements to remove the entry
    for (cpg_grad_int p = remove_pos; p < L->nnz - 1; p++) {
        L->i[p] = L->i[p + 1];
        L->x[p] = L->x[p + 1];
    }

    // Decrease the number of non-zero elements
    L->nnz--;

    // Update the column pointers
    for (cpg_grad_int j = col + 1; j <= N; j++) {
        L->p[j]--;
    }
}

// Function to perform symbolic update
void symbolic_ldl_update(cpg_grad_csc *L, cpg_grad_int *w_indices, cpg_grad_int w_size, cpg_grad_int offset) {
    for (cpg_grad_int k = 0; k < w_size; k++) {
        cpg_grad_int col = w_indices[k] + offset;
        for (cpg_grad_int j = k + 1; j < w_size; j++) {
            cpg_grad_int row = w_indices[j] + offset;
            cpg_grad_int ind = (2*N-3-col)*col/2+row-1;
            if (";
 Out (Nm "workspace");
 Txt ".Lmask[ind] == 0) {
                ";
 Out (Nm "workspace");
 Txt ".Lmask[ind] = 1;
                insert_nonzero(L, row, col);
            } 
        }
    }
}

// Function to perform symbolic downdate
void symbolic_ldl_downdate(cpg_grad_csc *L, cpg_grad_int *w_indices, cpg_grad_int w_size, cpg_grad_int offset) {
    for (cpg_grad_int k = 0; k < w_size; k++) {
        cpg_grad_int col = w_indices[k] + offset;
        for (cpg_grad_int j = k + 1; j < w_size; j++) {
            cpg_grad_int row = w_indices[j] + offset;
            remove_nonzero(L, row, col);
        }
    }
}


void cpg_rank_1_update(cpg_grad_int sigma, cpg_grad_int offset) {
    
    cpg_grad_int i, j, k;
    
    cpg_grad_a = 1.0;

    // Perform rank-1 update in place
    for (j = offset; j < N; j++) {
        cpg_grad_a_bar = cpg_grad_a + sigma * ";
 Out (Nm "workspace");
 Txt ".w[j] * ";
 Out (Nm "workspace");
 Txt ".w[j] / ";
 Out (Nm "workspace");
 Txt ".D[j];
        cpg_grad_gamma = ";
 Out (Nm "workspace");
 Txt ".w[j] / (";
 Out (Nm "workspace");
 Txt ".D[j] * cpg_grad_a_bar);
        ";
 Out (Nm "workspace");
 Txt ".D[j] *= cpg_grad_a_bar / cpg_grad_a;
        ";
 Out (Nm "workspace");
 Txt ".Dinv[j] = 1.0 / ";
 Out (Nm "workspace");
 Txt ".D[j];
        cpg_grad_a = cpg_grad_a_bar;
        for (k = ";
 Out (Nm "workspace");
 Txt ".L->p[j]; k < ";
 Out (Nm "workspace");
 Txt ".L->p[j + 1]; k++) {
            i = ";
 Out (Nm "workspace");
 Txt ".L->i[k];
            if (i > j) {
                ";
 Out (Nm "workspace");
 Txt ".w[i] -= ";
 Out (Nm "workspace");
 Txt ".w[j] * ";
 Out (Nm "workspace");
 Txt ".L->x[k];
                ";
 Out (Nm "workspace");
 Txt ".L->x[k] += sigma * cpg_grad_gamma * ";
 Out (Nm "workspace");
 Txt ".w[i];
            }
        }
    }

}


void cpg_ldl_delete(cpg_grad_int index) {

    cpg_grad_int i, j, k;

    // Set w
    for (i = 0; i < N; i++) {
        ";
 Out (Nm "workspace");
 Txt ".w[i] = 0.0;
    }
    cpg_grad_int wsize = ";
 Out (Nm "workspace");
 Txt ".L->p[index + 1] - ";
 Out (Nm "workspace");
 Txt ".L->p[index];
    for (i = 0; i < wsize; i++) {
        ";
 Out (Nm "workspace");
 Txt ".wi[i] = ";
 Out (Nm "workspace");
 Txt ".L->i[";
 Out (Nm "workspace");
 Txt ".L->p[index] + i] - index - 1; // w indices are local
        ";
 Out (Nm "workspace");
 Txt ".w[index + 1 + ";
 Out (Nm "workspace");
 Txt ".wi[i]] = ";
 Out (Nm "workspace");
 Txt ".L->x[";
 Out (Nm "workspace");
 Txt ".L->p[index] + i] * sqrt(-";
 Out (Nm "workspace");
 Txt ".D[index]);
    }

    // Set index-th row and column of L to zero
    for (j = 0; j < index; j++) {
        for (k = ";
 Out (Nm "workspace");
 Txt ".L->p[j]; k < ";
 Out (Nm "workspace");
 Txt ".L->p[j + 1]; k++) {
            i = ";
 Out (Nm "workspace");
 Txt ".L->i[k];
            if (i >= index) {
                if (i == index) {
                    ";
 Out (Nm "workspace");
 Txt ".L->x[k] = 0.0;
                }
                break;
            }
        }
    }
    for (k = ";
 Out (Nm "workspace");
 Txt ".L->p[index]; k < ";
 Out (Nm "workspace");
 Txt ".L->p[index + 1]; k++) {
        ";
 Out (Nm "workspace");
 Txt ".L->x[k] = 0.0;
    }
    
    // Set index-th entry of D to -1.0
    ";
 Out (Nm "workspace");
 Txt ".D[index] = -1.0;
    ";
 Out (Nm "workspace");
 Txt ".Dinv[index] = -1.0;

    // Perform symbolic update
    symbolic_ldl_update(";
 Out (Nm "workspace");
 Txt ".L, ";
 Out (Nm "workspace");
 Txt ".wi, wsize, index + 1);

    // Update lower right part
    cpg_rank_1_update(-1, index + 1);

}


void cpg_ldl_add(cpg_grad_int index) {

    cpg_grad_int i, j, k, r;

    // Solve upper left triangular system

    // fill index-th (partial) column of K (starting from 0 to index-1) into c
    for (i = 0; i < N; i++) ";
 Out (Nm "workspace");
 Txt ".c[i] = 0.0;
    cpg_grad_int c_size = 0;
    for (k = ";
 Out (Nm "workspace");
 Txt ".K->p[index]; k < ";
 Out (Nm "workspace");
 Txt ".K->p[index + 1] - 1; k++) {
        i = ";
 Out (Nm "workspace");
 Txt ".K->i[k];
        ";
 Out (Nm "workspace");
 Txt ".c[i] = ";
 Out (Nm "workspace");
 Txt ".K->x[k];
        c_size++;
    }

    // solve L (Dl) = c
    for (i = 0; i < index; i++) ";
 Out (Nm "workspace");
 Txt ".l[i] = 0.0;
    for (j = 0; j < index; j++) {
        ";
 Out (Nm "workspace");
 Txt ".l[j] += ";
 Out (Nm "workspace");
 Txt ".c[j];
        for (k = ";
 Out (Nm "workspace");
 Txt ".L->p[j]; k < ";
 Out (Nm "workspace");
 Txt ".L->p[j + 1]; k++) {
            ";
 Out (Nm "workspace");
 Txt ".l[";
 Out (Nm "workspace");
 Txt ".L->i[k]] -= ";
 Out (Nm "workspace");
 Txt ".L->x[k] * ";
 Out (Nm "workspace");
 Txt ".l[j];
        }
    }

    // Solve Dl = l
    cpg_grad_int l_size = 0;
    for (i = 0; i < index; i++) {
        if (";
 Out (Nm "workspace");
 Txt ".l[i] != 0.0) {
            ";
 Out (Nm "workspace");
 Txt ".lx[l_size] = ";
 Out (Nm "workspace");
 Txt ".l[i] / ";
 Out (Nm "workspace");
 Txt ".D[i];
            ";
 Out (Nm "workspace");
 Txt ".li[l_size] = i;
            l_size++;
        }
    }

    // Udpate D and L, first part
    // get K[index, index]
    ";
 Out (Nm "workspace");
 Txt ".D[index] = ";
 Out (Nm "workspace");
 Txt ".K->x[";
 Out (Nm "workspace");
 Txt ".K->p[index + 1] - 1];
    for (k = 0; k < l_size; k++) {
        ";
 Out (Nm "workspace");
 Txt ".D[index] -= ";
 Out (Nm "workspace");
 Txt ".lx[k] * ";
 Out (Nm "workspace");
 Txt ".lx[k] * ";
 Out (Nm "workspace");
 Txt ".D[";
 Out (Nm "workspace");
 Txt ".li[k]];
    }
    ";
 Out (Nm "workspace");
 Txt ".Dinv[index] = 1.0 / ";
 Out (Nm "workspace");
 Txt ".D[index];
    // fill index-th row of L with l
    for (k = 0; k < l_size; k++) {
        insert_nonzero_and_value(";
 Out (Nm "workspace");
 Txt ".L, index, ";
 Out (Nm "workspace");
 Txt ".li[k], ";
 Out (Nm "workspace");
 Txt ".lx[k]);
    }

    // Use dense storage l to store values of l32, while l12 is still stored in sparse li and lx
    for (i = 0; i < N; i++) ";
 Out (Nm "workspace");
 Txt ".l[i] = 0.0;
    for (j = index + 1; j < N; j++) {
        for (k = ";
 Out (Nm "workspace");
 Txt ".K->p[j]; k < ";
 Out (Nm "workspace");
 Txt ".K->p[j + 1]; k++) {
            i = ";
 Out (Nm "workspace");
 Txt ".K->i[k];
            if (i >= index) {
                if (i == index) {
                    ";
 Out (Nm "workspace");
 Txt ".l[j - index - 1] = ";
 Out (Nm "workspace");
 Txt ".K->x[k];
                }
                break;
            }
        }
    }
    for (r = 0; r < l_size; r++) {
        for (k = ";
 Out (Nm "workspace");
 Txt ".L->p[";
 Out (Nm "workspace");
 Txt ".li[r]]; k < ";
 Out (Nm "workspace");
 Txt ".L->p[";
 Out (Nm "workspace");
 Txt ".li[r] + 1]; k++) {
            i = ";
 Out (Nm "workspace");
 Txt ".L->i[k];
            if (i > index) {
                ";
 Out (Nm "workspace");
 Txt ".l[i - index - 1] -= ";
 Out (Nm "workspace");
 Txt ".L->x[k] * ";
 Out (Nm "workspace");
 Txt ".lx[r] * ";
 Out (Nm "workspace");
 Txt ".D[";
 Out (Nm "workspace");
 Txt ".li[r]];
            }
        }
    }

    // overwrite l12 with l32 in lx and li
    l_size = 0;
    for (i = 0; i < N - index - 1; i++) {
        if (";
 Out (Nm "workspace");
 Txt ".l[i] != 0.0) {
            ";
 Out (Nm "workspace");
 Txt ".lx[l_size] = ";
 Out (Nm "workspace");
 Txt ".l[i] / ";
 Out (Nm "workspace");
 Txt ".D[index];
            ";
 Out (Nm "workspace");
 Txt ".li[l_size] = i;
            l_size++;
        }
    }

    // fill l32 into L
    for (k = 0; k < l_size; k++) {
        insert_nonzero_and_value(";
 Out (Nm "workspace");
 Txt ".L, ";
 Out (Nm "workspace");
 Txt ".li[k] + index + 1, index, ";
 Out (Nm "workspace");
 Txt ".lx[k]);
    }

    // Set w
    for (i = 0; i < N; i++) {
        ";
 Out (Nm "workspace");
 Txt ".w[i] = 0.0;
    }
    cpg_grad_int wsize = l_size;
    for (i = 0; i < wsize; i++) {
        ";
 Out (Nm "workspace");
 Txt ".wi[i] = ";
 Out (Nm "workspace");
 Txt ".li[i]; // w indices are local
        ";
 Out (Nm "workspace");
 Txt ".w[index + 1 + ";
 Out (Nm "workspace");
 Txt ".wi[i]] = ";
 Out (Nm "workspace");
 Txt ".lx[i] * sqrt(-";
 Out (Nm "workspace");
 Txt ".D[index]);
    }

    // Update D and L, second part
    cpg_rank_1_update(1, index + 1);

    // Perform symbolic update
    //symbolic_ldl_downdate(";
 Out (Nm "workspace");
 Txt ".L, ";
 Out (Nm "workspace");
 Txt ".wi, wsize, index + 1);

}

void cpg_ldl_symbolic() {

    cpg_grad_int nnz = QDLDL_etree(
        N,
        ";
 Out (Nm "workspace");
 Txt ".K->p, ";
 Out (Nm "workspace");
 Txt ".K->i,
        ";
 Out (Nm "workspace");
 Txt ".iwork, ";
 Out (Nm "workspace");
 Txt ".Lnz, ";
 Out (Nm "workspace");
 Txt ".etree
    );
    ";
 Out (Nm "workspace");
 Txt ".L->nnz = nnz;

}

void cpg_ldl_numeric() {

    QDLDL_factor(
        N,
        ";
 Out (Nm "workspace");
 Txt ".K->p, ";
 Out (Nm "workspace");
 Txt ".K->i, ";
 Out (Nm "workspace");
 Txt ".K->x,
        ";
 Out (Nm "workspace");
 Txt ".L->p, ";
 Out (Nm "workspace");
 Txt ".L->i, ";
 Out (Nm "workspace");
 Txt ".L->x,
        ";
 Out (Nm "workspace");
 Txt ".D, ";
 Out (Nm "workspace");
 Txt ".Dinv,
        ";
 Out (Nm "workspace");
 Txt ".Lnz, ";
 Out (Nm "workspace");
 Txt ".etree, ";
 Out (Nm "workspace");
 Txt ".bwork, ";
 Out (Nm "workspace");
 Txt ".iwork, ";
 Out (Nm "workspace");
 Txt ".fwork
    );

}

void cpg_P_to_K(cpg_grad_csc *P, cpg_grad_csc *K, cpg_grad_csc *K_true) {

    for (cpg_grad_int col = 0; col < n; col++) {

        for (cpg_grad_int idx = P->p[col]; idx < P->p[col + 1]; idx++) {

            cpg_grad_int row = P->i[idx];
            cpg_grad_float value = P->x[idx];

            // Upper left block insertion into K
            for (cpg_grad_int k_idx = K->p[col]; k_idx < K->p[col + 1]; k_idx++) {
                if (K->i[k_idx] == row) {
                    K->x[k_idx] = value;
                    if (row == col) {
                        K->x[k_idx] += 1e-6;
                    }
                    break;
                }
            }

            // Upper left block insertion into K_true
            for (cpg_grad_int k_idx = K_true->p[row]; k_idx < K_true->p[row + 1]; k_idx++) {
                if (K_true->i[k_idx] == col) {
                    K_true->x[k_idx] = value;
                    break;
                }
            }

        }

    }

}

void cpg_A_to_K(cpg_grad_csc *A, cpg_grad_csc *K, cpg_grad_csc *K_true) {

    // Fill A (csc format) into lower left block and transpose into upper right block of K (column-major)
    for (cpg_grad_int col = 0; col < n; col++) {
        
        // Iterate over each non-zero entry in the column
        for (cpg_grad_int idx = A->p[col]; idx < A->p[col + 1]; idx++) {
            cpg_grad_int row = A->i[idx];      // Row index in A
            cpg_grad_float value = A->x[idx];  // Value in A
            
            // Compute indices for K            
            cpg_grad_int upper_right_row = col;    // Upper right block: row in K
            cpg_grad_int upper_right_col = n + row; // Upper right block: col in K

            // Compute indices for lower left block
            cpg_grad_int lower_left_row = n + row;    // Lower left block: row in K
            cpg_grad_int lower_left_col = col;    // Lower left block: col in K
            
            // Find the position in K for upper right block
            for (cpg_grad_int k_idx = K->p[upper_right_col]; k_idx < K->p[upper_right_col + 1]; k_idx++) {
                if (K->i[k_idx] == upper_right_row) {
                    K->x[k_idx] = value;
                    break;
                }
            }

            // Find the position in K_true (csr) for upper right block
            for (cpg_grad_int k_idx = K_true->p[upper_right_row]; k_idx < K_true->p[upper_right_row + 1]; k_idx++) {
                if (K_true->i[k_idx] == upper_right_col) {
                    K_true->x[k_idx] = value;
                    break;
                }
            }

            // Find the position in K_true (csr) for lower left block
            for (cpg_grad_int k_idx = K_true->p[lower_left_row]; k_idx < K_true->p[lower_left_row + 1]; k_idx++) {
                if (K_true->i[k_idx] == lower_left_col) {
                    K_true->x[k_idx] = value;
                    break;
                }
            }

        }

    }

}


void cpg_osqp_gradient() {

    cpg_grad_int i, j, k, l;

    // Check active constraints
    for (i = 0; i < N - n; i++) {
        if (";
 Out (Nm "sol_y_var");
 Txt "[i] < -1e-12) {
            if (";
 Out (Nm "workspace");
 Txt ".a[i] == 0) {
                cpg_ldl_add(n + i);
                ";
 Out (Nm "workspace");
 Txt ".a[i] = -1; // lower bound active
            }
        } else if (";
 Out (Nm "sol_y_var");
 Txt "[i] > 1e-12) {
            if (";
 Out (Nm "workspace");
 Txt ".a[i] == 0) {
                cpg_ldl_add(n + i);
                ";
 Out (Nm "workspace");
 Txt ".a[i] = 1; // upper bound active
            }
        } else {
            if (";
 Out (Nm "workspace");
 Txt ".a[i] != 0) {
                cpg_ldl_delete(n + i);
                ";
 Out (Nm "workspace");
 Txt ".a[i] = 0; // no bound active
            }
        }
    }

    // Fill rhs of linear system and solve with QDLDL
    for (i = 0; i < n; i++) {
        ";
 Out (Nm "workspace");
 Txt ".r[i] = ";
 Out (Nm "workspace");
 Txt ".dx[i];
        ";
 Out (Nm "workspace");
 Txt ".rhs[i] = ";
 Out (Nm "workspace");
 Txt ".dx[i];
    }
    for (i = n; i < N; i++) {
        ";
 Out (Nm "workspace");
 Txt ".r[i] = 0.0;
        ";
 Out (Nm "workspace");
 Txt ".rhs[i] = 0.0;
    }
    QDLDL_solve(N, ";
 Out (Nm "workspace");
 Txt ".L->p, ";
 Out (Nm "workspace");
 Txt ".L->i, ";
 Out (Nm "workspace");
 Txt ".L->x, ";
 Out (Nm "workspace");
 Txt ".Dinv, ";
 Out (Nm "workspace");
 Txt ".r);
    
    // Three iterations of iterative refinement
    for (l = 0; l < 3; l++) {
        // Compute delta = rhs - K_true @ r
        for (i = 0; i < N; i++) {
            ";
 Out (Nm "workspace");
 Txt ".delta[i] = ";
 Out (Nm "workspace");
 Txt ".rhs[i];
        }
        for (i = 0; i < N; i++) {
            if (i >= n && ";
 Out (Nm "workspace");
 Txt ".a[i - n] == 0) {
                ";
 Out (Nm "workspace");
 Txt ".delta[i] = 0.0;
                continue;
            }
            for (k = ";
 Out (Nm "workspace");
 Txt ".K_true->p[i]; k < ";
 Out (Nm "workspace");
 Txt ".K_true->p[i + 1]; k++) {
                j = ";
 Out (Nm "workspace");
 Txt ".K_true->i[k];
                if (j >= n && ";
 Out (Nm "workspace");
 Txt ".a[j - n] == 0) continue;
                ";
 Out (Nm "workspace");
 Txt ".delta[i] -= ";
 Out (Nm "workspace");
 Txt ".K_true->x[k] * ";
 Out (Nm "workspace");
 Txt ".r[j];
            }
        }
        // Solve K @ delta = rhs - K_true @ r
        QDLDL_solve(N, ";
 Out (Nm "workspace");
 Txt ".L->p, ";
 Out (Nm "workspace");
 Txt ".L->i, ";
 Out (Nm "workspace");
 Txt ".L->x, ";
 Out (Nm "workspace");
 Txt ".Dinv, ";
 Out (Nm "workspace");
 Txt ".delta);
        // Update r
        for (i = 0; i < N; i++) {
            ";
 Out (Nm "workspace");
 Txt ".r[i] += ";
 Out (Nm "workspace");
 Txt ".delta[i];
        }
    }

    // Fill gradient in q
    for (i = 0; i < n; i++) {
        ";
 Out (Nm "workspace");
 Txt ".dq[i] = - ";
 Out (Nm "workspace");
 Txt ".r[i];
    }

    // Fill gradient in l and u
    for (i = 0; i < N - n; i++) {
        if (";
 Out (Nm "workspace");
 Txt ".a[i] == -1) {
            ";
 Out (Nm "workspace");
 Txt ".dl[i] = ";
 Out (Nm "workspace");
 Txt ".r[n + i];
            ";
 Out (Nm "workspace");
 Txt ".du[i] = 0.0;
        } else if (";
 Out (Nm "workspace");
 Txt ".a[i] == 1) {
            ";
 Out (Nm "workspace");
 Txt ".dl[i] = 0.0;
            ";
 Out (Nm "workspace");
 Txt ".du[i] = ";
 Out (Nm "workspace");
 Txt ".r[n + i];
        } else {
            ";
 Out (Nm "workspace");
 Txt ".dl[i] = 0.0;
            ";
 Out (Nm "workspace");
 Txt ".du[i] = 0.0;
        }
    }

    // Fill gradient in P
    for (j = 0; j < n; j++) {
        for (k = ";
 Out (Nm "workspace");
 Txt ".dP->p[j]; k < ";
 Out (Nm "workspace");
 Txt ".dP->p[j + 1]; k++) {
            i = ";
 Out (Nm "workspace");
 Txt ".dP->i[k];
            ";
 Out (Nm "workspace");
 Txt ".dP->x[k] = -0.5 * (";
 Out (Nm "workspace");
 Txt ".r[i] * ";
 Out (Nm "sol_x_var");
 Txt "[j] + ";
 Out (Nm "sol_x_var");
 Txt "[i] * ";
 Out (Nm "workspace");
 Txt ".r[j]);
        }
    }

    // Fill gradient in A
    for (j = 0; j < n; j++) {
        for (k = ";
 Out (Nm "workspace");
 Txt ".dA->p[j]; k < ";
 Out (Nm "workspace");
 Txt ".dA->p[j + 1]; k++) {
            i = ";
 Out (Nm "workspace");
 Txt ".dA->i[k];
            if (";
 Out (Nm "workspace");
 Txt ".a[i] == 0) {
                ";
 Out (Nm "workspace");
 Txt ".dA->x[k] = 0.0;
            } else {
                ";
 Out (Nm "workspace");
 Txt ".dA->x[k] = - (";
 Out (Nm "workspace");
 Txt ".r[n + i] * ";
 Out (Nm "sol_x_var");
 Txt "[j] + ";
 Out (Nm "sol_y_var");
 Txt "[i] * ";
 Out (Nm "workspace");
 Txt ".r[j]);
            }
        }
    }

}
"].

(** templates/cpg_osqp_grad_compute.h.jinja2 1-12. *)
Definition gradh_t : list node :=
 [Txt "
#include ""cpg_osqp_grad_workspace.h""

extern void cpg_rank_1_update(cpg_grad_int index, cpg_grad_int n);
extern void cpg_ldl_add(cpg_grad_int index);
extern void cpg_ldl_delete(cpg_grad_int index);
extern void cpg_P_to_K(cpg_grad_csc *P, cpg_grad_csc *K, cpg_grad_csc *K_true);
extern void cpg_A_to_K(cpg_grad_csc *A, cpg_grad_csc *K, cpg_grad_csc *K_true);
extern void cpg_ldl_symbolic();
extern void cpg_ldl_numeric();

extern void cpg_osqp_gradient();
"].

(** templates/cpg_osqp_grad_workspace.h.jinja2 1-51. *)
Definition gradws_t : list node :=
 [Txt "
#include ""cpg_workspace.h""

#ifndef CPG_OSQP_GRAD_TYPES_H
# define CPG_OSQP_GRAD_TYPES_H

typedef double cpg_grad_float;
typedef int cpg_grad_int;

typedef struct {
  cpg_grad_int    *p;
  cpg_grad_int    *i;
  cpg_grad_float  *x;
  cpg_grad_int    nnz;
} cpg_grad_csc;

// Derivative data
typedef struct {
  cpg_grad_int      init;       // Initialization flag
  cpg_grad_int      *a;         // Bound indicator (-1 for lower bound, 1 for upper bound, 0 for no bound)
  cpg_grad_int      *etree;     // elimination tree
  cpg_grad_int      *Lnz;       // number of nonzeros in each column of L
  cpg_grad_int      *iwork;     // integer workspace
  cpg_grad_int      *bwork;     // boolean workspace
  cpg_grad_float    *fwork;     // float workspace
  cpg_grad_csc      *L;         // Lower triangular factor of K
  cpg_grad_int      *Lmask;     // Boolean mask for fast nonzero querying
  cpg_grad_float    *D;         // Diagonal factor of K
  cpg_grad_float    *Dinv;      // Inverse of D
  cpg_grad_csc      *K;         // KKT matrix
  cpg_grad_csc      *K_true;    // Exact KKT matrix
  cpg_grad_float    *rhs;       // Right-hand-side
  cpg_grad_float    *delta;     // Vector for iterative refinement
  cpg_grad_float    *c;         // Vector used in update
  cpg_grad_float    *w;         // Vector used in update
  cpg_grad_int      *wi;        // Sparse vector used in update
  cpg_grad_float    *l;         // Vector used in update
  cpg_grad_int      *li;        // Sparse vector used in update
  cpg_grad_float    *lx;        // Sparse vector used in update
  cpg_grad_float    *dx;        // Gradient in x
  cpg_grad_float    *r;         // rhs / solution of linear system
  cpg_grad_float    *dq;        // Gradient in q
  cpg_grad_float    *dl;        // Gradient in l
  cpg_grad_float    *du;        // Gradient in u
  cpg_grad_csc      *dP;        // Gradient in P
  cpg_grad_csc      *dA;        // Gradient in A
} CPG_OSQP_Grad_t;

#endif // ifndef CPG_OSQP_GRAD_TYPES_H

extern CPG_OSQP_Grad_t ";
 Out (Nm "workspace");
 Txt ";
"].

(** templates/README.html.jinja2 1-568. *)
Definition readme_t : list node :=
 [Txt "<!DOCTYPE html>
<html lang=""en"">
<head>
  <meta charset=""utf-8"">
  <title>CVXPYgen — ";
 Out (Nm "code_dir");
 Txt "</title>
  <meta name=""viewport"" content=""width=device-width, initial-scale=1"">
  <style>
    :root {
      --blue:        #1565c0;
      --blue-dark:   #0d47a1;
      --blue-light:  #e3f2fd;
      --blue-mid:    #1976d2;
      --sidebar-bg:  #f8f9fb;
      --sidebar-bd:  #d9dde6;
      --code-bg:     #f6f8fa;
      --code-bd:     #dde1e7;
      --border:      #e1e4e8;
      --text:        #24292e;
      --muted:       #6a737d;
      --hover-bg:    #edf2ff;
      --active-bg:   #dbeafe;
      --active-fg:   #1d4ed8;
      --r:           4px;
    }
    *, *::before, *::after { box-sizing: border-box; margin: 0; padding: 0; }
    body {
      font-family: -apple-system, BlinkMacSystemFont, 'Segoe UI', Roboto, Helvetica, Arial, sans-serif;
      font-size: 14px;
      line-height: 1.65;
      color: var(--text);
      background: #fff;
    }

    /* ── Top bar ── */
    .topbar {
      position: sticky; top: 0; z-index: 200;
      display: flex; align-items: center; justify-content: space-between;
      height: 52px; padding: 0 24px;
      background: var(--blue-dark);
      box-shadow: 0 2px 6px rgba(0,0,0,.3);
      color: #fff;
    }
    .topbar-left { display: flex; align-items: center; gap: 14px; }
    .topbar-logo { font-size: 18px; font-weight: 700; letter-spacing: .03em; color: #fff; }
    .topbar-logo a { color: inherit; text-decoration: none; }
    .topbar-logo a:hover { text-decoration: none; }
    .topbar-sub {
      font-size: 12.5px; opacity: .75;
      border-left: 1px solid rgba(255,255,255,.35);
      padding-left: 14px;
    }
    .topbar-date { font-size: 11px; opacity: .6; }

    /* ── Page layout ── */
    .layout { display: flex; min-height: calc(100vh - 52px); }

    /* ── Sidebar ── */
    .sidebar {
      width: 256px; min-width: 256px;
      background: var(--sidebar-bg);
      border-right: 1px solid var(--sidebar-bd);
      position: sticky; top: 52px;
      height: calc(100vh - 52px);
      overflow-y: auto;
      padding: 18px 0 24px;
    }
    .sidebar-root-label {
      padding: 0 16px 8px;
      font-family: ui-monospace, 'SF Mono', Menlo, Consolas, monospace;
      font-size: 12px; font-weight: 700;
      letter-spacing: .04em;
      color: var(--blue-dark);
    }

    /* File tree */
    .tree, .tree ul { list-style: none; }
    .tree { padding: 0 8px; }
    .tree ul { padding-left: 14px; }
    .tree-row {
      display: flex; align-items: center; gap: 5px;
      padding: 3px 8px;
      border-radius: var(--r);
      font-family: ui-monospace, 'SF Mono', Menlo, Consolas, monospace;
      font-size: 12.5px;
      white-space: nowrap;
    }
    .tree-folder { color: var(--muted); user-select: none; }
    .tree-folder::before { content: '▾'; font-size: 9px; margin-right: 3px; }
    .tree-static { color: var(--muted); padding-left: 16px; opacity: .65; }
    .tree-file {
      color: var(--text);
      cursor: pointer;
      transition: background .1s;
    }
    .tree-file::before { content: '·'; color: var(--muted); margin-right: 4px; }
    .tree-file:hover { background: var(--hover-bg); }
    .tree-file.active {
      background: var(--active-bg);
      color: var(--active-fg);
      font-weight: 600;
    }
    .tree-file.active::before { content: '▸'; color: var(--active-fg); }

    /* ── Main panel ── */
    .main {
      flex: 1; min-width: 0;
      padding: 32px 44px 56px;
      max-width: 840px;
    }
    section { margin-bottom: 40px; }
    h2 {
      font-size: 19px; font-weight: 700;
      color: var(--blue-dark);
      padding-bottom: 8px;
      border-bottom: 2px solid var(--blue-light);
      margin-bottom: 16px;
    }
    h3 { font-size: 15px; font-weight: 600; color: var(--blue); margin-bottom: 10px; }
    p { margin-bottom: 12px; }
    a { color: var(--blue-mid); text-decoration: none; }
    a:hover { text-decoration: underline; }

    code {
      font-family: ui-monospace, 'SF Mono', Menlo, Consolas, monospace;
      font-size: 12.5px;
      background: var(--code-bg);
      border: 1px solid var(--code-bd);
      border-radius: 3px;
      padding: 1px 5px;
    }
    pre {
      background: var(--code-bg);
      border: 1px solid var(--code-bd);
      border-radius: var(--r);
      padding: 14px 18px;
      overflow-x: auto;
      margin-bottom: 14px;
    }
    pre code { background: none; border: none; padding: 0; font-size: 13px; }

    /* ── Problem Summary tables ── */
    .tables-row { display: flex; flex-wrap: wrap; gap: 20px; align-items: flex-start; }
    .summary-table { border-collapse: collapse; font-size: 13px; }
    .summary-table th {
      background: var(--blue-dark); color: #fff;
      padding: 0 16px; height: 34px; text-align: left; font-weight: 600;
    }
    .summary-table th:first-child { border-radius: var(--r) 0 0 0; }
    .summary-table th:last-child  { border-radius: 0 var(--r) 0 0; }
    .summary-table td { padding: 0 16px; height: 32px; border-bottom: 1px solid var(--border); }
    .summary-table tr:last-child td { border-bottom: none; }
    .summary-table tr:nth-child(even) td { background: #f5f8ff; }
    .summary-table code { background: none; border: none; }

    /* ── File detail panels ── */
    .file-panel { display: none; }
    .file-panel.active { display: block; }
    .file-hint {
      padding: 40px 24px;
      text-align: center;
      color: var(--muted);
      background: var(--sidebar-bg);
      border: 1px dashed var(--border);
      border-radius: var(--r);
    }
    .file-hint-icon { font-size: 30px; margin-bottom: 10px; }
    .file-path-badge {
      display: inline-block;
      background: var(--blue-light);
      color: var(--blue-dark);
      border: 1px solid #b3d2f5;
      border-radius: var(--r);
      font-family: ui-monospace, 'SF Mono', Menlo, Consolas, monospace;
      font-size: 12.5px;
      padding: 5px 12px;
      margin-bottom: 16px;
    }

    /* ── Tabs ── */
    .tab-group { margin-bottom: 20px; }
    .tab-bar { display: flex; margin-bottom: -1px; }
    .tab-btn {
      padding: 6px 18px;
      font-size: 13px; font-weight: 500;
      cursor: pointer;
      border: 1px solid var(--border);
      border-bottom: none;
      background: #fff;
      color: var(--muted);
      border-radius: var(--r) var(--r) 0 0;
      transition: background .1s, color .1s;
      margin-right: 2px;
    }
    .tab-btn:hover { background: var(--hover-bg); color: var(--blue); }
    .tab-btn.active { background: var(--code-bg); color: var(--blue); font-weight: 600; border-bottom: 1px solid var(--code-bg); }
    .tab-body { background: var(--code-bg); border: 1px solid var(--border); border-radius: 0 var(--r) var(--r) var(--r); }
    .tab-panel { display: none; }
    .tab-panel.active { display: block; }
    .tab-body pre { border: none; border-radius: 0 var(--r) var(--r) var(--r); margin: 0; }

    /* ── Usage sub-sections ── */
    .usage-block { margin-bottom: 28px; }
  </style>
</head>
<body>

<!-- ── Top bar ── -->
<header class=""topbar"">
  <div class=""topbar-left"">
    <span class=""topbar-logo""><a href=""https://github.com/cvxgrp/cvxpygen"" target=""_blank"">CVXPYgen</a></span>
    <span class=""topbar-sub"">Generated code documentation</span>
  </div>
  <span class=""topbar-date"">";
 Out (Nm "date");
 Txt "</span>
</header>

<div class=""layout"">

  <!-- ── Sidebar: file tree ── -->
  <nav class=""sidebar"" aria-label=""File tree"">
    <div class=""sidebar-root-label"">";
 Out (Nm "code_dir");
 Txt "/</div>
    <ul class=""tree"">
      <li>
        <span class=""tree-row tree-folder"">c/</span>
        <ul>
          <li>
            <span class=""tree-row tree-file"" data-panel=""f-solver-code"">solver_code/</span>
            <ul><li><span class=""tree-row tree-static"">…</span></li></ul>
          </li>
          <li>
            <span class=""tree-row tree-folder"">include/</span>
            <ul>
              <li><span class=""tree-row tree-file"" data-panel=""f-workspace-h"">cpg_workspace.h</span></li>
              <li><span class=""tree-row tree-file"" data-panel=""f-solve-h"">cpg_solve.h</span></li>
";
 If (Nm "gradient") ([Txt "<li><span class=""tree-row tree-file"" data-panel=""f-gradient-h"">cpg_gradient.h</span></li>"]) ([]);
 If (Nm "gradient_two_stage") ([Txt "<li><span class=""tree-row tree-file"" data-panel=""f-gradient-workspace-h"">cpg_gradient_workspace.h</span></li>"]) ([]);
 If (Nm "gradient") ([Txt "<li><span class=""tree-row tree-static"">…</span></li>"]) ([]);
 Txt "            </ul>
          </li>
          <li>
            <span class=""tree-row tree-folder"">src/</span>
            <ul>
              <li><span class=""tree-row tree-file"" data-panel=""f-workspace-c"">cpg_workspace.c</span></li>
              <li><span class=""tree-row tree-file"" data-panel=""f-solve-c"">cpg_solve.c</span></li>
";
 If (Nm "gradient") ([Txt "<li><span class=""tree-row tree-file"" data-panel=""f-gradient-c"">cpg_gradient.c</span></li>"]) ([]);
 If (Nm "gradient_two_stage") ([Txt "<li><span class=""tree-row tree-file"" data-panel=""f-gradient-workspace-c"">cpg_gradient_workspace.c</span></li>"]) ([]);
 Txt "              <li><span class=""tree-row tree-file"" data-panel=""f-example-c"">cpg_example.c</span></li>
";
 If (Nm "gradient") ([Txt "<li><span class=""tree-row tree-static"">…</span></li>"]) ([]);
 Txt "            </ul>
          </li>
          <li><span class=""tree-row tree-folder"">build/</span></li>
          <li><span class=""tree-row tree-file"" data-panel=""f-cmake"">CMakeLists.txt</span></li>
        </ul>
      </li>
      <li>
        <span class=""tree-row tree-folder"">cpp/</span>
        <ul>
          <li>
            <span class=""tree-row tree-folder"">include/</span>
            <ul>
              <li><span class=""tree-row tree-file"" data-panel=""f-module-hpp"">cpg_module.hpp</span></li>
            </ul>
          </li>
          <li>
            <span class=""tree-row tree-folder"">src/</span>
            <ul>
              <li><span class=""tree-row tree-file"" data-panel=""f-module-cpp"">cpg_module.cpp</span></li>
            </ul>
          </li>
        </ul>
      </li>
      <li><span class=""tree-row tree-file"" data-panel=""f-setup"">setup.py</span></li>
      <li><span class=""tree-row tree-file"" data-panel=""f-solver-py"">cpg_solver.py</span></li>
      <li><span class=""tree-row tree-static"">LICENSE</span></li>
      <li><span class=""tree-row tree-static"">README.html</span></li>
    </ul>
  </nav>

  <!-- ── Main content ── -->
  <main class=""main"">

    <!-- Problem Summary -->
    <section>
      <h2>Problem Summary</h2>
      <p>Your optimization problem has the following parameters and variables.
         Dual variable <code>di</code> corresponds to the <code>i</code>th constraint in your formulation.
         Sizes after flattening (considering only nonzero entries) are given in parentheses.</p>
      <div class=""tables-row"">
        <table class=""summary-table"">
          <tr><th>Parameter</th><th>Dimension</th></tr>
          ";
 Out (Nm "params_table");
 Txt "
        </table>
        <table class=""summary-table"">
          <tr><th>Primal Variable</th><th>Dimension</th></tr>
          ";
 Out (Nm "primals_table");
 Txt "
        </table>
        <table class=""summary-table"">
          <tr><th>Dual Variable</th><th>Dimension</th></tr>
          ";
 Out (Nm "duals_table");
 Txt "
        </table>
      </div>
    </section>

    <!-- File Contents -->
    <section id=""file-contents-section"" style=""scroll-margin-top: 64px;"">
      <h2>File Contents</h2>

      <!-- Default placeholder -->
      <div class=""file-panel active"" id=""f-default"">
        <div class=""file-hint"">
          <div class=""file-hint-icon"">📂</div>
          <div>Select a file from the tree on the left to view its contents.</div>
        </div>
      </div>

      <!-- cpg_workspace.h -->
      <div class=""file-panel"" id=""f-workspace-h"">
        <div class=""file-path-badge"">c/include/cpg_workspace.h</div>
        <p>Contains type definitions and variable declarations. The following types are part of the C interface:</p>
        <pre><code>";
 Out (Trim (Cat (Cat (Cat (Nm "prim_typedef") (Nm "dual_typedef")) (Nm "info_typedef")) (Nm "result_typedef")));
 Txt "</code></pre>
      </div>

      <!-- cpg_solve.h -->
      <div class=""file-panel"" id=""f-solve-h"">
        <div class=""file-path-badge"">c/include/cpg_solve.h</div>
        <p>Contains function prototypes. Relevant for the C interface:</p>
        <pre><code>";
 Out (Trim (Cat (Cat (Nm "update_declarations") (Nm "solve_declarations")) (Nm "settings_declarations")));
 Txt "</code></pre>
        <p>Here <code>&lt;setting_name&gt;</code> and <code>&lt;setting_type&gt;</code> are placeholders for
           the name and type of the solver setting to be updated, respectively. Available settings: ";
 Out (Nm "settings_list");
 Txt ".</p>
      </div>

      <!-- cpg_workspace.c -->
      <div class=""file-panel"" id=""f-workspace-c"">
        <div class=""file-path-badge"">c/src/cpg_workspace.c</div>
        <p>Contains the static allocation of all C variables declared in
           <code>c/include/cpg_workspace.h</code>.</p>
      </div>

      <!-- cpg_solve.c -->
      <div class=""file-panel"" id=""f-solve-c"">
        <div class=""file-path-badge"">c/src/cpg_solve.c</div>
        <p>Contains the definitions of all functions declared in
           <code>c/include/cpg_solve.h</code>.</p>
      </div>

";
 If (Nm "gradient") ([Txt "      <!-- cpg_gradient.h -->
      <div class=""file-panel"" id=""f-gradient-h"">
        <div class=""file-path-badge"">c/include/cpg_gradient.h</div>
        <p>Contains function declarations for gradient computation. Exposes <code>cpg_gradient()</code>,
           which back-propagates through the solve to compute parameter gradients from variable gradients.</p>
      </div>
"]) ([]);
 Txt "
";
 If (Nm "gradient_two_stage") ([Txt "      <!-- cpg_gradient_workspace.h -->
      <div class=""file-panel"" id=""f-gradient-workspace-h"">
        <div class=""file-path-badge"">c/include/cpg_gradient_workspace.h</div>
        <p>Contains type definitions and variable declarations for the canonical gradient computation stage.
           Analogous to <code>c/include/cpg_workspace.h</code>, but scoped to the gradient solver workspace.</p>
      </div>
"]) ([]);
 Txt "
";
 If (Nm "gradient") ([Txt "      <!-- cpg_gradient.c -->
      <div class=""file-panel"" id=""f-gradient-c"">
        <div class=""file-path-badge"">c/src/cpg_gradient.c</div>
        <p>Contains the definitions of all functions declared in <code>c/include/cpg_gradient.h</code>.</p>
      </div>
"]) ([]);
 Txt "
";
 If (Nm "gradient_two_stage") ([Txt "      <!-- cpg_gradient_workspace.c -->
      <div class=""file-panel"" id=""f-gradient-workspace-c"">
        <div class=""file-path-badge"">c/src/cpg_gradient_workspace.c</div>
        <p>Contains the static allocation of all C variables declared in
           <code>c/include/cpg_gradient_workspace.h</code>.</p>
      </div>
"]) ([]);
 Txt "
      <!-- cpg_example.c -->
      <div class=""file-panel"" id=""f-example-c"">
        <div class=""file-path-badge"">c/src/cpg_example.c</div>
        <p>Contains example C code that initializes the problem data and solves a problem instance.
           See <em>Using Generated Code</em> below for compilation instructions.</p>
      </div>

      <!-- CMakeLists.txt -->
      <div class=""file-panel"" id=""f-cmake"">
        <div class=""file-path-badge"">c/CMakeLists.txt</div>
        <p>Contains instructions for build file generation inside the <code>c/build/</code> directory
           using CMake. The <code>cpg_example</code> executable and the <code>cpg</code> static library
           (used by the Python wrapper) are configured here.</p>
      </div>

      <!-- solver_code/ -->
      <div class=""file-panel"" id=""f-solver-code"">
        <div class=""file-path-badge"">c/solver_code/</div>
        <p>Contains all source files from the chosen numerical solver (";
 Out (Nm "solver_name");
 Txt ").
           Also see the 
           <a href=""";
 Out (Nm "solver_docu_url");
 Txt """ target=""_blank"">";
 Out (Nm "solver_name");
 Txt " documentation</a>.</p>
      </div>

      <!-- cpg_module.hpp -->
      <div class=""file-panel"" id=""f-module-hpp"">
        <div class=""file-path-badge"">cpp/include/cpg_module.hpp</div>
        <p>Declares the <a href=""https://github.com/pybind/pybind11"" target=""_blank"">pybind11</a>
           interface that exposes the generated C solver to Python. Defines the module entry point
           and the signatures of all bound functions.</p>
      </div>

      <!-- cpg_module.cpp -->
      <div class=""file-panel"" id=""f-module-cpp"">
        <div class=""file-path-badge"">cpp/src/cpg_module.cpp</div>
        <p>Implements the pybind11 bindings declared in <code>cpg_module.hpp</code>.
           Compiled together with the <code>cpg</code> static library via <code>setup.py</code>
           into a Python extension module.</p>
      </div>

      <!-- setup.py -->
      <div class=""file-panel"" id=""f-setup"">
        <div class=""file-path-badge"">setup.py</div>
        <p>Python package build script that compiles the pybind11 extension module wrapping
           the generated C code. Invoked automatically by CVXPYgen; can also be run manually via
           <code>python setup.py build_ext --inplace</code>.</p>
      </div>

      <!-- cpg_solver.py -->
      <div class=""file-panel"" id=""f-solver-py"">
        <div class=""file-path-badge"">cpg_solver.py</div>
        <p>A custom CVXPY solve method that routes <code>prob.solve(method='CPG')</code> through
           the Python extension module to the generated C solver.</p>
      </div>
    </section>

    <!-- Using Generated Code -->
    <section>
      <h2>Using Generated Code</h2>

";
 If (Not (Nm "gradient")) ([Txt "      <div class=""usage-block"">
        <h3>CVXPY Interface</h3>
        <p>Register and call the custom solve method:</p>
        <pre><code>from ";
 Out (Nm "code_dir_python");
 Txt ".cpg_solver import cpg_solve
prob.register_solve('CPG', cpg_solve)

&lt;param&gt;.value = ...
prob.solve(method='CPG')
print(&lt;var&gt;.value)</code></pre>
        <p>Here, <code>&lt;param&gt;</code> and <code>&lt;var&gt;</code>
           are placeholders for parameter and variable names, respectively.</p>
      </div>
"]) ([Txt "      <div class=""usage-block"">
        <h3>Python Interface</h3>
        <div class=""tab-group"">
          <div class=""tab-bar"">
            <button class=""tab-btn active"" onclick=""switchTab(event,'tab-di-cvxpy')"">CVXPY</button>
            <button class=""tab-btn""        onclick=""switchTab(event,'tab-di-layers')"">CVXPYlayers</button>
          </div>
          <div class=""tab-body"">
            <div class=""tab-panel active"" id=""tab-di-cvxpy"">
              <pre><code>from ";
 Out (Nm "code_dir_python");
 Txt ".cpg_solver import cpg_solve, cpg_gradient
prob.register_solve('CPG', cpg_solve)

&lt;param&gt;.value = ...
prob.solve(method='CPG')
print(&lt;var&gt;.value)

&lt;var&gt;.gradient = ...
cpg_gradient(prob)
print(&lt;param&gt;.gradient)</code></pre>
            </div>
            <div class=""tab-panel"" id=""tab-di-layers"">
              <pre><code>from cvxpylayers.torch import CvxpyLayer
from ";
 Out (Nm "code_dir_python");
 Txt ".cpg_solver import forward, backward

layer = CvxpyLayer(prob, parameters=[&lt;param&gt;], variables=[&lt;var&gt;],
                   custom_method=(forward, backward))

&lt;param_tensor&gt; = torch.tensor(&lt;param_value&gt;, requires_grad=True)
(&lt;var_tensor&gt;,) = layer(&lt;param_tensor&gt;)
&lt;var_tensor&gt;.sum().backward()</code></pre>
            </div>
          </div>
        </div>
        <p>Here, <code>&lt;param&gt;</code> and <code>&lt;var&gt;</code>
           are placeholders for parameter and variable names, respectively.</p>
      </div>
"]);
 Txt "
      <div class=""usage-block"">
        <h3>Example Executable</h3>
        <p>Build and execute <code>cpg_example</code> as:</p>
        <div class=""tab-group"">
          <div class=""tab-bar"">
            <button class=""tab-btn active"" onclick=""switchTab(event,'tab-unix')"">Unix</button>
            <button class=""tab-btn""        onclick=""switchTab(event,'tab-win')"">Windows</button>
          </div>
          <div class=""tab-body"">
            <div class=""tab-panel active"" id=""tab-unix"">
              <pre><code>cd ";
 Out (Nm "code_dir");
 Txt "/c/build
cmake ..
cmake --build . --target cpg_example
./cpg_example</code></pre>
            </div>
            <div class=""tab-panel"" id=""tab-win"">
              <pre><code>cd ";
 Out (Nm "code_dir");
 Txt "\c\build
cmake ..
cmake --build . --target cpg_example --config release
Release\cpg_example</code></pre>
            </div>
          </div>
        </div>
      </div>

      <div class=""usage-block"">
        <h3>Embed in C/C++ project</h3>
        <p>Copy the following into a subdirectory <code>&lt;subdir&gt;</code> of your project:</p>
        <pre><code>";
 Out (Nm "code_dir");
 Txt "/c/CMakeLists.txt
";
 Out (Nm "code_dir");
 Txt "/c/src/*
";
 Out (Nm "code_dir");
 Txt "/c/include/*
";
 Out (Nm "code_dir");
 Txt "/c/solver_code/*</code></pre>
        <p>In your project's top-level <code>CMakeLists.txt</code>, add:</p>
        <pre><code>add_subdirectory(&lt;subdir&gt;)
include_directories(... $";
 Out (Str "{");
 Out (Nm "cmake_prefix");
 Txt "_include})</code></pre>
        <p>where <code>...</code> is a placeholder for your existing include directories and
           the list of include directories of the generated code <code>$";
 Out (Str "{");
 Out (Nm "cmake_prefix");
 Txt "_include}</code>
           is exposed by <code>";
 Out (Nm "code_dir");
 Txt "/c/CMakeLists.txt</code>.
           Add <code>$";
 Out (Str "{");
 Out (Nm "cmake_prefix");
 Txt "_head}</code> and
           <code>$";
 Out (Str "{");
 Out (Nm "cmake_prefix");
 Txt "_src}</code> to any targets that use the generated code.
      </div>
    </section>

  </main>
</div>

<script>
  // ── File tree interaction ──
  const fileItems = document.querySelectorAll('.tree-file');
  const allPanels = document.querySelectorAll('.file-panel');
  const defaultPanel = document.getElementById('f-default');

  fileItems.forEach(function(item) {
    item.addEventListener('click', function() {
      fileItems.forEach(function(x) { x.classList.remove('active'); });
      allPanels.forEach(function(x) { x.classList.remove('active'); });
      this.classList.add('active');
      var panel = document.getElementById(this.dataset.panel);
      if (panel) { panel.classList.add('active'); }
      document.getElementById('file-contents-section').scrollIntoView({behavior: 'smooth', block: 'start'});
    });
  });

  // ── Tab switching ──
  function switchTab(evt, panelId) {
    var btn = evt.currentTarget;
    var tabBar  = btn.closest('.tab-bar');
    var tabBody = tabBar.nextElementSibling;
    tabBar.querySelectorAll('.tab-btn').forEach(function(b) { b.classList.remove('active'); });
    tabBody.querySelectorAll('.tab-panel').forEach(function(p) { p.classList.remove('active'); });
    btn.classList.add('active');
    var target = document.getElementById(panelId);
    if (target) { target.classList.add('active'); }
  }
</script>

</body>
</html>
"].

(** templates/LICENSE.jinja2 1-201. *)
Definition license_t : list node :=
 [Txt "                                 Apache License
                           Version 2.0, January 2004
                        http://www.apache.org/licenses/

   TERMS AND CONDITIONS FOR USE, REPRODUCTION, AND DISTRIBUTION

   1. Definitions.

      ""License"" shall mean the terms and conditions for use, reproduction,
      and distribution as defined by Sections 1 through 9 of this document.

      ""Licensor"" shall mean the copyright owner or entity authorized by
      the copyright owner that is granting the License.

      ""Legal Entity"" shall mean the union of the acting entity and all
      other entities that control, are controlled by, or are under common
      control with that entity. For the purposes of this definition,
      ""control"" means (i) the power, direct or indirect, to cause the
      direction or management of such entity, whether by contract or
      otherwise, or (ii) ownership of fifty percent (50%) or more of the
      outstanding shares, or (iii) beneficial ownership of such entity.

      ""You"" (or ""Your"") shall mean an individual or Legal Entity
      exercising permissions granted by this License.

      ""Source"" form shall mean the preferred form for making modifications,
      including but not limited to software source code, documentation
      source, and configuration files.

      ""Object"" form shall mean any form resulting from mechanical
      transformation or translation of a Source form, including but
      not limited to compiled object code, generated documentation,
      and conversions to other media types.

      ""Work"" shall mean the work of authorship, whether in Source or
      Object form, made available under the License, as indicated by a
      copyright notice that is included in or attached to the work
      (an example is provided in the Appendix below).

      ""Derivative Works"" shall mean any work, whether in Source or Object
      form, that is based on (or derived from) the Work and for which the
      editorial revisions, annotations, elaborations, or other modifications
      represent, as a whole, an original work of authorship. For the purposes
      of this License, Derivative Works shall not include works that remain
      separable from, or merely link (or bind by name) to the interfaces of,
      the Work and Derivative Works thereof.

      ""Contribution"" shall mean any work of authorship, including
      the original version of the Work and any modifications or additions
      to that Work or Derivative Works thereof, that is intentionally
      submitted to Licensor for inclusion in the Work by the copyright owner
      or by an individual or Legal Entity authorized to submit on behalf of
      the copyright owner. For the purposes of this definition, ""submitted""
      means any form of electronic, verbal, or written communication sent
      to the Licensor or its representatives, including but not limited to
      communication on electronic mailing lists, source code control systems,
      and issue tracking systems that are managed by, or on behalf of, the
      Licensor for the purpose of discussing and improving the Work, but
      excluding communication that is conspicuously marked or otherwise
      designated in writing by the copyright owner as ""Not a Contribution.""

      ""Contributor"" shall mean Licensor and any individual or Legal Entity
      on behalf of whom a Contribution has been received by Licensor and
      subsequently incorporated within the Work.

   2. Grant of Copyright License. Subject to the terms and conditions of
      this License, each Contributor hereby grants to You a perpetual,
      worldwide, non-exclusive, no-charge, royalty-free, irrevocable
      copyright license to reproduce, prepare Derivative Works of,
      publicly display, publicly perform, sublicense, and distribute the
      Work and such Derivative Works in Source or Object form.

   3. Grant of Patent License. Subject to the terms and conditions of
      this License, each Contributor hereby grants to You a perpetual,
      worldwide, non-exclusive, no-charge, royalty-free, irrevocable
      (except as stated in this section) patent license to make, have made,
      use, offer to sell, sell, import, and otherwise transfer the Work,
      where such license applies only to those patent claims licensable
      by such Contributor that are necessarily infringed by their
      Contribution(s) alone or by combination of their Contribution(s)
      with the Work to which such Contribution(s) was submitted. If You
      institute patent litigation against any entity (including a
      cross-claim or counterclaim in a lawsuit) alleging that the Work
      or a Contribution incorporated within the Work constitutes direct
      or contributory patent infringement, then any patent licenses
      granted to You under this License for that Work shall terminate
      as of the date such litigation is filed.

   4. Redistribution. You may reproduce and distribute copies of the
      Work or Derivative Works thereof in any medium, with or without
      modifications, and in Source or Object form, provided that You
      meet the following conditions:

      (a) You must give any other recipients of the Work or
          Derivative Works a copy of this License; and

      (b) You must cause any modified files to carry prominent notices
          stating that You changed the files; and

      (c) You must retain, in the Source form of any Derivative Works
          that You distribute, all copyright, patent, trademark, and
          attribution notices from the Source form of the Work,
          excluding those notices that do not pertain to any part of
          the Derivative Works; and

      (d) If the Work includes a ""NOTICE"" text file as part of its
          distribution, then any Derivative Works that You distribute must
          include a readable copy of the attribution notices contained
          within such NOTICE file, excluding those notices that do not
          pertain to any part of the Derivative Works, in at least one
          of the following places: within a NOTICE text file distributed
          as part of the Derivative Works; within the Source form or
          documentation, if provided along with the Derivative Works; or,
          within a display generated by the Derivative Works, if and
          wherever such third-party notices normally appear. The contents
          of the NOTICE file are for informational purposes only and
          do not modify the License. You may add Your own attribution
          notices within Derivative Works that You distribute, alongside
          or as an addendum to the NOTICE text from the Work, provided
          that such additional attribution notices cannot be construed
          as modifying the License.

      You may add Your own copyright statement to Your modifications and
      may provide additional or different license terms and conditions
      for use, reproduction, or distribution of Your modifications, or
      for any such Derivative Works as a whole, provided Your use,
      reproduction, and distribution of the Work otherwise complies with
      the conditions stated in this License.

   5. Submission of Contributions. Unless You explicitly state otherwise,
      any Contribution intentionally submitted for inclusion in the Work
      by You to the Licensor shall be under the terms and conditions of
      this License, without any additional terms or conditions.
      Notwithstanding the above, nothing herein shall supersede or modify
      the terms of any separate license agreement you may have executed
      with Licensor regarding such Contributions.

   6. Trademarks. This License does not grant permission to use the trade
      names, trademarks, service marks, or product names of the Licensor,
      except as required for reasonable and customary use in describing the
      origin of the Work and reproducing the content of the NOTICE file.

   7. Disclaimer of Warranty. Unless required by applicable law or
      agreed to in writing, Licensor provides the Work (and each
      Contributor provides its Contributions) on an ""AS IS"" BASIS,
      WITHOUT WARRANTIES OR CONDITIONS OF ANY KIND, either express or
      implied, including, without limitation, any warranties or conditions
      of TITLE, NON-INFRINGEMENT, MERCHANTABILITY, or FITNESS FOR A
      PARTICULAR PURPOSE. You are solely responsible for determining the
      appropriateness of using or redistributing the Work and assume any
      risks associated with Your exercise of permissions under this License.

   8. Limitation of Liability. In no event and under no legal theory,
      whether in tort (including negligence), contract, or otherwise,
      unless required by applicable law (such as deliberate and grossly
      negligent acts) or agreed to in writing, shall any Contributor be
      liable to You for damages, including any direct, indirect, special,
      incidental, or consequential damages of any character arising as a
      result of this License or out of the use or inability to use the
      Work (including but not limited to damages for loss of goodwill,
      work stoppage, computer failure or malfunction, or any and all
      other commercial damages or losses), even if such Contributor
      has been advised of the possibility of such damages.

   9. Accepting Warranty or Additional Liability. While redistributing
      the Work or Derivative Works thereof, You may choose to offer,
      and charge a fee for, acceptance of support, warranty, indemnity,
      or other liability obligations and/or rights consistent with this
      License. However, in accepting such obligations, You may act only
      on Your own behalf and on Your sole responsibility, not on behalf
      of any other Contributor, and only if You agree to indemnify,
      defend, and hold each Contributor harmless for any liability
      incurred by, or claims asserted against, such Contributor by reason
      of your accepting any such warranty or additional liability.

   END OF TERMS AND CONDITIONS

   APPENDIX: How to apply the Apache License to your work.

      To apply the Apache License to your work, attach the following
      boilerplate notice, with the fields enclosed by brackets ""[]""
      replaced with your own identifying information. (Don't include
      the brackets!)  The text should be enclosed in the appropriate
      comment syntax for the file format. We also recommend that a
      file or class name and description of purpose be included on the
      same ""printed page"" as the copyright notice for easier
      identification within third-party archives.

   Copyright 2022 Maximilian Schaller

   Licensed under the Apache License, Version 2.0 (the ""License"");
   you may not use this file except in compliance with the License.
   You may obtain a copy of the License at

       http://www.apache.org/licenses/LICENSE-2.0

   Unless required by applicable law or agreed to in writing, software
   distributed under the License is distributed on an ""AS IS"" BASIS,
   WITHOUT WARRANTIES OR CONDITIONS OF ANY KIND, either express or implied.
   See the License for the specific language governing permissions and
   limitations under the License.
"].

(** templates/__init__.py.jinja2 (empty file). *)
Definition init_t : list node :=
 [].

